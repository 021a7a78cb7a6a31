(** The whole work on a snapshot when nothing is stripped. *)
From Coq Require Import List ZArith QArith Bool Lia Sorting.Permutation.
From Verif.Model Require Import ListMem Mpi Run Hash Subhalo Tracks Nest UpdateTracks Mask Unbind Merge Work Variants.
From Verif.Spec Require Import Members Forest Nesting NestHistory Masking Unbinding Sinking Ownership.
From Verif.Proofs Require Import ListMemProofs MpiProofs ListExtra MemberProofs NestProofs NestProofs2 TreeProofs LocalizeProofs ForestSteps HistorySteps HistorySteps2 HistoryProofs GlueTree HaloWork MaskFinal UnbindProofs StripProofs RefineProofs DetectProofs MergeProofs MergeFinal WorkProofs OwnProofs KeepProofs.
From Verif.Props Require Import PropsMerge.
Import ListNotations.
Local Open Scope nat_scope.

Section S.
  Context {X R E : Type}.
  Local Notation entry := (nat * E)%type.
  Variable lt : E -> E -> bool.
  Variable sorter : sort_site -> list entry -> list entry.
  Variable shuffle : list (Z * X) -> list (Z * X).
  Variable energy : list (Z * X) * R -> nat -> list entry -> nat -> E.
  Variable inner : list (Z * X) * R -> list entry -> nat -> E.
  Variable no_energy : E.
  Variable rest_of : list (Z * X) -> nat -> R -> R.
  Variable pmass : Z * X -> Q.
  Variables (min_part : nat) (converged : nat -> nat -> bool) (max_sample : nat) (refine : bool) (allowed : nat -> nat) (snap : Z).
  Variable near : nat * list (Z * X) * R -> nat * list (Z * X) * R -> bool.
  Hypothesis sorter_ok : forall site l, Permutation (sorter site l) l /\ ascending lt snd (sorter site l).
  Hypothesis shuffle_ok : forall l, Permutation (shuffle l) l.
  Hypothesis min_ok : 2 <= min_part.
  Hypothesis converged_ok : forall n, converged n n = true.
  Hypothesis allowed_ok : forall n, n <= allowed n.
  Hypothesis snap_ok : (0 <= snap)%Z.
  Local Notation unbinding := (unbinding all none lt energy inner no_energy min_part converged max_sample refine snap pmass).
  Local Notation work := (work all none sorter shuffle energy inner no_energy rest_of pmass min_part converged max_sample refine allowed snap near).
  Local Notation rounds := (rounds all none energy no_energy min_part converged).
  Local Notation cut := (cut all none energy).
  Lemma sign_all : forall e : E, all e = true -> none e = false.
  Proof. reflexivity. Qed.
  Local Notation refine_ok := (refine_ok all none lt sorter shuffle energy inner no_energy rest_of pmass min_part converged max_sample refine allowed snap sign_all sorter_ok shuffle_ok min_ok converged_ok).
  Local Notation settled_refine := (refine_settled all none lt sorter shuffle energy inner no_energy rest_of pmass min_part converged max_sample refine allowed snap sign_all sorter_ok shuffle_ok min_ok converged_ok allowed_ok snap_ok).
  Local Notation settled_merge := (merge_settled all none lt sorter shuffle energy inner no_energy rest_of pmass min_part converged max_sample refine allowed snap near sign_all sorter_ok shuffle_ok min_ok converged_ok allowed_ok snap_ok).

  Lemma cut_all w k l n a b : cut w k l n a b -> b = [] /\ length a = n.
  Proof.
    intros ((ev & L & _ & P) & _ & F). assert (b = []) as ->. { destruct b as [|x b]; [reflexivity|]. inversion F as [|? ? F1]; subst. discriminate F1. }
    split; [reflexivity|]. apply Permutation_length in P. rewrite app_nil_r in P. congruence.
  Qed.
  Lemma rounds_all w k l n : rounds w k l n -> k = 0 /\ l = map (fun i => (i, no_energy)) (seq 0 (length (fst w))) /\ n = length (fst w).
  Proof using converged_ok.
    intros H. destruct H as [|k l n a b H HC HM HE]; [auto|]. apply cut_all in HC as [_ HC]. destruct HE. unfold enough. rewrite HC. apply converged_ok.
  Qed.
  Lemma bound_all s u : bound_by all none lt energy inner no_energy min_part converged max_sample refine s u -> exists parts ev core,
    Permutation parts (s_parts s) /\ ((max_sample = 0 \/ length parts <= max_sample) -> parts = s_parts s) /\ length ev = length parts /\
    (forall i, i < length parts -> nth_error ev i = Some (i, energy (parts, s_rest s) 0 (map (fun i => (i, no_energy)) (seq 0 (length parts))) i)) /\
    final_order lt inner max_sample refine (parts, s_rest s) ev [] core /\ s_nbound u = length parts /\ Forall2 (fun e p => nth_error parts (fst e) = Some p) core (s_parts u).
  Proof using converged_ok.
    intros (parts & k & l & n & a & b & core & HP & HS & HR & HC & _ & _ & HF & HN & H2). apply rounds_all in HR as (-> & -> & ->). cbn [fst] in *. pose proof (cut_all _ _ _ _ _ _ HC) as [-> La].
    rewrite skipn_all2 in HF, H2 by (rewrite map_length, seq_length; apply le_n). cbn [app] in HF, H2. rewrite app_nil_r in H2. destruct HC as ((ev & Le & Hev & Pe) & _). rewrite app_nil_r in Pe.
    exists parts, ev, core. split; [exact HP|]. split; [exact HS|]. split; [exact Le|]. split.
    - intros i Hi. apply (Hev i (i, no_energy) Hi). rewrite nth_error_map, nth_seq, (proj2 (Nat.ltb_lt _ _) Hi). reflexivity.
    - split; [|split; [congruence|exact H2]]. destruct HF as (sorted & A & B & C). exists sorted. split; [rewrite A; exact Pe|]. split; [exact B|]. rewrite La in C. rewrite Le. exact C.
  Qed.
  Lemma unbinding_whole s u : unbinding s u -> 1 < s_nbound u -> whole u.
  Proof using All.
    intros (_ & HP & _ & _ & [[_ HB _ _]|[_ HL _ _ _]]) H; [|lia]. apply bound_all in HB as (parts & ev & core & A & _ & _ & _ & _ & B & _). unfold whole. rewrite B, (Permutation_length A), (Permutation_length HP). reflexivity.
  Qed.
  Definition nearly (v : sub X R) : Prop := s_nbound v <= length (s_parts v) /\ (1 < s_nbound v -> whole v).
  Lemma unbinding_nearly s u : unbinding s u -> nearly u.
  Proof using All. intros H. split; [apply H|exact (unbinding_whole _ _ H)]. Qed.
  Lemma truncate_whole v : nearly v -> whole (truncate allowed v).
  Proof using All.
    intros [A B]. destruct (truncate_ok allowed allowed_ok v A) as (n & -> & Hn & H1 & _). unfold whole. cbn. rewrite firstn_length.
    destruct (Nat.le_gt_cases (s_nbound v) 1) as [H|H]; [rewrite (H1 H); lia|]. specialize (B H). unfold whole in B. lia.
  Qed.

  Section W.
  Variables (moved : list (sub X R)) (nh : nat) (table : list (list nat)) (subs : list (sub X R)) (ts : list tree) (heads : list (list nat)).
  Hypothesis HN : nested_as moved nh table subs ts.
  Hypothesis Hheads : mapM (heads_of subs) (tl table) = Some heads.
  Hypothesis Hhosts : Forall (fun s => (-1 <= s_host s < Z.of_nat nh)%Z) moved.
  Lemma refine_whole fuel order order2 out : length subs <= fuel -> Permutation order (seq 0 nh) -> Permutation order2 (unnested table subs) -> Forall compact subs ->
    refine_particles all none sorter shuffle energy inner no_energy rest_of pmass min_part converged max_sample refine allowed snap fuel order order2 table heads subs = Done out -> Forall whole out.
  Proof using All.
    intros Hf Ho Ho2 Hc EO. destruct (refine_ok _ _ _ _ _ _ HN Hheads Hhosts fuel order order2 Hf Ho Ho2) as (mid & EQ & HL & HG & HP & HS). rewrite EQ in EO. injection EO as <-. rewrite Forall_forall in Hc.
    assert (HTP : Permutation (concat table) (seq 0 (length moved))) by exact (table_perm all none energy no_energy rest_of min_part converged allowed sign_all min_ok converged_ok _ _ _ _ _ HN Hhosts).
    assert (Hset : Forall nearly mid).
    { apply Forall_forall. intros v Hv. apply In_nth_error in Hv as [i Hi]. destruct (nth_error_in_range subs i) as [s Hs]; [rewrite (Forall2_length_eq _ _ _ HS); eapply nth_error_lt; eauto|].
      destruct (Nat.lt_ge_cases i (length moved)) as [Hlt|Hge].
      - assert (Hc' : In i (concat table)) by (apply (Permutation_in _ (Permutation_sym HTP)); apply in_seq; lia). apply in_concat in Hc' as (g & Hg & Hc'). apply In_nth_error in Hg as [[|h] Hg].
        + destruct (table_member _ _ _ _ _ HN _ _ i Hg Hc') as (s' & Hs' & Eh & _). assert (s' = s) by congruence. subst s'. destruct (HP i s Hs) as (u & A & B); [right; lia|]. assert (u = v) by congruence. subst. eapply unbinding_nearly; eauto.
        + destruct g as [|c rest]; [destruct Hc'|]. destruct (HG h c rest Hg) as (others & _ & HT & _). destruct (HT i s Hc' Hs) as (u & HU).
          destruct (Nat.leb_spec (s_nbound s) 1) as [Hb|Hb]; destruct HU as [HU HZ]; rewrite zget_of_nat, Hi in HZ; injection HZ as ->; [|eapply unbinding_nearly; eauto].
          specialize (Hc s (nth_error_In _ _ Hs) Hb). pose proof (unbinding_nearly _ _ HU) as [A B]. assert (s_nbound u <= 1) by (destruct HU as (_ & HPm & HL' & _); apply Permutation_length in HPm; lia).
          split; cbn; [rewrite app_length; destruct HU as (_ & HPm & _); apply Permutation_length in HPm; lia|lia].
      - destruct (HP i s Hs (or_introl Hge)) as (u & A & B). assert (u = v) by congruence. subst. eapply unbinding_nearly; eauto. }
    rewrite Forall_forall in Hset. apply Forall_forall. intros v Hv. apply in_map_iff in Hv as (x & <- & Hx). apply truncate_whole, Hset, Hx.
  Qed.
  End W.
  Lemma merging_whole heads mt subs out : Forall whole subs -> merging_done all none lt energy inner no_energy pmass min_part converged max_sample refine allowed snap near heads mt subs out -> Forall whole out.
  Proof using All.
    intros HS (marked & L1 & L2 & HD & HM). rewrite Forall_zget in HS. apply Forall_zget. intros i v Hv. pose proof (zget_some _ _ _ Hv) as Hr. destruct (zget_in_range subs i) as [s Hs]; [lia|].
    pose proof (HS i s Hs) as A. destruct (HD i s Hs) as (m & Hm & HDm).
    assert (HMm : whole m). { unfold detected in HDm. destruct (Z.eqb_spec (s_sink s) (-1)) as [Es|Es]; [destruct HDm as [(k & _ & ->)|[_ ->]]|subst m]; exact A. }
    destruct mt; [|subst out; assert (m = v) by congruence; subst; exact HMm].
    destruct (HM i m Hm) as (u & v' & Hv' & [W1 W2] & H1 & H2). assert (v' = v) by congruence. subst v'. destruct (joins_dec marked i) as [Hj|Hj].
    - rewrite (H2 Hj). destruct (sinking_dec m) as [Hk|Hk].
      + specialize (W1 Hk). unfold remains in W1. destruct (Nat.leb_spec (s_nbound m) 1); [subst u; exact HMm|destruct W1 as (x & r & _ & ->); reflexivity].
      + destruct (W2 Hk) as [_ _ W3]. rewrite (W3 Hj). exact HMm.
    - destruct (H1 Hj) as (w & HU & ->). apply truncate_whole. eapply unbinding_nearly; eauto.
  Qed.

  Lemma work_whole : forall (H : Type) (before : list (list (sub X R))) (ps : list (@proc X R H)) p merge_trapped oh oh2 os o1 o2 o3 o4 out,
    nest_history (H := H) before -> nest_begun before ps -> In p ps ->
    Permutation oh (seq 0 (length (p_halos p))) -> Permutation oh2 (seq 0 (length (p_halos p))) -> Permutation os (unnested (p_table p) (p_nested p)) ->
    Permutation o1 (seq 0 (length (p_nested p))) -> Permutation o2 (seq 0 (length (p_nested p))) -> Permutation o3 (seq 0 (length (p_halos p))) -> Permutation o4 (seq 0 (length (p_nested p))) ->
    Forall compact (p_nested p) ->
    work merge_trapped (length (p_nested p)) oh oh2 os o1 o2 o3 o4 (p_table p) (p_heads p) (p_nested p) = Done out -> Forall whole out.
  Proof.
    intros H before ps p mt oh oh2 os o1 o2 o3 o4 out HH HB Hp Hoh Hoh2 Hos P1 P2 P3 P4 Hc EW.
    destruct (place_facts H before ps p HH HB Hp (p_nested p)) as (tn & HN & Hh & Hr). { clear. induction (p_nested p); constructor; [split; reflexivity|assumption]. }
    destruct (mask_halos_spec (p_moved p) (length (p_halos p)) (p_table p) (p_nested p) tn (p_heads p) HN Hh (length (p_nested p)) oh (le_n _) Hoh) as (a & Ea & La & Xa & Na & Ma).
    assert (Sa := mask_place H p a Ma). destruct (place_facts H before ps p HH HB Hp a Sa) as (ta & HNa & Hha & _). rewrite Forall_forall in Hc.
    assert (Hca : Forall compact a).
    { apply Forall_forall. intros s Hs Hb. apply In_nth_error in Hs as [i Hs]. destruct (nth_error_in_range (p_nested p) i) as [s0 Hs0]; [rewrite <- La; eapply nth_error_lt; eauto|].
      assert (Hd : (forall h g, nth_error (p_table p) (S h) = Some g -> ~ In i g) \/ exists h g, nth_error (p_table p) (S h) = Some g /\ In i g).
      { destruct (p_table p) as [|g0 tb]; [left; intros h g Hg; discriminate|]. cbn [nth_error]. clear. induction tb as [|g tb IH]; [left; intros [|h] g Hg; discriminate|]. destruct (in_dec Nat.eq_dec i g) as [Hi|Hi]; [right; exists 0, g; auto|].
        destruct IH as [IH|(h & g' & A & B)]; [left; intros [|h] g' Hg; [injection Hg as <-; exact Hi|exact (IH h g' Hg)]|right; exists (S h), g'; auto]. }
      pose proof (nth_error_In _ _ Hs0) as Hin. destruct Hd as [Hd|(h & g & Hg & Hi)].
      - rewrite (Na i Hd) in Hs. assert (s = s0) by congruence. subst. apply (Hc s0 Hin Hb).
      - destruct (Xa h g Hg) as [_ _ _ _ X5 X6]. assert (Hz : In (Z.of_nat i) (zs g)) by (apply in_zs; exact Hi). rewrite <- zget_of_nat in Hs, Hs0.
        destruct (X5 _ _ Hz Hs0) as (k & Ek & Hk). rewrite Ek in Hs. injection Hs as <-. cbn in Hb. rewrite (X6 _ _ Hz Hs0 Hb) in Ek. injection Ek as Ek. rewrite <- Ek. apply (Hc s0 Hin Hb). }
    destruct (settled_refine _ _ _ _ _ _ HNa Hha Hr (length (p_nested p)) oh2 os) as (b & Eb & Sb & Tb); [lia|exact Hoh2|unfold unnested; rewrite La; exact Hos|].
    assert (Hb : Forall whole b). { eapply (refine_whole _ _ _ _ _ _ HNa Hha Hr (length (p_nested p)) oh2 os); [lia|exact Hoh2|unfold unnested; rewrite La; exact Hos|exact Hca|exact Eb]. }
    assert (Sab : Forall2 same_place (p_nested p) b) by (eapply F2_trans; [apply same_place_trans|exact Sa|exact Sb]). destruct (place_facts H before ps p HH HB Hp b Sab) as (tb & HNb & Hhb & _).
    assert (Lb := Forall2_length_eq _ _ _ Sab). destruct (settled_merge _ _ _ _ _ _ HNb Hhb Hr mt (length (p_nested p)) o1 o2 o3 o4 Tb) as (out' & Eo & Mo); try (rewrite <- Lb; assumption); [lia|exact P3|].
    unfold Work.work, work_with in EW. unfold Unbind.refine_particles in Eb. rewrite Ea in EW. cbn [rbind] in EW. rewrite Eb in EW. cbn [rbind] in EW. assert (out' = out) by congruence. subst out'.
    eapply merging_whole; eassumption.
  Qed.
End S.
