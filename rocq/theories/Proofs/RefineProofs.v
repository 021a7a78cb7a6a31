(** RefineParticles on one process. *)
From Coq Require Import List ZArith QArith Qround Bool Lia Sorting.Permutation Sorting.Sorted.
From Verif.Model Require Import ListMem Mpi Run Hash Subhalo Nest Mask Unbind.
From Verif.Spec Require Import Members Forest Nesting NestHistory Unbinding.
From Verif.Proofs Require Import ListMemProofs MpiProofs ListExtra MemberProofs TreeProofs NestProofs NestProofs2 NestProofs3 NestProofs4 NestProofs5 LocalizeProofs ForestSteps HistorySteps HistorySteps2 ReachProofs GlueProofs GlueTree HaloWork MaskProofs UnbindProofs StripProofs.
Import ListNotations.
Local Open Scope nat_scope.

(** ** The tests in exact arithmetic *)
Lemma q_times_le relax : (1 <= relax)%Q -> forall b, (inject_Z (Z.of_nat b) <= inject_Z (Z.of_nat b) * relax)%Q.
Proof. intros Hr b. rewrite <- (Qmult_1_r (inject_Z (Z.of_nat b))) at 1. rewrite !(Qmult_comm (inject_Z (Z.of_nat b))). apply Qmult_le_compat_r; [exact Hr|]. change 0%Q with (inject_Z 0). rewrite <- Zle_Qle. lia. Qed.
Lemma allowed_q_ok relax : (1 <= relax)%Q -> forall n, n <= allowed_q relax n.
Proof.
  intros Hr n. unfold allowed_q. assert (H : (Z.of_nat n <= Qfloor (inject_Z (Z.of_nat n) * relax))%Z); [|lia]. rewrite <- (Qfloor_Z (Z.of_nat n)) at 1. apply Qfloor_resp_le. apply q_times_le. exact Hr.
Qed.
Lemma converged_q_ok precision : (precision <= 1)%Q -> forall n, converged_q precision n n = true.
Proof.
  intros Hp n. unfold converged_q. apply Qle_bool_iff. rewrite <- (Qmult_1_r (inject_Z (Z.of_nat n))) at 2. rewrite !(Qmult_comm (inject_Z (Z.of_nat n))). apply Qmult_le_compat_r; [exact Hp|]. change 0%Q with (inject_Z 0). rewrite <- Zle_Qle. lia.
Qed.

Section T.
  Context {X R : Type}.
  Variable allowed : nat -> nat.
  Hypothesis allowed_ok : forall n, n <= allowed n.
  (** Source lists after truncation. *)
  Lemma truncate_ok (s : sub X R) : s_nbound s <= length (s_parts s) ->
    exists n, truncate allowed s = set_parts (firstn n (s_parts s)) s /\ s_nbound s <= n <= length (s_parts s) /\ (s_nbound s <= 1 -> n = s_nbound s) /\ (1 < s_nbound s -> n = Nat.min (allowed (s_nbound s)) (length (s_parts s))).
  Proof.
    intros HB. unfold truncate. set (b := s_nbound s) in *. pose proof (allowed_ok b). destruct (Nat.leb_spec b 1) as [H1|H1].
    - exists (Nat.min b (length (s_parts s))). split; [reflexivity|]. split; [lia|]. split; lia.
    - exists (Nat.min (allowed b) (length (s_parts s))). split; [reflexivity|]. split; [lia|]. split; lia.
  Qed.
End T.

Section S.
  Context {X R E : Type}.
  Local Notation subs_t := (list (sub X R)).
  Local Notation entry := (nat * E)%type.
  Variables neg pos : E -> bool.
  Variable lt : E -> E -> bool.
  Variable sorter : sort_site -> list entry -> list entry.
  Variable shuffle : list (Z * X) -> list (Z * X).
  Variable energy : list (Z * X) * R -> nat -> list entry -> nat -> E.
  Variable inner : list (Z * X) * R -> list entry -> nat -> E.
  Variable no_energy : E.
  Variable rest_of : list (Z * X) -> nat -> R -> R.
  Variable pmass : Z * X -> Q.
  Variables (min_part : nat) (converged : nat -> nat -> bool) (max_sample : nat) (refine : bool) (allowed : nat -> nat) (snap : Z).
  Hypothesis one_sign : forall e, neg e = true -> pos e = false.
  Hypothesis sorter_ok : forall site l, Permutation (sorter site l) l /\ ascending lt snd (sorter site l).
  Hypothesis shuffle_ok : forall l, Permutation (shuffle l) l.
  Hypothesis min_ok : 2 <= min_part.
  Hypothesis converged_ok : forall n, converged n n = true.
  Local Notation unbind := (unbind neg pos sorter shuffle energy inner no_energy rest_of pmass min_part converged max_sample refine snap).
  Local Notation unbinding := (unbinding neg pos lt energy inner no_energy min_part converged max_sample refine snap pmass).
  Local Notation stripped := (stripped neg pos lt energy inner no_energy min_part converged max_sample refine snap pmass).
  Local Notation recursive_unbind := (recursive_with (Unbind.unbind neg pos sorter shuffle energy inner no_energy rest_of pmass min_part converged max_sample refine snap)).
  Local Notation unbind_at := (unbind_at_with (Unbind.unbind neg pos sorter shuffle energy inner no_energy rest_of pmass min_part converged max_sample refine snap)).
  Local Notation refine_particles := (refine_particles neg pos sorter shuffle energy inner no_energy rest_of pmass min_part converged max_sample refine allowed snap).
  Local Notation unbind_total := (unbind_total neg pos lt sorter shuffle energy inner no_energy rest_of pmass min_part converged max_sample refine snap one_sign sorter_ok shuffle_ok min_ok converged_ok).
  Local Notation strip_body := (strip_body neg pos lt sorter shuffle energy inner no_energy rest_of pmass min_part converged max_sample refine snap one_sign sorter_ok shuffle_ok min_ok converged_ok).

  Lemma unbinding_nest l (s u : sub X R) : unbinding (set_nest l s) u -> unbinding s (set_nest (s_nest s) u).
  Proof.
    intros (H1 & H2 & H3 & H4 & H5). split; [rewrite H1; reflexivity|]. split; [exact H2|]. split; [exact H3|]. split; [exact H4|].
    destruct H5 as [[A B C D]|[A B C D F]]; [left|right]; split; assumption.
  Qed.
  Lemma stripped_nest (a b : subs_t) i s l ch : (forall j, In j ch -> leftover a j = leftover b j) -> (forall u, zget a i = Some u -> zget b i = Some (set_nest (s_nest s) u)) ->
    stripped a i (set_nest l s) ch -> stripped b i s ch.
  Proof.
    intros Hl Hz (u & H). assert (E1 : flat_map (leftover a) ch = flat_map (leftover b) ch).
    { clear -Hl. induction ch as [|x r IH]; [reflexivity|]. cbn. rewrite (Hl x (or_introl eq_refl)), IH by (intros; apply Hl; right; assumption). reflexivity. }
    unfold Unbinding.stripped. rewrite E1 in H. exists (set_nest (s_nest s) u). cbn [s_nbound set_nest] in H. destruct (s_nbound s <=? 1); destruct H as [HU HZ]; apply Hz in HZ; (split; [|exact HZ]).
    - eapply unbinding_nest; exact HU.
    - apply (unbinding_nest l (set_parts (s_parts s ++ flat_map (leftover b) ch) s)). exact HU.
  Qed.
  Lemma unbind_list l : forall cur, NoDup l -> (forall i, In i l -> i < length cur) -> exists out, run_each l unbind_at cur = Done out /\ length out = length cur /\
    (forall i, ~ In i l -> nth_error out i = nth_error cur i) /\ (forall i s, In i l -> nth_error cur i = Some s -> exists u, nth_error out i = Some u /\ unbinding s u).
  Proof.
    induction l as [|x l IH]; intros cur Hn Hr.
    - exists cur. split; [reflexivity|]. split; [reflexivity|]. split; [reflexivity|]. intros i s [].
    - inversion Hn as [|? ? Hx Hn']; subst. cbn [run_each]. unfold unbind_at_with at 1. destruct (nth_error_in_range cur x (Hr x (or_introl eq_refl))) as [s Hs]. rewrite Hs.
      destruct (unbind_total s) as (u & Eu & Hu). rewrite Eu. cbn [rbind]. unfold modify. rewrite Hs. destruct (upd_some cur x u (nth_error_lt _ _ _ Hs)) as [c1 E1]. rewrite E1. cbn [of_opt rbind].
      destruct (IH c1 Hn') as (out & E2 & L2 & O2 & D2). { intros i Hi. rewrite (upd_length _ _ _ _ E1). apply Hr. right. exact Hi. }
      exists out. split; [exact E2|]. split; [rewrite L2; eapply upd_length; eauto|]. split.
      + intros i Hi. rewrite O2 by (intros H; apply Hi; right; exact H). apply (upd_other _ _ _ _ _ E1). intros ->. apply Hi. left. reflexivity.
      + intros i si [<-|Hi] Hsi.
        * exists u. split; [rewrite (O2 x Hx); eapply upd_same; eauto|]. congruence.
        * apply D2; [exact Hi|]. rewrite (upd_other _ _ _ _ _ E1); [exact Hsi|]. intros ->. contradiction.
  Qed.
  Lemma unbinding_place s u : unbinding s u -> same_place s u.
  Proof. intros (H & _). destruct (same_nest _ _ H) as (A & B & C & D). split; [unfold nesting_of; congruence|congruence]. Qed.

  Section W.
  Variables (moved : subs_t) (nh : nat) (table : list (list nat)) (subs : subs_t) (ts : list tree) (heads : list (list nat)).
  Hypothesis HN : nested_as moved nh table subs ts.
  Hypothesis Hheads : mapM (heads_of subs) (tl table) = Some heads.
  Hypothesis Hhosts : Forall (fun s => (-1 <= s_host s < Z.of_nat nh)%Z) moved.

  Lemma table_perm : Permutation (concat table) (seq 0 (length moved)).
  Proof.
    destruct HN as (_ & _ & HTL & HTG & _). apply NoDup_Permutation; [|apply seq_NoDup|].
    - assert (Hd : forall h k g g' i, nth_error table h = Some g -> nth_error table k = Some g' -> In i g -> In i g' -> h = k) by (eapply groups_disjoint; eauto).
      assert (Hg : forall h g, nth_error table h = Some g -> NoDup g) by (intros h g H; apply (HTG h g H)). clear -Hd Hg.
      induction table as [|g t IH]; [constructor|]. cbn. apply NoDup_app_intro; [apply (Hg 0); reflexivity|apply IH|].
      + intros h k a b i Ha Hb. intros Hi Hi'. pose proof (Hd (S h) (S k) a b i Ha Hb Hi Hi'). lia.
      + intros h a Ha. apply (Hg (S h)). exact Ha.
      + intros i Hi Hi'. apply in_concat in Hi' as (a & Ha & Hia). apply In_nth_error in Ha as [k Hk]. pose proof (Hd 0 (S k) g a i eq_refl Hk Hi Hia). discriminate.
    - intros i. rewrite in_concat, in_seq. split.
      + intros (g & Hg & Hi). apply In_nth_error in Hg as [h Hh]. apply (HTG h g Hh) in Hi. apply hosted_lt in Hi. lia.
      + intros Hi. destruct (nth_error_in_range moved i) as [s Hs]; [lia|]. rewrite Forall_forall in Hhosts. pose proof (Hhosts s (nth_error_In _ _ Hs)) as Hr.
        destruct (nth_error_in_range table (Z.to_nat (s_host s + 1))) as [g Hg]; [lia|]. exists g. split; [eapply nth_error_In; eauto|]. apply (HTG _ _ Hg). exists s. split; [exact Hs|lia].
  Qed.

  Lemma refine_ok fuel order order2 : length subs <= fuel -> Permutation order (seq 0 nh) -> Permutation order2 (unnested table subs) ->
    exists mid, refine_particles fuel order order2 table heads subs = Done (map (truncate allowed) mid) /\ length mid = length subs /\
      (forall h c rest, nth_error table (S h) = Some (c :: rest) -> exists others, nth_error heads h = Some (c :: others) /\
         (forall i s, In i (c :: rest) -> nth_error subs i = Some s -> stripped mid (Z.of_nat i) s (if i =? c then s_nest s ++ zs others else s_nest s)) /\
         Permutation (flat_map (bound_parts mid) (zs (c :: rest)) ++ leftover mid (Z.of_nat c)) (flat_map (held_by subs) (zs (c :: rest))) /\
         exists t a b, strip_post neg pos lt energy inner no_energy pmass min_part converged max_sample refine snap t a b /\ Permutation (nodes t) (zs (c :: rest)) /\
           forall i, In i (nodes t) -> exists s w l, zget subs i = Some s /\ zget a i = Some (set_nest l s) /\ zget b i = Some w /\ zget mid i = Some (set_nest (s_nest s) w)) /\
      (forall i s, nth_error subs i = Some s -> (length moved <= i \/ s_host s = (-1)%Z) -> exists u, nth_error mid i = Some u /\ unbinding s u) /\
      Forall2 same_place subs mid.
  Proof.
    intros Hf Hord Hord2. destruct (glued_trees _ _ _ _ _ _ HN Hheads) as (glued & sizes & Eg & HL & Hget & _).
    pose proof (centrals_nodup _ _ _ _ _ _ HN Hheads) as Hcn. pose proof (heads_len _ _ _ Hheads) as Hhl.
    destruct (glue_spec (tl table) heads subs Hcn Hhl (glue_ok _ _ _ _ _ _ HN Hheads)) as (g' & sz' & Egl & _ & _ & Hg3 & Hg4). rewrite Eg in Egl. injection Egl as <- <-.
    destruct (over_halos_spec moved nh table subs ts heads HN Hheads _ fuel _ _ order glued sizes (strip_body fuel) Hf Hord Eg) as (out1 & worked & Eo & HLo & HLw & Hgw & Hout & HQ & Hrest); [auto|].
    unfold Unbind.refine_particles, refine_with. rewrite Eo. cbn [rbind].
    assert (Hperm := table_perm). assert (Hcl : length (concat table) = length moved) by (rewrite (Permutation_length Hperm), seq_length; reflexivity).
    assert (HTL : length table = S nh) by apply HN. assert (HLs : length subs = length moved + count_empty table) by apply HN.
    destruct table as [|g0 tb] eqn:Etab; [discriminate|]. rewrite <- Etab in *. assert (Hg0 : nth_error table 0 = Some g0) by (rewrite Etab; reflexivity).
    assert (Hu : unnested table subs = g0 ++ seq (length moved) (length subs - length moved)) by (unfold unnested; rewrite Hcl, Etab; reflexivity).
    assert (Hlt0 : forall i h g, nth_error table h = Some g -> In i g -> i < length moved).
    { intros i h g Hg Hi. destruct (table_member _ _ _ _ _ HN _ _ _ Hg Hi) as (? & _ & _ & H). exact H. }
    assert (Hin2 : forall i, In i order2 <-> In i g0 \/ (length moved <= i < length subs)).
    { intros i. split; intros Hi.
      - apply (Permutation_in _ Hord2) in Hi. rewrite Hu in Hi. apply in_app_or in Hi as [Hi|Hi]; [left; exact Hi|right]. apply in_seq in Hi. lia.
      - apply (Permutation_in _ (Permutation_sym Hord2)). rewrite Hu. apply in_or_app. destruct Hi as [Hi|Hi]; [left; exact Hi|right; apply in_seq; lia]. }
    destruct (unbind_list order2 out1) as (mid & Em & HLm & Ho2 & Hd2).
    { eapply Permutation_NoDup; [symmetry; exact Hord2|]. rewrite Hu. destruct HN as (_ & _ & _ & HTG & _). apply NoDup_app_intro; [apply (HTG 0 g0 Hg0)|apply seq_NoDup|]. intros i Hi Hi'. apply in_seq in Hi'. pose proof (Hlt0 i 0 g0 Hg0 Hi). lia. }
    { intros i Hi. rewrite HLo. apply Hin2 in Hi as [Hi|Hi]; [pose proof (Hlt0 i 0 g0 Hg0 Hi)|]; lia. }
    rewrite Em. cbn [rbind]. exists mid. split; [reflexivity|]. split; [congruence|].
    assert (Hgrp : forall h g i, nth_error table (S h) = Some g -> In i g -> nth_error mid i = nth_error out1 i).
    { intros h g i Hg Hi. apply Ho2. intros H2. apply Hin2 in H2 as [H2|H2]; [|pose proof (Hlt0 i _ _ Hg Hi); lia]. pose proof (groups_disjoint _ _ _ _ _ HN 0 (S h) g0 g i Hg0 Hg H2 Hi). discriminate. }
    (* groups *)
    assert (Hhost : forall h c rest, nth_error table (S h) = Some (c :: rest) -> exists others, nth_error heads h = Some (c :: others) /\
         (forall i s, In i (c :: rest) -> nth_error subs i = Some s -> stripped mid (Z.of_nat i) s (if i =? c then s_nest s ++ zs others else s_nest s)) /\
         Permutation (flat_map (bound_parts mid) (zs (c :: rest)) ++ leftover mid (Z.of_nat c)) (flat_map (held_by subs) (zs (c :: rest))) /\
         exists t a b, strip_post neg pos lt energy inner no_energy pmass min_part converged max_sample refine snap t a b /\ Permutation (nodes t) (zs (c :: rest)) /\
           forall i, In i (nodes t) -> exists s w l, zget subs i = Some s /\ zget a i = Some (set_nest l s) /\ zget b i = Some w /\ zget mid i = Some (set_nest (s_nest s) w)).
    { intros h c rest Hg. destruct (heads_first _ _ _ _ _ _ HN Hheads h c rest Hg) as (others & Hoth & _). exists others. split; [exact Hoth|].
      destruct (HQ h c rest Hg) as (t & HR & Hlab & HP & HX).
      assert (Hmem : forall i, In i (nodes t) <-> In i (zs (c :: rest))) by (intros i; split; apply Permutation_in; [|symmetry]; exact HP).
      assert (Hgl : forall i s, In i (c :: rest) -> nth_error subs i = Some s -> nth_error glued i = Some (set_nest (if i =? c then s_nest s ++ zs others else s_nest s) s)).
      { intros i s Hi Hs. destruct (Nat.eqb_spec i c) as [->|Hne].
        - destruct (Hg4 h c rest c others s) as [A _]; [apply tl_at; exact Hg|exact Hoth|exact Hs|]. exact A.
        - rewrite Hg3; [rewrite Hs; destruct s; reflexivity|]. intros Hc. apply centrals_in in Hc as (k & r' & Hk). apply tl_at in Hk. assert (S k = S h) by (eapply (groups_disjoint _ _ _ _ _ HN); [exact Hk|exact Hg|left; reflexivity|exact Hi]). assert (k = h) by lia. subst. rewrite Hg in Hk. congruence. }
      (* values of members in worked, out1, mid *)
      assert (Hval : forall i, In i (zs (c :: rest)) -> exists s w, zget subs i = Some s /\ zget worked i = Some w /\ zget mid i = Some (set_nest (s_nest s) w)).
      { intros i Hi. apply in_map_iff in Hi as (j & <- & Hj). destruct (table_member _ _ _ _ _ HN _ _ j Hg Hj) as (s & Hs & _). destruct (nth_error_in_range worked j) as [w Hw]; [rewrite HLw; eapply nth_error_lt; eauto|].
        rewrite <- zget_of_nat in Hs, Hw. exists s, w. split; [exact Hs|]. split; [exact Hw|]. rewrite zget_of_nat, (Hgrp h _ j Hg Hj), <- zget_of_nat. apply Hout; assumption. }
      assert (Hleft : forall i, In i (zs (c :: rest)) -> leftover worked i = leftover mid i /\ bound_parts worked i = bound_parts mid i).
      { intros i Hi. destruct (Hval i Hi) as (s & w & _ & B & C). unfold leftover, bound_parts. rewrite B, C. split; reflexivity. }
      split; [|split].
      - intros i s Hi Hs. assert (Hi' : In (Z.of_nat i) (nodes t)) by (rewrite Hmem; apply in_zs; exact Hi). assert (Hgi := Hgl i s Hi Hs). rewrite <- zget_of_nat in Hgi.
        eapply stripped_nest; [| |exact (proj2 HX _ _ Hi' Hgi)].
        + intros j Hj. apply Hleft. rewrite <- Hmem. eapply child_in; [exact HR|exact Hi'|exact Hgi|exact Hj].
        + intros u Hw. destruct (Hval (Z.of_nat i)) as (s' & w & A & B & C); [apply in_zs; exact Hi|]. rewrite zget_of_nat in A. assert (s' = s) by congruence. assert (w = u) by congruence. subst. exact C.
      - assert (HC : Permutation (flat_map (bound_parts worked) (nodes t) ++ leftover worked (label t)) (flat_map (held_by glued) (nodes t))) by (eapply strip_conserved; eassumption). rewrite Hlab in HC.
        assert (F1 : flat_map (bound_parts worked) (zs (c :: rest)) = flat_map (bound_parts mid) (zs (c :: rest))).
        { clear -Hleft. revert Hleft. generalize (zs (c :: rest)) as l. induction l as [|x l IH]; intros H; [reflexivity|]. cbn. rewrite (proj2 (H x (or_introl eq_refl))), IH by (intros; apply H; right; assumption). reflexivity. }
        assert (F2 : flat_map (held_by glued) (zs (c :: rest)) = flat_map (held_by subs) (zs (c :: rest))).
        { assert (forall i, In i (zs (c :: rest)) -> held_by glued i = held_by subs i) as H.
          { intros i Hi. destruct (Hval i Hi) as (s & _ & A & _). apply in_map_iff in Hi as (j & <- & Hj). rewrite zget_of_nat in A. assert (Hgi := Hgl j s Hj A). rewrite <- zget_of_nat in A, Hgi. unfold held_by. rewrite A, Hgi. reflexivity. }
          clear -H. revert H. generalize (zs (c :: rest)) as l. induction l as [|x l IH]; intros H; [reflexivity|]. cbn. rewrite (H x (or_introl eq_refl)), IH by (intros; apply H; right; assumption). reflexivity. }
        rewrite <- F1, <- F2, <- (proj1 (Hleft (Z.of_nat c) ltac:(left; reflexivity))). rewrite <- (Permutation_flat_map (bound_parts worked) HP), <- (Permutation_flat_map (held_by glued) HP). exact HC.
      - exists t, glued, worked. split; [exact HX|]. split; [exact HP|]. intros i Hi. rewrite Hmem in Hi. destruct (Hval i Hi) as (s & w & A & B & C). apply in_map_iff in Hi as (j & <- & Hj). rewrite zget_of_nat in A. assert (Hgi := Hgl j s Hj A).
        rewrite <- zget_of_nat in A, Hgi. exists s, w. eexists. split; [exact A|]. split; [exact Hgi|]. split; [exact B|exact C]. }
    split; [exact Hhost|].
    assert (Hplain : forall i s, nth_error subs i = Some s -> (length moved <= i \/ s_host s = (-1)%Z) -> exists u, nth_error mid i = Some u /\ unbinding s u).
    { intros i s Hs Hc. apply Hd2.
      - apply Hin2. destruct (Nat.lt_ge_cases i (length moved)) as [Hlt|Hge]; [left|right; split; [exact Hge|eapply nth_error_lt; eauto]]. destruct Hc as [|Hc]; [lia|].
        destruct HN as (_ & _ & _ & HTG & Hold & _). apply (HTG 0 g0 Hg0). destruct (nth_error_in_range moved i Hlt) as [m Hm]. destruct (Hold i m Hm) as (b & Hb & _ & Eh). exists m. split; [exact Hm|]. assert (b = s) by congruence. subst. cbn. lia.
      - rewrite Hrest; [exact Hs|]. eapply unmembered; eauto. }
    split; [exact Hplain|]. apply Forall2_of_nth; [congruence|]. intros i a b Ha Hb.
    destruct (Nat.lt_ge_cases i (length moved)) as [Hlt|Hge].
    - assert (Hi : In i (concat table)) by (apply (Permutation_in _ (Permutation_sym Hperm)); apply in_seq; lia). apply in_concat in Hi as (g & Hg & Hi). apply In_nth_error in Hg as [[|h] Hg].
      + destruct (table_member _ _ _ _ _ HN _ _ i Hg Hi) as (s & Hs & Eh & _). assert (s = a) by congruence. subst s. destruct (Hplain i a Ha) as (u & A & B); [right; lia|]. assert (u = b) by congruence. subst. apply unbinding_place. exact B.
      + destruct g as [|c rest]; [destruct Hi|]. destruct (Hhost h c rest Hg) as (others & _ & HS & _). specialize (HS i a Hi Ha). destruct HS as (u & HS). rewrite !zget_of_nat in HS.
        destruct (s_nbound a <=? 1); destruct HS as [HU HZ]; apply unbinding_place in HU; destruct HU as [H1 H2]; [assert (b = set_parts (s_parts a ++ flat_map (leftover mid) (if i =? c then s_nest a ++ zs others else s_nest a)) u) by congruence|assert (b = u) by congruence]; subst b; split; [exact H1|exact H2|exact H1|exact H2].
    - destruct (Hplain i a Ha (or_introl Hge)) as (u & A & B). assert (u = b) by congruence. subst. apply unbinding_place. exact B.
  Qed.
  End W.
End S.
