(** AssignRanks, FillDepth and the end of UpdateTracks on a local forest. *)
From Coq Require Import List ZArith Bool Lia Sorting.Permutation.
From Verif.Model Require Import ListMem Mpi Run Subhalo Nest.
From Verif.Spec Require Import Forest.
From Verif.Proofs Require Import ListMemProofs MpiProofs ListExtra MemberProofs TreeProofs NestProofs NestProofs2 NestProofs3 NestProofs4.
Import ListNotations.
Local Open Scope Z_scope.

Lemma table_for_ext {X R} (subs subs' : list (sub X R)) nh table : length subs' = length subs ->
  (forall i s, nth_error subs i = Some s -> exists s', nth_error subs' i = Some s' /\ s_host s' = s_host s) ->
  table_for subs nh table -> table_for subs' nh table.
Proof.
  intros HL He (H1 & H2 & H3). assert (He' : forall i s', nth_error subs' i = Some s' -> exists s, nth_error subs i = Some s /\ s_host s' = s_host s).
  { intros i s' Hs'. destruct (nth_error_in_range subs i) as [s Hs]; [rewrite <- HL; eapply nth_error_lt; eauto|]. destruct (He i s Hs) as (s2 & E & Eh). exists s. split; congruence. }
  split; [exact H1|]. split.
  - intros k g Hg. destruct (H2 k g Hg) as [Hn Hi]. split; [exact Hn|]. intros i. rewrite Hi. split.
    + intros (s & Hs & E). destruct (He i s Hs) as (s' & Hs' & Eh). exists s'. split; [exact Hs'|lia].
    + intros (s' & Hs' & E). destruct (He' i s' Hs') as (s & Hs & Eh). exists s. split; [exact Hs|lia].
  - intros i s' Hs'. destruct (He' i s' Hs') as (s & Hs & Eh). rewrite Eh. eapply H3; eauto.
Qed.

Section Ranks.
  Context {X R : Type}.
  Lemma assign_ranks_spec (subs : list (sub X R)) nh table : table_for subs nh table ->
    exists subs', assign_ranks table subs = Some subs' /\ length subs' = length subs /\
      forall i s, nth_error subs i = Some s -> exists s', nth_error subs' i = Some s' /\ ranks_only s s' /\
        (s_host s = -1 -> s_rank s' = 0) /\
        (forall h g k, nth_error table (S h) = Some g -> nth_error g k = Some i -> s_rank s' = Z.of_nat k).
  Proof.
    intros (H1 & H2 & H3). destruct table as [|field groups]; [discriminate|]. unfold assign_ranks. cbn [firstn concat tl]. rewrite app_nil_r.
    destruct (H2 0%nat field eq_refl) as [Hfn Hfi].
    destruct (for_each_modify (set_rank 0) (fun x => eq_refl) field subs) as (s1 & E1 & HL1 & Hg1).
    { intros i Hi. apply Hfi in Hi as (s & Hs & _). eapply nth_error_lt; eauto. }
    rewrite E1.
    assert (Hn1 : forall i s, nth_error subs i = Some s -> nth_error s1 i = Some (if s_host s =? -1 then set_rank 0 s else s)).
    { intros i s Hs. rewrite <- zget_of_nat, Hg1, zget_of_nat, Hs. destruct (Z.eqb_spec (s_host s) (-1)) as [E|E].
      - rewrite memb_true; [reflexivity|]. apply in_zs. apply Hfi. exists s. split; [exact Hs|lia].
      - rewrite memb_false; [reflexivity|]. rewrite in_zs, Hfi. intros (s' & Hs' & E'). assert (s' = s) by congruence. subst. lia. }
    assert (Hgi : forall k g i, nth_error groups k = Some g -> In i g -> exists s, nth_error subs i = Some s /\ s_host s = Z.of_nat k).
    { intros k g i Hg Hi. apply (H2 (S k) g Hg) in Hi as (s & Hs & E). exists s. split; [exact Hs|lia]. }
    destruct (for_each_inv (fun pre cur => length cur = length subs /\
       (forall i, ~ In i (concat pre) -> nth_error cur i = nth_error s1 i) /\
       (forall h g k i s, nth_error pre h = Some g -> nth_error g k = Some i -> nth_error subs i = Some s -> nth_error cur i = Some (set_rank (Z.of_nat k) s)))
      groups rank_group s1) as (s2 & E2 & HL2 & Ho & Hr).
    - split; [exact HL1|]. split; [auto|]. intros [|h]; discriminate.
    - intros pre g post cur Eg (HLc & Hc1 & Hc2). assert (Hg : nth_error groups (length pre) = Some g) by (rewrite Eg, nth_error_app2, Nat.sub_diag by lia; reflexivity).
      assert (Hdis : forall i, In i g -> ~ In i (concat pre)).
      { intros i Hi Hin. apply in_concat in Hin as (g' & Hg' & Hi'). apply In_nth_error in Hg' as [h Hh]. pose proof (nth_error_lt _ _ _ Hh).
        assert (nth_error groups h = Some g') as Hgh by (rewrite Eg, nth_error_app1 by lia; exact Hh).
        destruct (Hgi _ _ _ Hg Hi) as (s & Hs & Ea). destruct (Hgi _ _ _ Hgh Hi') as (s' & Hs' & Eb). assert (s' = s) by congruence. subst. lia. }
      destruct (rank_group_spec g cur) as (cur' & E' & HL' & Hout & Hin).
      + apply (H2 (S (length pre)) g). exact Hg.
      + intros i Hi. destruct (Hgi _ _ _ Hg Hi) as (s & Hs & _). rewrite HLc. eapply nth_error_lt; eauto.
      + exists cur'. split; [exact E'|]. split; [lia|]. split.
        * intros i Hi. rewrite concat_app, in_app_iff in Hi. cbn in Hi. rewrite app_nil_r in Hi. rewrite Hout by tauto. apply Hc1. tauto.
        * intros h g' k i s Hh Hk Hs. rewrite nth_app in Hh. destruct (Nat.ltb_spec h (length pre)) as [Hlt|Hge].
          -- rewrite Hout; [eapply Hc2; eauto|]. intros Hi. apply (Hdis i Hi). apply in_concat. exists g'. split; eapply nth_error_In; eauto.
          -- destruct (h - length pre)%nat as [|[|]]; cbn in Hh; try discriminate. injection Hh as <-. assert (Hi : In i g) by (eapply nth_error_In; eauto).
             destruct (Hgi _ _ _ Hg Hi) as (s' & Hs' & Eh). assert (s' = s) by congruence. subst s'.
             apply (Hin k i s Hk). rewrite (Hc1 i (Hdis i Hi)), (Hn1 i s Hs). destruct (Z.eqb_spec (s_host s) (-1)); [lia|reflexivity].
    - exists s2. split; [exact E2|]. split; [exact HL2|]. intros i s Hs. specialize (H3 i s Hs). destruct (Z.eqb_spec (s_host s) (-1)) as [Eh|Eh].
      + assert (Hni : ~ In i (concat groups)).
        { intros Hin. apply in_concat in Hin as (g & Hg & Hi). apply In_nth_error in Hg as [k Hk]. destruct (Hgi _ _ _ Hk Hi) as (s' & Hs' & E'). assert (s' = s) by congruence. subst. lia. }
        exists (set_rank 0 s). rewrite (Ho i Hni), (Hn1 i s Hs), Eh. split; [reflexivity|]. split; [apply ranks_only_set, ranks_only_refl|]. split; [reflexivity|].
        intros h g k Hg Hk. exfalso. apply Hni. apply in_concat. exists g. split; [eapply nth_error_In; exact Hg|eapply nth_error_In; eauto].
      + assert (Hk : exists g, nth_error groups (Z.to_nat (s_host s)) = Some g).
        { apply nth_error_in_range. cbn in H1. lia. }
        destruct Hk as [g Hg]. assert (Hi : In i g). { apply (H2 (S (Z.to_nat (s_host s))) g Hg). exists s. split; [exact Hs|lia]. }
        apply In_nth_error in Hi as [k Hk]. exists (set_rank (Z.of_nat k) s). split; [apply (Hr _ g k i s Hg Hk Hs)|]. split; [apply ranks_only_set, ranks_only_refl|]. split; [intros; lia|].
        intros h g' k' Hg' Hk'. cbn. f_equal. cbn in Hg'. assert (Hi' : In i g') by (eapply nth_error_In; eauto). destruct (Hgi _ _ _ Hg' Hi') as (s' & Hs' & E'). assert (s' = s) by congruence. subst s'.
        assert (h = Z.to_nat (s_host s)) by lia. subst h. assert (g' = g) by congruence. subst g'. eapply NoDup_nth_error; [apply (H2 (S (Z.to_nat (s_host s))) g Hg)|eapply nth_error_lt; eauto|congruence].
  Qed.
End Ranks.

(** ** FillDepth *)
Lemma depths_nodes t : forall d, map fst (depths d t) = nodes t.
Proof.
  induction t as [i ts IH] using tree_rect'. intros d. cbn. f_equal. rewrite Forall_forall in IH. induction ts as [|t ts IHl]; cbn; [reflexivity|].
  rewrite map_app, (IH t (or_introl eq_refl)). f_equal. apply IHl. intros u Hu. apply IH. right; exact Hu.
Qed.
Section Depth.
  Context {X R : Type}.
  Lemma fill_depth_tree t : forall fuel d (subs : list (sub X R)), (height t <= fuel)%nat -> represents (local_nest subs) t -> NoDup (nodes t) ->
    exists subs', fill_depth fuel d (label t) subs = Done subs' /\ length subs' = length subs /\
      (forall i, ~ In i (nodes t) -> zget subs' i = zget subs i) /\
      (forall i e s, In (i, e) (depths d t) -> zget subs i = Some s -> zget subs' i = Some (set_depth e s)).
  Proof.
    induction t as [p ts IH] using tree_rect'. intros fuel d subs Hf HR Hn. destruct fuel as [|f]; [cbn in Hf; lia|].
    apply represents_node_inv in HR as [(s0 & Hs0 & Hn0) HR]. cbn [label fill_depth].
    destruct (zmodify_some subs p (set_depth d) s0 Hs0) as [s1 E1]. rewrite E1. assert (Hg1 := fun j => zmodify_get _ _ _ _ j E1).
    rewrite Hg1, Z.eqb_refl, Hs0. cbn [option_map s_nest set_depth]. rewrite Hn0.
    rewrite Forall_forall in IH, HR. assert (Hpn : ~ In p (flat_map nodes ts)) by (cbn in Hn; inversion Hn; assumption).
    assert (Hnd : NoDup (flat_map nodes ts)) by (cbn in Hn; inversion Hn; assumption).
    destruct (run_each_inv (fun pre cur => length cur = length s1 /\
        (forall i, ~ In i (flat_map nodes (firstn (length pre) ts)) -> zget cur i = zget s1 i) /\
        (forall i e s, In (i, e) (flat_map (depths (d + 1)) (firstn (length pre) ts)) -> zget s1 i = Some s -> zget cur i = Some (set_depth e s)))
      (fill_depth f (d + 1)) (map label ts) [] s1) as (s2 & E2 & HL2 & Ho & Hi).
    - split; [reflexivity|]. split; [auto|]. intros i e s [].
    - intros pre x post cur El (H1 & H2 & H3). cbn in El.
      assert (Hsp : exists a t b, ts = a ++ t :: b /\ label t = x /\ length a = length pre).
      { apply map_eq_app in El as (a & b' & Ets & Ea & Eb). destruct b' as [|t b]; [discriminate|]. cbn in Eb. exists a, t, b. split; [exact Ets|]. split; [congruence|].
        rewrite <- Ea, map_length. reflexivity. }
      destruct Hsp as (a & t & b & Ets & <- & Hla).
      assert (Hfa : firstn (length pre) ts = a) by (rewrite Ets, <- Hla, firstn_app, Nat.sub_diag, firstn_all; cbn; apply app_nil_r).
      assert (Hfa2 : firstn (length (pre ++ [label t])) ts = a ++ [t]).
      { rewrite app_length. cbn. rewrite Ets, <- Hla, firstn_app. replace (length a + 1 - length a)%nat with 1%nat by lia. rewrite firstn_all2 by lia. reflexivity. }
      rewrite Hfa in H2, H3. rewrite Hfa2. assert (Ht : In t ts) by (rewrite Ets; apply in_or_app; right; left; reflexivity).
      rewrite Ets in Hnd.
      assert (Hda : forall i, In i (nodes t) -> ~ In i (flat_map nodes a)) by (intros i Hi; apply (nodup_disjoint a t b i Hnd Hi)).
      destruct (IH t Ht f (d + 1) cur) as (cur' & E' & HL' & Ho' & Hi').
      + pose proof (height_branch p ts t Ht). lia.
      + eapply represents_ext; [apply HR; exact Ht|]. intros i l Hi (s & Hs & Es). exists s. split; [|exact Es]. rewrite (H2 i (Hda i Hi)), Hg1.
        destruct (Z.eqb_spec i p) as [->|]; [|exact Hs]. exfalso. apply Hpn. apply in_flat. eauto.
      + rewrite flat_map_app in Hnd. apply NoDup_app_remove_l in Hnd. eapply NoDup_app_remove_r; exact Hnd.
      + exists cur'. split; [exact E'|]. split; [lia|]. split.
        * intros i Hi. rewrite flat_map_app, in_app_iff in Hi. cbn in Hi. rewrite app_nil_r in Hi. rewrite Ho' by tauto. apply H2. tauto.
        * intros i e s Hin Hs. rewrite flat_map_app, in_app_iff in Hin. cbn in Hin. rewrite app_nil_r in Hin. destruct Hin as [Hin|Hin].
          -- rewrite Ho'; [apply H3; assumption|]. intros Hit. apply (Hda i Hit). apply in_flat in Hin as (u & Hu & Hin). apply in_flat. exists u. split; [exact Hu|].
             rewrite <- (depths_nodes u (d + 1)). apply in_map_iff. exists (i, e). auto.
          -- apply Hi'; [exact Hin|]. rewrite H2; [exact Hs|]. apply Hda. rewrite <- (depths_nodes t (d + 1)). apply in_map_iff. exists (i, e). auto.
    - exists s2. split; [exact E2|]. split; [rewrite HL2; eapply zmodify_length; eauto|]. cbn [app] in Ho, Hi. rewrite map_length, firstn_all in Ho, Hi. split.
      + intros i Hni. cbn in Hni. rewrite Ho by tauto. rewrite Hg1. destruct (Z.eqb_spec i p) as [->|]; [tauto|reflexivity].
      + intros i e s Hin Hs. cbn in Hin. destruct Hin as [E|Hin].
        * injection E as <- <-. rewrite (Ho p Hpn), Hg1, Z.eqb_refl, Hs. reflexivity.
        * apply Hi; [exact Hin|]. rewrite Hg1, Hs. destruct (Z.eqb_spec i p) as [->|]; [|reflexivity]. exfalso. apply Hpn.
          apply in_flat in Hin as (u & Hu & Hin). apply in_flat. exists u. split; [exact Hu|]. rewrite <- (depths_nodes u (d + 1)). apply in_map_iff. exists (p, e). auto.
  Qed.
End Depth.

(** ** The end of UpdateTracks *)
(** what holds of a group with its tree at the end *)
Definition group_done {X R} (subs' : list (sub X R)) (g : list nat) : Prop :=
  match g with
  | [] => True
  | c0 :: _ => exists t, represents (local_nest subs') t /\ label t = Z.of_nat c0 /\ Permutation (nodes t) (zs g) /\
      (forall k i s, nth_error g k = Some i -> nth_error subs' i = Some s -> s_rank s = Z.of_nat k) /\
      (forall i d s, In (i, d) (depths 0 t) -> zget subs' i = Some s -> s_depth s = d)
  end.
Definition updated {X R} (subs : list (sub X R)) (table : list (list nat)) (subs' : list (sub X R)) : Prop :=
  length subs' = length subs /\
  (forall i s, zget subs i = Some s -> exists s', zget subs' i = Some s' /\ same_but_nest s s' /\
     (s_host s = -1 -> s_rank s' = 0 /\ s_nest s' = [] /\ s_depth s' = s_depth s)) /\
  (forall h g, nth_error table (S h) = Some g -> group_done subs' g).

Lemma table_for_perm {X R} (subs : list (sub X R)) nh table : table_for subs nh table -> Permutation (concat table) (seq 0 (length subs)).
Proof.
  intros (Htl & Htg & Hth). apply NoDup_Permutation.
  - assert (Hcl : forall l m, table = m ++ l -> NoDup (concat l)); [|apply (Hcl table []); reflexivity].
    induction l as [|g l IH]; intros m Em; cbn; [constructor|]. apply NoDup_app_intro.
    + apply (Htg (length m) g). rewrite Em, nth_error_app2, Nat.sub_diag by lia. reflexivity.
    + apply (IH (m ++ [g])). rewrite <- app_assoc. exact Em.
    + intros i Hi Hj. apply in_concat in Hj as (g' & Hg' & Hj). apply In_nth_error in Hg' as [k Hk].
      assert (E1 : nth_error table (length m) = Some g) by (rewrite Em, nth_error_app2, Nat.sub_diag by lia; reflexivity).
      assert (E2 : nth_error table (length m + S k) = Some g') by (rewrite Em, nth_error_app2 by lia; replace (length m + S k - length m)%nat with (S k) by lia; exact Hk).
      apply (Htg _ g E1) in Hi as (s & Hsi & Ha). apply (Htg _ g' E2) in Hj as (s' & Hsj & Hb). assert (s' = s) by congruence. subst. lia.
  - apply seq_NoDup.
  - intros i. rewrite in_seq. split.
    + intros Hi. apply in_concat in Hi as (g' & Hg' & Hj). apply In_nth_error in Hg' as [k Hk]. apply (Htg k g' Hk) in Hj as (s' & Hsj & Hb). apply nth_error_lt in Hsj. lia.
    + intros Hi. destruct (nth_error_in_range subs i) as [s Hsi]; [lia|]. pose proof (Hth i s Hsi) as Hr.
      destruct (nth_error_in_range table (Z.to_nat (s_host s + 1))) as [g Hgg]; [lia|]. apply in_concat. exists g. split; [eapply nth_error_In; eauto|].
      apply (Htg _ g Hgg). exists s. split; [exact Hsi|lia].
Qed.

Section Update.
  Context {X R : Type}.
  Variables (subs : list (sub X R)) (ts : list tree) (nh : nat) (table heads : list (list nat)) (fuel : nat).
  Let n := length subs.
  Hypothesis Hforest : is_forest (local_nest subs) (zs (seq 0 n)) ts.
  Hypothesis Hroots : forall i s, zget subs i = Some s -> (s_rank s = 0 <-> In i (map label ts)).
  Hypothesis Huni : forall t i, In t ts -> In i (nodes t) -> hostz subs i = hostz subs (label t).
  Hypothesis Hfield : forall i s, zget subs i = Some s -> s_host s = -1 -> s_nest s = [].
  Hypothesis Htable : table_for subs nh table.
  Hypothesis Hheadsl : length heads = nh.
  Hypothesis Hheads : forall h g hs, nth_error table (S h) = Some g -> nth_error heads h = Some hs -> (2 <= length g)%nat ->
    Permutation (zs hs) (filter (fun i => hostz subs i =? Z.of_nat h) (map label ts)).
  Hypothesis Hfuel : (n <= fuel)%nat.

  Lemma update_spec order : Permutation order (seq 0 nh) ->
    exists s1 s2 s3, extend_nests fuel order table heads subs = Done s1 /\ assign_ranks table s1 = Some s2 /\
      fill_depths fuel table s2 = Done s3 /\ updated subs table s3.
  Proof.
    intros Hord. destruct (extend_nests_spec subs ts nh table heads fuel Hforest Hroots Huni Htable Hheadsl Hheads Hfuel order Hord) as (s1 & E1 & HL1 & Hb1 & Ho1 & Hc1).
    assert (Ht1 : table_for s1 nh table).
    { eapply table_for_ext; [exact HL1| |exact Htable]. intros i s Hs. destruct (Hb1 (Z.of_nat i) s) as (s' & Hs' & B); [rewrite zget_of_nat; exact Hs|].
      exists s'. rewrite zget_of_nat in Hs'. split; [exact Hs'|]. symmetry. apply same_but_host. exact B. }
    destruct (assign_ranks_spec s1 nh table Ht1) as (s2 & E2 & HL2 & H2). exists s1, s2.
    destruct Htable as (Htl & Htg & Hth). destruct table as [|field groups] eqn:Et; [discriminate|]. unfold fill_depths. cbn [tl].
    assert (Hcov : forall h g, nth_error groups h = Some g -> match g with [] => True | c0 :: _ => exists t, represents (local_nest s2) t /\ label t = Z.of_nat c0 /\ Permutation (nodes t) (zs g) end).
    { intros h g Hg. assert (Hh : In h (seq 0 nh)). { apply in_seq. apply nth_error_lt in Hg. cbn in Htl. lia. }
      specialize (Hc1 h Hh g Hg). destruct g as [|c0 rest]; [exact I|]. destruct Hc1 as (t & HR & Hl & HP). exists t. split; [|auto].
      eapply represents_ext; [exact HR|]. intros i l Hi (s & Hs & El). pose proof (zget_some _ _ _ Hs) as Hr.
      destruct (H2 (Z.to_nat i) s) as (s' & Hs' & Hro & _); [rewrite <- zget_nat by lia; exact Hs|]. exists s'. rewrite zget_nat by lia. split; [exact Hs'|]. rewrite Hro. exact El. }
    assert (Hgi : forall k g i, nth_error groups k = Some g -> In i (zs g) -> hostz subs i = Z.of_nat k).
    { intros k g i Hg Hi. apply in_map_iff in Hi as (j & <- & Hj). apply (Htg (S k) g Hg) in Hj as (s & Hs & E). unfold hostz. rewrite zget_of_nat, Hs. lia. }
    destruct (run_each_inv (fun pre cur => length cur = length s2 /\
        (forall i, ~ (exists k, hostz subs i = Z.of_nat k /\ (k < length pre)%nat) -> zget cur i = zget s2 i) /\
        (forall i s, zget s2 i = Some s -> exists d, zget cur i = Some (set_depth d s)) /\
        (forall h g, nth_error pre h = Some g -> match g with [] => True | c0 :: _ => exists t, represents (local_nest cur) t /\ label t = Z.of_nat c0 /\ Permutation (nodes t) (zs g) /\
           (forall i d s, In (i, d) (depths 0 t) -> zget cur i = Some s -> s_depth s = d) end))
      (fun g l => match g with c :: _ => fill_depth fuel 0 (Z.of_nat c) l | [] => Done l end) groups [] s2) as (s3 & E3 & HL3 & Ho3 & Hd3 & Hc3).
    - split; [reflexivity|]. split; [auto|]. split; [intros i s Hs; exists (s_depth s); rewrite Hs; destruct s; reflexivity|]. intros [|h]; discriminate.
    - intros pre g post cur Eg (HLc & Hoc & Hdc & Hcc). cbn in Eg.
      assert (Hg : nth_error groups (length pre) = Some g) by (rewrite Eg, nth_error_app2, Nat.sub_diag by lia; reflexivity).
      pose proof (Hcov _ _ Hg) as Hcv. destruct g as [|c0 rest].
      + exists cur. split; [reflexivity|]. split; [exact HLc|]. split; [|split; [exact Hdc|]].
        * intros i Hi. apply Hoc. intros (k & Hk & Hlt). apply Hi. exists k. rewrite app_length. split; [exact Hk|lia].
        * intros h g' Hh. rewrite nth_app in Hh. destruct (h <? length pre)%nat; [apply (Hcc h); exact Hh|]. destruct (h - length pre)%nat as [|[|]]; cbn in Hh; try discriminate. injection Hh as <-. exact I.
      + destruct Hcv as (t & HR & Hl & HP). assert (Hin : forall i, In i (nodes t) -> hostz subs i = Z.of_nat (length pre)).
        { intros i Hi. apply (Hgi _ _ _ Hg). eapply Permutation_in; eauto. }
        assert (Hsame : forall i, In i (nodes t) -> zget cur i = zget s2 i).
        { intros i Hi. apply Hoc. rewrite (Hin i Hi). intros (k & Hk & Hlt). lia. }
        destruct (fill_depth_tree t fuel 0 cur) as (cur' & E' & HL' & Ho' & Hi').
        * transitivity (length (nodes t)); [apply height_le_nodes|]. rewrite (Permutation_length HP). unfold zs. rewrite map_length.
          transitivity n; [|exact Hfuel]. rewrite <- (seq_length n 0). apply NoDup_incl_length; [apply (Htg (S (length pre)) _ Hg)|].
          intros i Hi. apply (Htg (S (length pre)) _ Hg) in Hi as (s & Hs & _). apply in_seq. apply nth_error_lt in Hs. lia.
        * eapply represents_ext; [exact HR|]. intros i l Hi (s & Hs & El). exists s. rewrite (Hsame i Hi). auto.
        * eapply Permutation_NoDup; [symmetry; exact HP|]. apply NoDup_map_inj; [intros x y _ _; apply Nat2Z.inj|]. apply (Htg (S (length pre)) _ Hg).
        * rewrite Hl in E'. exists cur'. split; [exact E'|]. split; [lia|]. split; [|split].
          -- intros i Hi. rewrite Ho'.
             ++ apply Hoc. intros (k & Hk & Hlt). apply Hi. exists k. rewrite app_length. split; [exact Hk|lia].
             ++ intros Hit. apply Hi. exists (length pre). rewrite app_length. cbn. split; [apply Hin; exact Hit|lia].
          -- intros i s Hs. destruct (in_dec Z.eq_dec i (nodes t)) as [Hit|Hit].
             ++ assert (Hd : In i (map fst (depths 0 t))) by (rewrite depths_nodes; exact Hit). apply in_map_iff in Hd as ([j e] & Ej & Hd). cbn in Ej. subst j.
                destruct (Hdc i s Hs) as [d0 Hd0]. exists e. rewrite (Hi' i e _ Hd Hd0). reflexivity.
             ++ rewrite (Ho' i Hit). apply Hdc. exact Hs.
          -- intros h g' Hh. rewrite nth_app in Hh. destruct (Nat.ltb_spec h (length pre)) as [Hlt|Hge].
             ++ specialize (Hcc h g' Hh). destruct g' as [|c1 rest1]; [exact I|]. destruct Hcc as (t' & HR' & Hl' & HP' & Hdep). exists t'.
                assert (Hno : forall i, In i (nodes t') -> zget cur' i = zget cur i).
                { intros i Hi. apply Ho'. intros Hit. apply Hin in Hit. assert (Hi2 : In i (zs (c1 :: rest1))) by (eapply Permutation_in; eauto).
                  assert (Hgh : nth_error groups h = Some (c1 :: rest1)) by (rewrite Eg, nth_error_app1 by lia; exact Hh). apply (Hgi _ _ _ Hgh) in Hi2. lia. }
                split; [|split; [exact Hl'|split; [exact HP'|]]].
                ** eapply represents_ext; [exact HR'|]. intros i l Hi (s & Hs & El). exists s. rewrite (Hno i Hi). auto.
                ** intros i d s Hd Hs. apply (Hdep i d s Hd). rewrite <- (Hno i); [exact Hs|]. rewrite <- (depths_nodes t' 0). apply in_map_iff. exists (i, d). auto.
             ++ destruct (h - length pre)%nat as [|[|]]; cbn in Hh; try discriminate. injection Hh as <-. exists t. split; [|split; [exact Hl|split; [exact HP|]]].
                ** eapply represents_ext; [exact HR|]. intros i l Hi (s & Hs & El). assert (Hd : In i (map fst (depths 0 t))) by (rewrite depths_nodes; exact Hi).
                   apply in_map_iff in Hd as ([j e] & Ej & Hd). cbn in Ej. subst j. exists (set_depth e s). rewrite (Hi' i e s Hd); [auto|]. rewrite (Hsame i Hi). exact Hs.
                ** intros i d s Hd Hs. assert (Hi : In i (nodes t)) by (rewrite <- (depths_nodes t 0); apply in_map_iff; exists (i, d); auto).
                   destruct (represents_get _ t i HR Hi) as [s0 Hs0]. rewrite (Hi' i d s0 Hd) in Hs by (rewrite (Hsame i Hi); exact Hs0). injection Hs as <-. reflexivity.
    - exists s3. cbn [app] in *. split; [exact E1|]. split; [exact E2|]. split; [exact E3|]. split; [lia|].
      assert (Hall : forall i s, zget subs i = Some s -> exists a b d, zget s1 i = Some a /\ same_but_nest s a /\ nth_error s2 (Z.to_nat i) = Some b /\ ranks_only a b /\ zget s3 i = Some (set_depth d b)).
      { intros i s Hs. destruct (Hb1 i s Hs) as (a & Ha & B1). pose proof (zget_some _ _ _ Hs) as Hr. destruct (H2 (Z.to_nat i) a) as (b & Hb & Hro & _); [rewrite <- zget_nat by lia; exact Ha|].
        destruct (Hd3 i b) as [d Hd]; [rewrite zget_nat by lia; exact Hb|]. exists a, b, d. auto. }
      split.
      + intros i s Hs. destruct (Hall i s Hs) as (a & b & d & Ha & B1 & Hb & Hro & H3). exists (set_depth d b). split; [exact H3|]. split.
        { eapply same_but_trans; [exact B1|]. rewrite Hro. reflexivity. }
        intros Hh. pose proof (zget_some _ _ _ Hs) as Hr.
        assert (Hhi : hostz subs i = -1) by (unfold hostz; rewrite Hs; exact Hh).
        assert (Ea : a = s). { rewrite Ho1 in Ha; [congruence|]. rewrite Hhi. intros Hin. apply in_map_iff in Hin as (k & Hk & _). lia. }
        subst a. assert (Eb : set_depth d b = b). { rewrite Ho3 in H3; [|rewrite Hhi; intros (k & Hk & _); lia]. rewrite zget_nat in H3 by lia. congruence. }
        destruct (H2 (Z.to_nat i) s) as (b' & Hb' & _ & Hr0 & _); [rewrite <- zget_nat by lia; exact Ha|]. assert (b' = b) by congruence. subst b'. rewrite Eb. split; [apply Hr0; exact Hh|].
        split; [rewrite Hro; cbn; apply (Hfield i s Hs Hh)|rewrite Hro; reflexivity].
      + intros h g Hg. cbn in Hg. specialize (Hc3 h g Hg). destruct g as [|c0 rest]; [exact I|]. destruct Hc3 as (t & HR & Hl & HP & Hdep). exists t.
        split; [exact HR|]. split; [exact Hl|]. split; [exact HP|]. split; [|exact Hdep].
        intros k i s Hk Hs. assert (Hi : In i (c0 :: rest)) by (eapply nth_error_In; eauto). assert (Hi0 := Hi). apply (Htg (S h) _ Hg) in Hi0 as (s0 & Hs0 & _).
        destruct (Hall (Z.of_nat i) s0) as (a & b & d & Ha & B1 & Hb & Hro & H3); [rewrite zget_of_nat; exact Hs0|]. rewrite Nat2Z.id in Hb. rewrite zget_of_nat in H3, Ha.
        destruct (H2 i a Ha) as (b' & Hb' & _ & _ & Hrk). assert (b' = b) by congruence. subst b'. rewrite H3 in Hs. injection Hs as <-. cbn. eapply Hrk; [exact Hg|exact Hk].
  Qed.

  (** ** The forest at the end *)
  Lemma updated_forest subs' : updated subs table subs' -> exists ts', is_forest (local_nest subs') (zs (seq 0 (length subs'))) ts' /\
    (forall i s, zget subs' i = Some s -> (s_rank s = 0 <-> In i (map label ts'))).
  Proof.
    intros (HL & Hs & Hg). pose proof (table_for_perm _ _ _ Htable) as HPt. fold n in HPt. destruct Htable as (Htl & Htg & Hth). destruct table as [|field groups] eqn:Et; [discriminate|].
    cbn [concat] in HPt. assert (Hdisj : NoDup (concat groups)).
    { eapply NoDup_app_remove_l. eapply Permutation_NoDup; [symmetry; exact HPt|]. apply seq_NoDup. }
    assert (Hback : forall i s', zget subs' i = Some s' -> exists s, zget subs i = Some s /\ same_but_nest s s').
    { intros i s' Hs'. destruct (zget_in_range subs i) as [s E]; [pose proof (zget_some _ _ _ Hs'); lia|]. exists s. split; [exact E|]. destruct (Hs i s E) as (s2 & E2 & B & _). congruence. }
    (* one tree per non-empty group *)
    assert (Htrees : exists tt : list tree, Forall (represents (local_nest subs')) tt /\ Permutation (flat_map nodes tt) (zs (concat groups)) /\
        (forall i s, In i (concat groups) -> nth_error subs' i = Some s -> (s_rank s = 0 <-> In (Z.of_nat i) (map label tt)))).
    { assert (Hgd : forall h g, nth_error groups h = Some g -> group_done subs' g /\ NoDup g) by (intros h g Hh; split; [apply (Hg h); exact Hh|apply (Htg (S h)); exact Hh]).
      clear -Hgd Hdisj. induction groups as [|g gr IH].
      - exists []. split; [constructor|]. split; [constructor|]. intros i s [].
      - destruct IH as (tt & H1 & H2 & H3); [cbn in Hdisj; eapply NoDup_app_remove_l; eauto|intros h g' Hh; apply (Hgd (S h)); exact Hh|].
        destruct (Hgd 0%nat g eq_refl) as [Hg0 Hn0]. destruct g as [|c0 rest]; [exists tt; auto|].
        destruct Hg0 as (t & HR & Hl & HP & Hrk & _). exists (t :: tt). split; [constructor; assumption|]. split.
        + cbn [flat_map concat]. unfold zs. rewrite map_app. apply Permutation_app; assumption.
        + cbn [concat]. intros i s Hi Hsi. assert (Hi' := Hi). apply in_app_or in Hi as [Hi|Hi].
          * apply In_nth_error in Hi as [k Hk]. rewrite (Hrk k i s Hk Hsi). cbn [map]. rewrite Hl. split.
            -- intros Hk0. assert (k = 0%nat) by lia. subst k. cbn in Hk. injection Hk as <-. left; reflexivity.
            -- intros [E|Hin].
               ++ assert (i = c0) by lia. subst i. assert (k = 0%nat); [|lia]. eapply NoDup_nth_error; [exact Hn0|eapply nth_error_lt; eauto|rewrite Hk; reflexivity].
               ++ exfalso. apply in_map_iff in Hin as (u & Eu & Hu). assert (Hin : In (Z.of_nat i) (zs (concat gr))).
                  { eapply Permutation_in; [exact H2|]. apply in_flat. exists u. split; [exact Hu|]. rewrite <- Eu. apply label_in. }
                  apply in_zs in Hin. cbn in Hdisj. apply (NoDup_app_disjoint (c0 :: rest) (concat gr) i); [exact Hdisj|eapply nth_error_In; exact Hk|exact Hin].
          * rewrite (H3 i s Hi Hsi). cbn [map]. rewrite Hl. split; [intros H; right; exact H|]. intros [E|H]; [|exact H]. exfalso. assert (i = c0) by lia. subst i.
            apply (NoDup_app_disjoint (c0 :: rest) (concat gr) c0); [exact Hdisj|left; reflexivity|exact Hi]. }
    destruct Htrees as (tt & HR & HP & Hrk). exists (map (fun i => Node (Z.of_nat i) []) field ++ tt).
    assert (Hfi := proj2 (Htg 0%nat field eq_refl)).
    split; [split|].
    - apply Forall_app. split; [|exact HR]. rewrite Forall_forall. intros t Ht. apply in_map_iff in Ht as (i & <- & Hi). apply Hfi in Hi as (s & Hsi & Eh).
      constructor; [|constructor]. destruct (Hs (Z.of_nat i) s) as (s' & Hs' & _ & Hf); [rewrite zget_of_nat; exact Hsi|]. exists s'. split; [exact Hs'|]. apply Hf. lia.
    - rewrite HL. rewrite flat_map_app. rewrite HP. rewrite flat_map_concat_map, map_map. cbn [nodes flat_map].
      replace (concat (map (fun x => [Z.of_nat x]) field)) with (zs field) by (clear; induction field; cbn; [reflexivity|f_equal; assumption]).
      unfold zs. rewrite <- map_app. apply Permutation_map. exact HPt.
    - intros i s' Hs'. pose proof (zget_some _ _ _ Hs') as Hr. destruct (Hback i s' Hs') as (s & Hsi & B). rewrite map_app, map_map, in_app_iff. cbn [label].
      assert (Ei : i = Z.of_nat (Z.to_nat i)) by lia. set (j := Z.to_nat i) in *. clearbody j. subst i. rewrite zget_of_nat in Hs', Hsi.
      assert (Hin : In j (field ++ concat groups)). { eapply Permutation_in; [symmetry; exact HPt|]. apply in_seq. lia. }
      apply in_app_or in Hin as [Hin|Hin].
      + split; [intros _; left; apply in_map; exact Hin|]. intros _. apply Hfi in Hin as (s2 & Hs2 & Eh). assert (s2 = s) by congruence. subst s2.
        destruct (Hs (Z.of_nat j) s) as (s3 & Hs3 & _ & Hf); [rewrite zget_of_nat; exact Hsi|]. rewrite zget_of_nat in Hs3. assert (s3 = s') by congruence. subst s3. apply Hf. lia.
      + rewrite (Hrk j s' Hin Hs'). split; [intros H; right; exact H|]. intros [H|H]; [|exact H]. exfalso. apply in_map_iff in H as (k & Ek & Hk). assert (k = j) by lia. subst k.
        apply Hfi in Hk as (s2 & Hs2 & Eh). apply in_concat in Hin as (g' & Hg' & Hj). apply In_nth_error in Hg' as [k Hk].
        apply (Htg (S k) g' Hk) in Hj as (s3 & Hs3 & Hb). assert (s3 = s2) by congruence. subst. lia.
  Qed.
End Update.
