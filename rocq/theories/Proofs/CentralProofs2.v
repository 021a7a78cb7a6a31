(** Table, centrals and feeding composed. *)
From Coq Require Import List ZArith QArith Bool Lia Sorting.Permutation Sorting.Sorted.
From Verif.Model Require Import ListMem Mpi Subhalo.
From Verif.Spec Require Import Members.
From Verif.Proofs Require Import ListMemProofs MpiProofs RestoreProofs MemberProofs CentralProofs.
Import ListNotations.
Local Open Scope nat_scope.

Lemma nth_error_seq0 n i : nth_error (seq 0 n) i = if i <? n then Some i else None.
Proof.
  destruct (Nat.ltb_spec i n) as [Hi|Hi].
  - assert (forall a m j, j < m -> nth_error (seq a m) j = Some (a + j)) as Hs.
    { intros a m; revert a; induction m; intros a [|j] Hj; cbn; try lia; [f_equal; lia|]. rewrite IHm by lia. f_equal; lia. }
    rewrite Hs by exact Hi. reflexivity.
  - apply nth_error_None. rewrite seq_length. exact Hi.
Qed.

Section C21.
  Context {X R : Type}.
  Variables (sort : list nat -> list nat) (nh : nat) (subs : list (sub X R)).
  Hypothesis Hhost : Forall (fun s => (-1 <= s_host s < Z.of_nat nh)%Z) subs.
  Hypothesis Hsort : sorts_by_mass subs sort.

  Lemma table_props incl : exists table, build_table sort incl nh subs = Some table /\ length table = S nh /\
    (forall g l, nth_error table g = Some l ->
       (forall i, In i l <-> exists s, nth_error subs i = Some s /\ s_host s = (Z.of_nat g - 1)%Z /\ (incl = true \/ 1 < s_nbound s)) /\
       NoDup l /\ StronglySorted (heavier subs) l).
  Proof.
    eexists. split; [apply build_spec; exact Hhost|]. split; [rewrite map_length, seq_length; reflexivity|].
    intros g l Hg. rewrite nth_error_map, nth_error_seq0 in Hg. destruct (g <? S nh) eqn:E; [|discriminate]. cbn in Hg. injection Hg as <-.
    destruct (Hsort (ids incl g 0 subs)) as [HP HS].
    assert (Hin : forall i, In i (ids incl g 0 subs) <-> exists s, nth_error subs i = Some s /\ s_host s = (Z.of_nat g - 1)%Z /\ (incl = true \/ 1 < s_nbound s)).
    { intros i. rewrite ids_in. rewrite Nat.sub_0_r. split.
      - intros (s & _ & Hs & Hm). exists s. split; [exact Hs|]. unfold mem, counted, gi in Hm. apply andb_true_iff in Hm as [Hm1 Hm2].
        apply Nat.eqb_eq in Hm2. rewrite Forall_forall in Hhost. specialize (Hhost s (nth_error_In _ _ Hs)). split; [lia|].
        apply orb_true_iff in Hm1 as [Hm1|Hm1]; [left; exact Hm1|right; apply Nat.ltb_lt; exact Hm1].
      - intros (s & Hs & Hh & Hc). exists s. split; [lia|]. split; [exact Hs|]. unfold mem, counted, gi. apply andb_true_iff. split.
        + destruct Hc as [->|Hc]; [reflexivity|]. apply Nat.ltb_lt in Hc. rewrite Hc. apply orb_true_r.
        + apply Nat.eqb_eq. lia. }
    split; [|split].
    - intros i. rewrite <- Hin. split; intros Hi; [eapply Permutation_in; [symmetry; exact HP|exact Hi]|eapply Permutation_in; eauto].
    - eapply Permutation_NoDup; [exact HP|]. apply ids_NoDup.
    - apply HS. intros i Hi. rewrite Hin in Hi. destruct Hi as (s & Hs & _). eapply nth_error_lt; eauto.
  Qed.
End C21.

Section Compose.
  Context {X R H : Type}.
  Variables (sort : list nat -> list nat) (ratio : Q) (dist : sub X R -> H -> Q).
  Variables (subs : list (sub X R)) (halos : list (list (Z * X) * H)).
  Hypothesis Hhost : Forall (fun s => (-1 <= s_host s < Z.of_nat (length halos))%Z) subs.
  Hypothesis Hsort : sorts_by_mass subs sort.
  Hypothesis Hmass : Forall (fun s => (0 <= s_mass s)%Q) subs.
  Hypothesis Hratio : (ratio <= 1)%Q.

  Lemma ratio_le m : (0 <= m)%Q -> (m * ratio <= m)%Q.
  Proof. intros Hm. setoid_replace m with (m * 1)%Q at 2 by ring. rewrite (Qmult_comm m ratio), (Qmult_comm m 1). apply Qmult_le_compat_r; assumption. Qed.

  Lemma mapM_total {A B} (f : A -> option B) l : (forall x, In x l -> exists y, f x = Some y) -> exists l', mapM f l = Some l'.
  Proof.
    induction l as [|x l IH]; intros HT; [exists []; reflexivity|]. cbn. destruct (HT x (or_introl eq_refl)) as [y ->].
    destruct IH as [l' ->]; [intros z Hz; apply HT; right; exact Hz|]. eauto.
  Qed.
  Lemma sorted_masses l ss : mapM (nth_error subs) l = Some ss -> StronglySorted (heavier subs) l ->
    StronglySorted (fun a b => (b <= a)%Q) (map s_mass ss).
  Proof.
    revert ss; induction l as [|i l IH]; intros ss HM HS; cbn in HM; [injection HM as <-; constructor|].
    destruct (nth_error subs i) as [s|] eqn:E; [|discriminate]. destruct (mapM (nth_error subs) l) as [ss'|] eqn:E2; [|discriminate].
    injection HM as <-. apply StronglySorted_inv in HS as [HS HF]. cbn. constructor; [apply IH; [reflexivity|exact HS]|].
    rewrite Forall_forall. intros m Hm. apply in_map_iff in Hm as (s' & <- & Hs'). apply In_nth_error in Hs' as [k Hk].
    pose proof (nth_error_lt _ _ _ Hk) as Hlt. rewrite (mapM_length _ _ _ E2) in Hlt. destruct (nth_error_in_range l k Hlt) as [j Hj].
    destruct (mapM_nth _ _ _ _ _ E2 Hj) as (s2 & H1 & H2). assert (s2 = s') by congruence. subst s2.
    rewrite Forall_forall in HF. apply (HF j (nth_error_In _ _ Hj)); assumption.
  Qed.

  (** the table after DecideCentrals *)
  Definition good_table (table : list (list nat)) : Prop :=
    length table = S (length halos) /\
    (forall g l, nth_error table g = Some l -> (forall i, In i l <-> hosted_by subs i (Z.of_nat g - 1)) /\ NoDup l) /\
    (forall g hp h m0 rest, nth_error halos g = Some (hp, h) -> nth_error table (S g) = Some (m0 :: rest) ->
       best_member subs ratio (fun s => dist s h) (Z.of_nat g) m0).

  Lemma decided : exists table0 table, build_table sort true (length halos) subs = Some table0 /\
    decide_centrals ratio dist subs (map snd halos) table0 = Some table /\ good_table table /\
    Forall2 (@Permutation nat) table0 table.
  Proof.
    destruct (table_props sort (length halos) subs Hhost Hsort true) as (table0 & HB & HL & HG).
    assert (HG' : forall g l, nth_error table0 g = Some l -> (forall i, In i l <-> hosted_by subs i (Z.of_nat g - 1)) /\ NoDup l /\ StronglySorted (heavier subs) l).
    { intros g l Hg. destruct (HG g l Hg) as (H1 & H2 & H3). split; [|split; assumption]. intros i. rewrite H1. unfold hosted_by. split.
      - intros (s & Hs & Hh & _). eauto.
      - intros (s & Hs & Hh). exists s. split; [exact Hs|]. split; [exact Hh|]. left; reflexivity. }
    clear HG. destruct table0 as [|field groups]; [discriminate|]. cbn in HL. injection HL as HL.
    (* one group *)
    assert (Hone : forall g h members, nth_error (map snd halos) g = Some h -> nth_error groups g = Some members ->
      exists members', decide_central ratio dist subs h members = Some members' /\ Permutation members members' /\
        forall m0 rest, members' = m0 :: rest -> best_member subs ratio (fun s => dist s h) (Z.of_nat g) m0).
    { intros g h members Hh Hm. destruct (HG' (S g) members Hm) as (Hin & Hnd & Hss).
      replace (Z.of_nat (S g) - 1)%Z with (Z.of_nat g) in Hin by lia.
      destruct (mapM_total (nth_error subs) members) as [ss HM].
      { intros i Hi. apply Hin in Hi as (s & Hs & _). eauto. }
      destruct (decide_spec ratio dist subs h members ss HM (sorted_masses _ _ HM Hss)) as (m' & HD & HP & HC).
      { intros s0 Hs0. apply ratio_le. rewrite Forall_forall in Hmass. apply Hmass.
        pose proof (nth_error_lt _ _ _ Hs0) as Hlt. rewrite (mapM_length _ _ _ HM) in Hlt. destruct (nth_error_in_range members 0 Hlt) as [j Hj].
        destruct (mapM_nth _ _ _ _ _ HM Hj) as (s2 & H1 & H2). assert (s2 = s0) by congruence. subst. eapply nth_error_In; eauto. }
      exists m'. split; [exact HD|]. split; [exact HP|]. intros c rest ->.
      assert (Hc : In c members) by (eapply Permutation_in; [symmetry; exact HP|left; reflexivity]).
      destruct members as [|t mr]; [destruct Hc|].
      destruct (proj1 (Hin c) Hc) as (sc & Hsc & Hch). destruct (proj1 (Hin t) (or_introl eq_refl)) as (st & Hst & Hth).
      destruct (HC t c sc st eq_refl eq_refl Hst Hsc) as [Hm1 Hm2].
      exists sc. split; [exact Hsc|]. split; [exact Hch|]. exists st. split; [exists t; split; [exists st; auto|exact Hst]|].
      assert (Hmem : forall i s, nth_error subs i = Some s -> s_host s = Z.of_nat g -> In i (t :: mr)) by (intros i s Hs Hsh; apply Hin; exists s; auto).
      split; [|split; [exact Hm1|]].
      - intros i s Hs Hsh. pose proof (Hmem i s Hs Hsh) as Hi. apply StronglySorted_inv in Hss as [_ HF]. destruct Hi as [<-|Hi].
        + assert (s = st) by congruence. subst. apply Qle_refl.
        + rewrite Forall_forall in HF. exact (HF i Hi st s Hst Hs).
      - intros i s Hs Hsh Hle. apply (Hm2 i s); [apply Hmem with s; assumption|exact Hs|exact Hle]. }
    assert (Hgs : exists gs, mapM (fun hg => decide_central ratio dist subs (fst hg) (snd hg)) (combine (map snd halos) groups) = Some gs).
    { apply mapM_total. intros [h m] Hhm. apply In_nth_error in Hhm as [k Hk]. apply combine_nth_error_inv in Hk as [Hk1 Hk2].
      destruct (Hone k h m Hk1 Hk2) as (m' & Hm' & _). eauto. }
    destruct Hgs as [gs Hgs]. exists (field :: groups), (field :: gs). split; [exact HB|]. split; [unfold decide_centrals; rewrite Hgs; reflexivity|].
    assert (Hlen : length gs = length halos).
    { rewrite (mapM_length _ _ _ Hgs), combine_length, map_length, HL. apply Nat.min_id. }
    assert (Hpair : forall k members', nth_error gs k = Some members' -> exists h members, nth_error (map snd halos) k = Some h /\ nth_error groups k = Some members /\
       decide_central ratio dist subs h members = Some members').
    { intros k m' Hk. pose proof (nth_error_lt _ _ _ Hk) as Hlt. destruct (nth_error_in_range (map snd halos) k) as [h Hh]; [rewrite map_length; lia|].
      destruct (nth_error_in_range groups k) as [m Hm]; [lia|]. destruct (mapM_nth _ _ _ _ _ Hgs (combine_nth_error _ _ _ _ _ Hh Hm)) as (y & E1 & E2).
      exists h, m. split; [exact Hh|]. split; [exact Hm|]. assert (y = m') by congruence. subst. exact E1. }
    split; [|constructor; [apply Permutation_refl|]].
    - split; [cbn; rewrite Hlen; reflexivity|]. split.
      + intros g l Hg. destruct g as [|g]; [destruct (HG' 0 l Hg) as (H1 & H2 & _); split; assumption|]. cbn in Hg.
        destruct (Hpair g l Hg) as (h & m & Hh & Hm & HD). destruct (Hone g h m Hh Hm) as (m' & HD' & HP & _).
        assert (m' = l) by congruence. subst m'. destruct (HG' (S g) m Hm) as (H1 & H2 & _). split; [|eapply Permutation_NoDup; eauto].
        intros i. rewrite <- H1. split; intros Hi; [eapply Permutation_in; [symmetry; exact HP|exact Hi]|eapply Permutation_in; eauto].
      + intros g hp h m0 rest Hh Hg. cbn in Hg. destruct (Hpair g _ Hg) as (h' & m & Hh' & Hm & HD).
        assert (h' = h) by (rewrite nth_error_map, Hh in Hh'; cbn in Hh'; congruence). subst h'.
        destruct (Hone g h m Hh' Hm) as (m' & HD' & HP & HB'). assert (m' = m0 :: rest) by congruence. subst m'. eapply HB'; reflexivity.
    - assert (Hf : forall k x y, nth_error groups k = Some x -> nth_error gs k = Some y -> Permutation x y).
      { intros k x y Hx Hy. destruct (Hpair k y Hy) as (h & m & Hh & Hm & HD). destruct (Hone k h m Hh Hm) as (m' & HD' & HP & _).
        assert (m = x) by congruence. assert (m' = y) by congruence. subst. exact HP. }
      assert (Hl2 : length groups = length gs) by lia. clear - Hf Hl2. revert gs Hf Hl2. induction groups as [|x gr IH]; intros [|y gs] Hf Hl2; try discriminate; constructor.
      + apply (Hf 0); reflexivity.
      + apply IH; [intros k; apply (Hf (S k))|cbn in Hl2; lia].
  Qed.

  Variables (centre : H -> R -> R) (snap : Z) (fresh : R).
  Hypothesis Hparts : Forall (fun s => (0 <= s_host s)%Z -> s_parts s <> []) subs.

  Lemma step_spec order : Permutation order (seq 0 (length halos)) ->
    exists table st, centrals_step sort ratio dist centre snap fresh order subs halos = Some (table, st) /\ good_table table /\
      finv centre snap fresh table subs halos order st /\ length (filter (is_empty_group table) order) = count_empty table.
  Proof.
    intros HP. destruct decided as (t0 & table & HB & HD & HG & _). unfold centrals_step. rewrite HB, HD. destruct HG as (HL & Hin & Hbest).
    destruct (feed_spec centre snap fresh table subs halos HL) with (order := order) as (st & HF & HI & HC).
    - intros g g' m l l' Hg Hg' Hm Hm'. destruct (proj1 (proj1 (Hin g l Hg) m) Hm) as (s & Hs & Hh).
      destruct (proj1 (proj1 (Hin g' l' Hg') m) Hm') as (s' & Hs' & Hh'). assert (s' = s) by congruence. subst. lia.
    - intros g m0 rest Hg. destruct (proj1 (proj1 (Hin (S g) _ Hg) m0) (or_introl eq_refl)) as (s & Hs & Hh). exists s. split; [exact Hs|].
      rewrite Forall_forall in Hparts. apply (Hparts s (nth_error_In _ _ Hs)). lia.
    - exact HP.
    - rewrite HF. exists table, st. split; [reflexivity|]. split; [split; [exact HL|split; assumption]|]. split; assumption.
  Qed.
End Compose.
