(** Properties C21, C23 and C24: membership table, choice of centrals, feeding of centrals. *)
From Coq Require Import List ZArith QArith Bool Lia Sorting.Permutation Sorting.Sorted.
From Verif.Model Require Import ListMem Mpi Subhalo.
From Verif.Spec Require Import Members.
From Verif.Proofs Require Import ListMemProofs MpiProofs MemberProofs CentralProofs CentralProofs2.
Import ListNotations.
Local Open Scope nat_scope.

(** C21: for every list of subhalos with hosts in [-1, number of halos) and every sorting function, the build succeeds,
    there is one group per halo plus the field, group [g] holds exactly the subhalos of host [g-1], nobody twice, heavier
    first; when orphans are included all groups together hold every subhalo exactly once. *)
Theorem C21_membership_table : forall (X R : Type) (sort : list nat -> list nat) (nhalos : nat) (subs : list (sub X R)) (incl : bool),
  Forall (fun s => (-1 <= s_host s < Z.of_nat nhalos)%Z) subs -> sorts_by_mass subs sort ->
  exists table, build_table sort incl nhalos subs = Some table /\ length table = S nhalos /\
    (forall g l, nth_error table g = Some l ->
       (forall i, In i l <-> exists s, nth_error subs i = Some s /\ s_host s = (Z.of_nat g - 1)%Z /\ (incl = true \/ 1 < s_nbound s)) /\
       NoDup l /\ StronglySorted (heavier subs) l) /\
    (incl = true -> Permutation (concat table) (seq 0 (length subs))).
Proof.
  intros X R sort nhalos subs incl Hh Hs. destruct (table_props sort nhalos subs Hh Hs incl) as (t & HB & HL & HG).
  exists t. split; [exact HB|]. split; [exact HL|]. split; [exact HG|]. intros ->.
  apply NoDup_Permutation.
  - assert (Hd : forall g g' l l' i, nth_error t g = Some l -> nth_error t g' = Some l' -> In i l -> In i l' -> g = g').
    { intros g g' l l' i Hg Hg' Hi Hi'. destruct (proj1 (proj1 (HG g l Hg) i) Hi) as (s & E1 & E2 & _).
      destruct (proj1 (proj1 (HG g' l' Hg') i) Hi') as (s' & E1' & E2' & _). rewrite E1 in E1'. injection E1' as <-. lia. }
    assert (Hn : forall l, In l t -> NoDup l) by (intros l Hl; apply In_nth_error in Hl as [g Hg]; apply (HG g l Hg)).
    clear - Hd Hn. induction t as [|l t IH]; [constructor|]. cbn. apply NoDup_app_intro.
    + apply Hn. left; reflexivity.
    + apply IH; [|intros l' Hl'; apply Hn; right; exact Hl']. intros g g' a b i Ha Hb Hi Hi'. assert (S g = S g'); [|lia].
      eapply (Hd (S g) (S g')); eauto.
    + intros i Hi Hc. apply in_concat in Hc as (l' & Hl' & Hi'). apply In_nth_error in Hl' as [g Hg].
      assert (0 = S g) by (eapply (Hd 0 (S g)); [reflexivity|exact Hg|exact Hi|exact Hi']). lia.
  - apply seq_NoDup.
  - intros i. rewrite in_concat, in_seq. split.
    + intros (l & Hl & Hi). apply In_nth_error in Hl as [g Hg]. destruct (proj1 (proj1 (HG g l Hg) i) Hi) as (s & E & _).
      pose proof (nth_error_lt _ _ _ E). lia.
    + intros [_ Hi]. cbn in Hi. destruct (nth_error_in_range subs i Hi) as [s Es]. rewrite Forall_forall in Hh.
      specialize (Hh s (nth_error_In _ _ Es)). destruct (nth_error_in_range t (Z.to_nat (s_host s + 1))) as [l Hl]; [lia|].
      exists l. split; [eapply nth_error_In; eauto|]. apply (HG _ l Hl). exists s. split; [exact Es|]. split; [lia|left; reflexivity].
Qed.
Print Assumptions C21_membership_table.

(** Insertion sort by decreasing mass, a concrete instance of [sorts_by_mass]. *)
Definition mass_at (subs : list (sub Z nat)) (i : nat) : Q := match nth_error subs i with Some s => s_mass s | None => 0%Q end.
Fixpoint mass_insert (subs : list (sub Z nat)) (i : nat) (l : list nat) : list nat :=
  match l with [] => [i] | j :: r => if Qle_bool (mass_at subs j) (mass_at subs i) then i :: l else j :: mass_insert subs i r end.
Fixpoint mass_sort (subs : list (sub Z nat)) (l : list nat) : list nat :=
  match l with [] => [] | i :: r => mass_insert subs i (mass_sort subs r) end.
Lemma mass_insert_perm subs i l : Permutation (i :: l) (mass_insert subs i l).
Proof.
  induction l as [|j r IH]; cbn; [reflexivity|]. destruct (Qle_bool _ _); [reflexivity|].
  eapply perm_trans; [apply perm_swap|]. constructor. exact IH.
Qed.
Lemma mass_sort_ok subs : sorts_by_mass subs (mass_sort subs).
Proof.
  intros l. assert (HP : forall l, Permutation l (mass_sort subs l)).
  { induction l0 as [|i r IH]; cbn; [constructor|]. eapply perm_trans; [constructor; exact IH|apply mass_insert_perm]. }
  split; [apply HP|]. intros _.
  assert (HS : StronglySorted (fun i j => (mass_at subs j <= mass_at subs i)%Q) (mass_sort subs l)).
  { induction l as [|i r IH]; cbn; [constructor|]. revert IH. generalize (mass_sort subs r). clear. intros m HS.
    induction m as [|j m IH]; cbn; [repeat constructor|]. apply StronglySorted_inv in HS as [HS HF]. destruct (Qle_bool (mass_at subs j) (mass_at subs i)) eqn:E.
    - apply Qle_bool_iff in E. constructor; [constructor; assumption|]. constructor; [exact E|]. rewrite Forall_forall in *. intros x Hx.
      eapply Qle_trans; [apply HF; exact Hx|exact E].
    - apply Qlt_of_not_le_bool in E. constructor; [apply IH; exact HS|]. rewrite Forall_forall in *. intros x Hx.
      apply (Permutation_in _ (Permutation_sym (mass_insert_perm subs i m))) in Hx as [<-|Hx]; [apply Qlt_le_weak; exact E|apply HF; exact Hx]. }
  clear - HS. induction HS as [|i m HS IH HF]; constructor; [exact IH|]. rewrite Forall_forall in *. intros j Hj a b Ha Hb.
  specialize (HF j Hj). unfold mass_at in HF. rewrite Ha, Hb in HF. exact HF.
Qed.

Definition mk (nb : nat) (m : Q) (host : Z) (parts : list (Z * Z)) : sub Z nat :=
  set_parts parts (set_host host (set_mass m (set_nbound nb (new_sub 0)))).
Definition w_subs : list (sub Z nat) :=
  [mk 3 3 1 [(10, 0); (11, 0); (12, 0)]%Z; mk 9 9 (-1) [(20, 0)]%Z; mk 5 5 1 [(30, 0); (31, 0)]%Z; mk 1 1 0 [(40, 0)]%Z; mk 4 4 1 [(50, 0)]%Z].
Definition w_halos : list (list (Z * Z) * Q) :=
  [([(1, 1); (40, 1)]%Z, 0%Q); ([(2, 1); (50, 1); (10, 1)]%Z, 4%Q); ([(7, 1)]%Z, 0%Q); ([], 0%Q)].
Example C21_witness : Forall (fun s => (-1 <= s_host s < 4)%Z) w_subs /\ sorts_by_mass w_subs (mass_sort w_subs) /\
  build_table (mass_sort w_subs) true 4 w_subs = Some [[1]; [3]; [2; 4; 0]; []; []] /\
  build_table (mass_sort w_subs) false 4 w_subs = Some [[1]; []; [2; 4; 0]; []; []].
Proof. split; [repeat constructor; cbn; lia|]. split; [apply mass_sort_ok|]. split; vm_compute; reflexivity. Qed.

(** Finding: a subhalo whose most bound particle no process knows has host -2 (see C22) and the table is written out of bounds. *)
Theorem C21_missing_particle_host_refuted : exists subs : list (sub Z nat), build_table (mass_sort subs) true 4 subs = None.
Proof. exists [mk 3 3 (-2) []]. vm_compute. reflexivity. Qed.
Print Assumptions C21_missing_particle_host_refuted.

(** C23: for all masses, distances and groups, the decided table holds the same members as the built one, and the first
    member of each group is one of minimal distance among the members with at least the given fraction of the largest mass. *)
Theorem C23_central_is_best : forall (X R H : Type) (sort : list nat -> list nat) (ratio : Q) (dist : sub X R -> H -> Q)
    (subs : list (sub X R)) (halos : list (list (Z * X) * H)),
  Forall (fun s => (-1 <= s_host s < Z.of_nat (length halos))%Z) subs -> sorts_by_mass subs sort ->
  Forall (fun s => (0 <= s_mass s)%Q) subs -> (ratio <= 1)%Q ->
  exists table0 table, build_table sort true (length halos) subs = Some table0 /\
    decide_centrals ratio dist subs (map snd halos) table0 = Some table /\ Forall2 (@Permutation nat) table0 table /\
    (forall g hp h, nth_error halos g = Some (hp, h) -> (exists i, hosted_by subs i (Z.of_nat g)) ->
       exists c rest, nth_error table (S g) = Some (c :: rest) /\ best_member subs ratio (fun s => dist s h) (Z.of_nat g) c).
Proof.
  intros X R H sort ratio dist subs halos H1 H2 H3 H4.
  destruct (decided sort ratio dist subs halos H1 H2 H3 H4) as (t0 & t & HB & HD & (HL & Hin & Hbest) & HP).
  exists t0, t. split; [exact HB|]. split; [exact HD|]. split; [exact HP|]. intros g hp h Hh [i Hi].
  destruct (nth_error_in_range t (S g)) as [l Hl]; [pose proof (nth_error_lt _ _ _ Hh); lia|].
  destruct (Hin (S g) l Hl) as [Hmem _]. replace (Z.of_nat (S g) - 1)%Z with (Z.of_nat g) in Hmem by lia.
  apply Hmem in Hi. destruct l as [|c rest]; [destruct Hi|]. exists c, rest. split; [exact Hl|]. eapply Hbest; eauto.
Qed.
Print Assumptions C23_central_is_best.
Example C23_witness : Forall (fun s => (0 <= s_mass s)%Q) w_subs /\ (4 # 5 <= 1)%Q /\
  decide_centrals (4 # 5) (fun s h => ((s_mass s - h) * (s_mass s - h))%Q) w_subs (map snd w_halos) [[1]; [3]; [2; 4; 0]; []; []] =
    Some [[1]; [3]; [4; 2; 0]; []; []].
Proof. split; [repeat constructor; cbn; discriminate|]. split; [discriminate|]. vm_compute. reflexivity. Qed.

(** C24: for every set of subhalos and halos and every order in which the threads treat the hosts:
    - subhalos that are not chosen as central are unchanged;
    - a halo with members gives its particles to its best member, which keeps everything else; its former first particle
      stays in front if the halo contains it;
    - a halo without members gets exactly one new subhalo with the halo's particles, the current snapshot as birth and no
      track id;
    - nothing else is created. *)
Theorem C24_centrals_fed : forall (X R H : Type) (sort : list nat -> list nat) (ratio : Q) (dist : sub X R -> H -> Q) (centre : H -> R -> R)
    (snap : Z) (fresh : R) (order : list nat) (subs : list (sub X R)) (halos : list (list (Z * X) * H)),
  Forall (fun s => (-1 <= s_host s < Z.of_nat (length halos))%Z) subs -> sorts_by_mass subs sort ->
  Forall (fun s => (0 <= s_mass s)%Q) subs -> (ratio <= 1)%Q ->
  Forall (fun s => (0 <= s_host s)%Z -> s_parts s <> []) subs ->
  Permutation order (seq 0 (length halos)) ->
  exists table st central, centrals_step sort ratio dist centre snap fresh order subs halos = Some (table, st) /\
    (forall i s, nth_error subs i = Some s -> (forall g, central g <> Some i) -> nth_error (f_subs st) i = Some s) /\
    (forall g hp h, nth_error halos g = Some (hp, h) ->
       ((exists i, hosted_by subs i (Z.of_nat g)) ->
          exists m c p0 pr parts', central g = Some m /\ best_member subs ratio (fun s => dist s h) (Z.of_nat g) m /\
            nth_error subs m = Some c /\ s_parts c = p0 :: pr /\
            nth_error (f_subs st) m = Some (set_nbound (length hp) (set_parts parts' c)) /\ Permutation hp parts' /\
            (In (fst p0) (map fst hp) -> exists p r, parts' = p :: r /\ fst p = fst p0) /\
            (~ In (fst p0) (map fst hp) -> parts' = hp)) /\
       (~ (exists i, hosted_by subs i (Z.of_nat g)) -> central g = None /\
          exists k, length subs <= k /\
            nth_error (f_subs st) k = Some (mksub (-1) (length hp) 0%Q (Z.of_nat g) 0 0 0%Q (-1) (-1) snap (-1) (-1) (-1) hp [] (centre h fresh)))) /\
    (forall k k' s s', length subs <= k -> length subs <= k' -> nth_error (f_subs st) k = Some s -> nth_error (f_subs st) k' = Some s' ->
       ((0 <= s_host s < Z.of_nat (length halos))%Z /\ ~ (exists i, hosted_by subs i (s_host s))) /\ (s_host s = s_host s' -> k = k')).
Proof.
  intros X R H sort ratio dist centre snap fresh order subs halos H1 H2 H3 H4 H5 H6.
  destruct (step_spec sort ratio dist subs halos H1 H2 H3 H4 centre snap fresh H5 order H6) as (t & st & HS & (HL & Hin & Hbest) & HI & HC).
  destruct HI as (olds & E1 & E2 & E3 & E4 & E5 & E6 & E7). rewrite HC, Nat.sub_diag in E1. cbn [repeat] in E1. rewrite app_nil_r in E1.
  assert (Hord : forall g, g < length halos <-> In g order).
  { intros g. split; intros Hg.
    - apply (Permutation_in _ (Permutation_sym H6)). apply in_seq. lia.
    - apply (Permutation_in _ H6) in Hg. apply in_seq in Hg. lia. }
  assert (Hnd : NoDup order) by (eapply Permutation_NoDup; [symmetry; exact H6|apply seq_NoDup]).
  assert (Hmem : forall g, g < length halos -> exists l, nth_error t (S g) = Some l /\ forall i, In i l <-> hosted_by subs i (Z.of_nat g)).
  { intros g Hg. destruct (nth_error_in_range t (S g)) as [l Hl]; [lia|]. exists l. split; [exact Hl|]. destruct (Hin (S g) l Hl) as [Hm _].
    replace (Z.of_nat (S g) - 1)%Z with (Z.of_nat g) in Hm by lia. exact Hm. }
  assert (Hempty : forall g, g < length halos -> (is_empty_group t g = true <-> ~ exists i, hosted_by subs i (Z.of_nat g))).
  { intros g Hg. destruct (Hmem g Hg) as (l & Hl & Hm). unfold is_empty_group. rewrite Hl. destruct l as [|m l].
    - split; [|reflexivity]. intros _ [i Hi]. apply Hm in Hi. destruct Hi.
    - split; [discriminate|]. intros Hn. exfalso. apply Hn. exists m. apply Hm. left; reflexivity. }
  assert (Hnew : forall k s, length subs <= k -> nth_error (f_subs st) k = Some s ->
            exists g, nth_error (filter (is_empty_group t) order) (k - length subs) = Some g /\ g < length halos /\
              is_empty_group t g = true /\ s = newborn centre snap fresh halos g /\ s_host s = Z.of_nat g).
  { intros k s Hk Hs. rewrite E1, nth_error_app2, E2, nth_error_map in Hs by lia.
    destruct (nth_error (filter (is_empty_group t) order) (k - length subs)) as [g|] eqn:Eg; [|discriminate]. cbn in Hs. injection Hs as <-.
    pose proof (nth_error_In _ _ Eg) as Hgin. apply filter_In in Hgin as [Hg1 Hg2]. apply Hord in Hg1. exists g.
    split; [reflexivity|]. split; [exact Hg1|]. split; [exact Hg2|]. split; [reflexivity|]. unfold newborn.
    destruct (nth_error_in_range halos g Hg1) as [[hp h] ->]. reflexivity. }
  exists t, st, (fun g => match nth_error t (S g) with Some (m :: _) => Some m | _ => None end). split; [exact HS|]. split; [|split].
  - intros i s Hi Hn. rewrite E1, nth_error_app1 by (pose proof (nth_error_lt _ _ _ Hi); lia). rewrite E6; [exact Hi|].
    intros g m0 rest _ Hg ->. apply (Hn g). rewrite Hg. reflexivity.
  - intros g hp h Hh. pose proof (nth_error_lt _ _ _ Hh) as Hg. destruct (Hmem g Hg) as (l & Hl & Hm). split.
    + intros [i Hi]. apply Hm in Hi. destruct l as [|m rest]; [destruct Hi|].
      destruct (E7 g m rest (proj1 (Hord g) Hg) Hl) as (s' & Es & c & p0 & pr & parts' & F1 & F2 & F3 & F4 & F5 & F6).
      exists m, c, p0, pr, parts'. rewrite Hl. split; [reflexivity|]. split; [eapply Hbest; eauto|]. split; [exact F1|]. split; [exact F2|].
      unfold halo_parts in *. rewrite Hh in *. split; [|split; [exact F4|split; assumption]].
      rewrite E1, nth_error_app1 by (pose proof (nth_error_lt _ _ _ F1); lia). rewrite Es, F3. reflexivity.
    + intros Hn. pose proof (proj2 (Hempty g Hg) Hn) as He. split.
      * unfold is_empty_group in He. rewrite Hl in *. destruct l; [reflexivity|discriminate].
      * assert (Hf : In g (filter (is_empty_group t) order)) by (apply filter_In; split; [apply Hord; exact Hg|exact He]).
        apply In_nth_error in Hf as [j Hj]. exists (length subs + j). split; [lia|].
        rewrite E1, nth_error_app2, E2, nth_error_map by lia. replace (length subs + j - length subs) with j by lia. rewrite Hj. cbn [option_map].
        unfold newborn. rewrite Hh. reflexivity.
  - intros k k' s s' Hk Hk' Hs Hs'. destruct (Hnew k s Hk Hs) as (g & F1 & F2 & F3 & F4 & F5).
    destruct (Hnew k' s' Hk' Hs') as (g' & F1' & F2' & F3' & F4' & F5'). split.
    + rewrite F5. split; [lia|]. apply Hempty; assumption.
    + rewrite F5, F5'. intros Heq. apply Nat2Z.inj in Heq. subst g'.
      assert (k - length subs = k' - length subs); [|lia].
      eapply (proj1 (NoDup_nth_error (filter (is_empty_group t) order))); [apply NoDup_filter; exact Hnd|eapply nth_error_lt; eauto|congruence].
Qed.
Print Assumptions C24_centrals_fed.
Example C24_witness : Forall (fun s => (0 <= s_host s)%Z -> s_parts s <> []) w_subs /\ Permutation [3; 1; 0; 2] (seq 0 (length w_halos)) /\
  option_map (fun r => map (fun s => (s_host s, s_nbound s, s_birth s, s_parts s)) (f_subs (snd r)))
    (centrals_step (mass_sort w_subs) (4 # 5) (fun s h => ((s_mass s - h) * (s_mass s - h))%Q) (fun _ r => r) 6 0 [3; 1; 0; 2] w_subs w_halos) =
  Some [(1, 3%nat, -1, [(10, 0); (11, 0); (12, 0)]); (-1, 9%nat, -1, [(20, 0)]); (1, 5%nat, -1, [(30, 0); (31, 0)]);
        (0, 2%nat, -1, [(40, 1); (1, 1)]); (1, 3%nat, -1, [(50, 1); (2, 1); (10, 1)]);
        (3, 0%nat, 6, []); (2, 1%nat, 6, [(7, 1)])]%Z.
Proof.
  split; [repeat constructor; cbn; discriminate|]. split; [|vm_compute; reflexivity].
  apply NoDup_Permutation; [repeat (apply NoDup_cons; [cbn; lia|]); apply NoDup_nil|apply seq_NoDup|]. intros i. rewrite in_seq. cbn. lia.
Qed.
