(** Properties C52 and C56: spherical overdensity sizes and profile properties. *)
From Coq Require Import List ZArith QArith Qminmax Bool Lia Lqa Sorting.Permutation Sorting.Sorted.
From Verif.Model Require Import ListMem Tree Profile.
From Verif.Spec Require Import Profile.
From Verif.Proofs Require Import ListMemProofs ListExtra TreeInsert ProfileProofs.
Import ListNotations.
Local Open Scope Q_scope.

(** C52: for every particle list with non-negative masses, every sorting function, threshold and resolution: either some particle
    encloses an overdense sphere, and the size reported is the mass enclosed by the outermost such particle and the radius at
    which that mass has the threshold density; or none does, and the output parameters are left as they were. *)
Theorem C52_outermost : forall (cbrt : Q -> Q) sort (soft rho : Q) (ps : list (Q * Q)) (old : Q * Q),
  sorts_by_radius sort -> Forall (fun p => 0 <= snd p) ps ->
  let out := so_profile cbrt rho (profile sort soft ps) old in
  (exists p, In p ps /\ overdense soft rho (radius soft p) ps /\ fst out == enclosed soft (radius soft p) ps /\ snd out = cbrt (fst out / rho) /\
     forall p', In p' ps -> radius soft p < radius soft p' -> ~ overdense soft rho (radius soft p') ps) \/
  ((forall p, In p ps -> ~ overdense soft rho (radius soft p) ps) /\ out = old).
Proof.
  intros cbrt sort soft rho ps old HS HM out. unfold out, so_profile. pose proof (scan_spec rho (profile sort soft ps)) as H. destruct (scan rho (rev (profile sort soft ps))) as [q|].
  - left. destruct H as (i & Hi & Hd & Hj). destruct (prof_nth soft sort ps i q Hi) as (p & Hp & Hr & Hm). exists p.
    assert (HE : snd q == enclosed soft (radius soft p) ps).
    { destruct (last_there soft sort HS ps i p Hp) as (j & q' & Hij & Hq' & Hr' & Hm'). destruct (Nat.eq_dec i j) as [->|Hne]; [assert (q' = q) by congruence; subst; exact Hm'|]. exfalso. specialize (Hj j q' ltac:(lia) Hq').
      destruct (prof_mono soft sort HS ps HM i j q q' Hij Hi Hq') as [_ Hle]. rewrite Hr' in Hj. rewrite Hr in Hd. lra. }
    split; [eapply prof_in; eauto|]. split; [unfold overdense; rewrite <- HE, <- Hr; exact Hd|]. cbn [fst snd]. split; [exact HE|]. split; [reflexivity|].
    intros p' Hp' Hlt Ho. destruct (in_prof sort HS ps p' Hp') as [k Hk]. destruct (last_there soft sort HS ps k p' Hk) as (j & q' & Hkj & Hq' & Hr' & Hm').
    assert (Hij : (i < j)%nat). { destruct (Nat.lt_ge_cases i j) as [L|L]; [exact L|]. destruct (prof_mono soft sort HS ps HM j i q' q L Hq' Hi) as [Hle _]. rewrite Hr, Hr' in Hle. lra. }
    specialize (Hj j q' Hij Hq'). unfold overdense in Ho. rewrite Hm', Hr' in Hj. lra.
  - right. split; [|reflexivity]. intros p Hp Ho. destruct (in_prof sort HS ps p Hp) as [k Hk]. destruct (last_there soft sort HS ps k p Hk) as (j & q' & _ & Hq' & Hr' & Hm'). specialize (H j q' Hq'). unfold overdense in Ho. rewrite Hm', Hr' in H. lra.
Qed.
Print Assumptions C52_outermost.

(** The version for equal masses, on a list of distances: the reported mass is that of the first [n] particles, where the [n]-th
    is the outermost with a count above the threshold; [n] = 0 and the mass zero when there is none. *)
Theorem C52_equal_masses : forall (cbrt : Q -> Q) (rho m : Q) (rs : list Q), exists n,
  so_equal cbrt rho m rs = (inject_Z (Z.of_nat n) * m, cbrt (inject_Z (Z.of_nat n) / rho)) /\ (n <= length rs)%nat /\
  (n = 0%nat \/ exists r, nth_error rs (n - 1) = Some r /\ rho * r * r * r < inject_Z (Z.of_nat n)) /\
  (forall j r, (n <= j)%nat -> nth_error rs j = Some r -> inject_Z (Z.of_nat (S j)) <= rho * r * r * r).
Proof. intros cbrt rho m rs. exists (so_count rho (rev rs)). split; [reflexivity|]. apply so_count_spec. Qed.
Print Assumptions C52_equal_masses.

(** Insertion sort, a concrete instance of [sorts_by_radius]. *)
Fixpoint r_insert (p : Q * Q) (l : list (Q * Q)) : list (Q * Q) := match l with [] => [p] | q :: t => if Qle_bool (fst p) (fst q) then p :: l else q :: r_insert p t end.
Definition r_sort (l : list (Q * Q)) : list (Q * Q) := fold_right r_insert [] l.
Lemma r_insert_perm p l : Permutation (r_insert p l) (p :: l).
Proof. induction l as [|q t IH]; cbn; [reflexivity|]. destruct (Qle_bool _ _); [reflexivity|]. rewrite IH. apply perm_swap. Qed.
Lemma r_sort_ok : sorts_by_radius r_sort.
Proof.
  intros l. split.
  - induction l as [|p l IH]; [reflexivity|]. cbn. rewrite r_insert_perm, IH. reflexivity.
  - induction l as [|p l IH]; [constructor|]. cbn [r_sort fold_right]. fold (r_sort l). revert IH. generalize (r_sort l). clear. intros l HS. induction HS as [|q t HS IH HF]; cbn [r_insert]; [repeat constructor|]. destruct (Qle_bool (fst p) (fst q)) eqn:E.
    + apply Qle_bool_iff in E. constructor; [constructor; assumption|]. constructor; [exact E|]. eapply Forall_impl; [|exact HF]. intros a Ha. cbv beta in Ha. lra.
    + assert (E' : fst q <= fst p). { destruct (Qlt_le_dec (fst p) (fst q)) as [L|L]; [|exact L]. assert (Hx : Qle_bool (fst p) (fst q) = true) by (apply Qle_bool_iff; lra). congruence. }
      constructor; [exact IH|]. apply Forall_forall. intros a Ha. apply (Permutation_in _ (r_insert_perm p t)) in Ha as [<-|Ha]; [exact E'|]. rewrite Forall_forall in HF. apply HF. exact Ha.
Qed.
Definition w_ps : list (Q * Q) := [(0, 2); (3, 1); (1, 2); (1, 3); (10, 1)].
Example C52_witness : sorts_by_radius r_sort /\ Forall (fun p => 0 <= snd p) w_ps /\
  so_profile (fun x => x) (1 # 10) (profile r_sort (1 # 2) w_ps) (77, 78) = (0 + 2 + 2 + 3 + 1, (0 + 2 + 2 + 3 + 1) / (1 # 10)).
Proof. split; [exact r_sort_ok|]. split; [repeat constructor; cbn; lra|]. vm_compute. reflexivity. Qed.

(** Finding: when no particle encloses an overdense sphere the subhalo keeps the size of the previous snapshot. *)
Theorem C52_stale_refuted : exists (ps : list (Q * Q)) (old out : props), (2 <= length ps)%nat /\ calc (fun x => x) (fun x => x) r_sort 2 1 1 5 old ps = Some out /\
  (forall p, In p ps -> ~ overdense 2 1 (radius 2 p) ps) /\ ~ o_m200 old == 0 /\ o_m200 out = o_m200 old /\ o_r200 out = o_r200 old.
Proof.
  exists [(0, 1); (5, 1)], {| o_rmax := 0; o_vmax := 0; o_r2sigma := 0; o_rhalf := 0; o_r200 := 7; o_m200 := 9; o_lastv := 0; o_lastsnap := 0 |}. eexists. split; [cbn; lia|]. split; [vm_compute; reflexivity|]. split; [|split; [|split; reflexivity]].
  - intros p [<-|[<-|[]]]; vm_compute; intros H; discriminate H.
  - vm_compute. discriminate.
Qed.
Print Assumptions C52_stale_refuted.

(** C56: for every list of at least two particles, all masses and distances, softening above zero: the maximum circular velocity
    is the largest of enclosed mass over radius among the particles, and Rmax the radius where it is reached; the half-mass and
    two-sigma radii split the particles after N/2 and 0.955 N of them; with fewer than two particles all of them are zero. *)
Theorem C56_profile : forall (cbrt sqrt : Q -> Q) sort (soft rho unit : Q) (snap : Z) (old : props) (ps : list (Q * Q)),
  sorts_by_radius sort -> Forall (fun p => 0 <= snd p) ps -> 0 < soft ->
  exists out, calc cbrt sqrt sort soft rho unit snap old ps = Some out /\
    ((length ps <= 1)%nat -> o_rmax out = 0 /\ o_vmax out = 0 /\ o_rhalf out = 0 /\ o_r2sigma out = 0 /\ o_m200 out = 0 /\ o_r200 out = 0) /\
    ((2 <= length ps)%nat ->
      (exists p x, In p ps /\ o_rmax out == radius soft p /\ o_vmax out = sqrt (x * unit) /\ x == enclosed soft (radius soft p) ps / radius soft p /\
         forall p', In p' ps -> enclosed soft (radius soft p') ps / radius soft p' <= x) /\
      splits soft (o_rhalf out) (length ps / 2) ps /\ splits soft (o_r2sigma out) (955 * length ps / 1000) ps).
Proof.
  intros cbrt sqrt sort soft rho unit snap old ps HS HM Hsoft. unfold calc. destruct (Nat.leb_spec (length ps) 1) as [Hn|Hn].
  - eexists. split; [reflexivity|]. cbn. split; [intros _; repeat split|intros H; lia].
  - pose proof (prof_length soft sort HS ps) as HL. assert (H2 : (length ps / 2 < length ps)%nat) by (apply Nat.div_lt; lia). assert (H955 : (955 * length ps / 1000 < length ps)%nat) by (apply Nat.div_lt_upper_bound; lia).
    destruct (nth_error_in_range (profile sort soft ps) (length ps / 2)) as [ph Hph]; [lia|]. destruct (nth_error_in_range (profile sort soft ps) (955 * length ps / 1000)) as [p2 Hp2]; [lia|].
    assert (Hr0 : forall p, 0 < radius soft p) by (intros p; unfold radius; pose proof (Q.le_max_r (fst p) soft); lra).
    assert (Hsp : forall k q, nth_error (profile sort soft ps) k = Some q -> splits soft (fst q) k ps).
    { intros k q Hq. destruct (prof_nth soft sort ps k q Hq) as (p & Hp & Hr & _). pose proof (sorted1 sort HS ps) as HSo. pose proof (perm1 sort HS ps) as HP. unfold splits. split.
      - rewrite (Permutation_length (perm_filter _ _ _ (Permutation_sym HP))). rewrite <- (firstn_skipn k (sort ps)), filter_app, app_length. replace (filter (fun p0 => negb (Qle_bool (fst q) (radius soft p0))) (skipn k (sort ps))) with (@nil (Q * Q)).
        + cbn [length]. rewrite Nat.add_0_r. eapply Nat.le_trans; [apply filter_len|]. rewrite firstn_length. lia.
        + symmetry. apply filter_nothing. intros x Hx. apply In_nth_error in Hx as [j Hj]. rewrite nth_skipn in Hj. apply negb_false_iff, Qle_bool_iff. rewrite Hr. apply radius_mono. eapply (sorted_nth _ HSo k (k + j)); [lia|exact Hp|exact Hj].
      - unfold inside. rewrite (Permutation_length (perm_filter _ _ _ (Permutation_sym HP))). rewrite <- (firstn_skipn (S k) (sort ps)), filter_app, app_length. rewrite filter_everything.
        + rewrite firstn_length. pose proof (nth_error_lt _ _ _ Hp). lia.
        + intros x Hx. apply In_nth_error in Hx as [j Hj]. rewrite nth_firstn in Hj. destruct (Nat.ltb_spec j (S k)); [|discriminate]. apply Qle_bool_iff. rewrite Hr. apply radius_mono. eapply (sorted_nth _ HSo j k); [lia|exact Hj|exact Hp]. }
    pose proof (Hsp _ _ Hph) as Sh. pose proof (Hsp _ _ Hp2) as S2. destruct (profile sort soft ps) as [|p0 t] eqn:EP; [cbn in HL; lia|]. cbv zeta. rewrite Hph, Hp2. eexists. split; [reflexivity|]. split; [intros H; lia|]. intros _. cbn [o_rmax o_vmax o_rhalf o_r2sigma].
    split; [|split; assumption]. destruct (max_from_spec t p0) as (Hin & Hb & Hall). set (b := max_from p0 t) in *.
    assert (HIn : In b (p0 :: t)) by (destruct Hin as [->|Hin]; [left; reflexivity|right; exact Hin]). assert (HA : forall q, In q (p0 :: t) -> v2 q <= v2 b) by (intros q [<-|Hq]; [exact Hb|apply Hall; exact Hq]).
    rewrite <- EP in HIn, HA. apply In_nth_error in HIn as [i Hi]. destruct (prof_nth soft sort ps i b Hi) as (p & Hp & Hr & Hm). exists p, (v2 b). split; [eapply prof_in; eauto|]. split; [exact Hr|]. split; [reflexivity|].
    assert (HU : forall p' k, nth_error (sort ps) k = Some p' -> enclosed soft (radius soft p') ps / radius soft p' <= v2 b).
    { intros p' k Hk. destruct (last_there soft sort HS ps k p' Hk) as (j & q' & _ & Hq' & Hr' & Hm'). specialize (HA q' (nth_error_In _ _ Hq')). unfold v2 in HA at 1. rewrite Hm', Hr' in HA. exact HA. }
    split.
    + apply Qle_antisym; [|exact (HU p i Hp)]. unfold v2. pose proof (below_enclosed soft sort HS ps HM i b Hi) as Hbe. rewrite (enclosed_eq soft ps _ _ Hr) in Hbe. rewrite Hr. apply Qle_shift_div_l; [apply Hr0|]. unfold Qdiv. rewrite <- Qmult_assoc, (Qmult_comm (/ radius soft p)), Qmult_inv_r by (specialize (Hr0 p); lra). lra.
    + intros p' Hp'. destruct (in_prof sort HS ps p' Hp') as [k Hk]. exact (HU p' k Hk).
Qed.
Print Assumptions C56_profile.

(** C56, over the life of a subhalo: LastMaxVmaxPhysical and SnapshotIndexOfLastMaxVmax after any sequence of snapshots. *)
Fixpoint life (cbrt sqrt : Q -> Q) sort (soft : Q) (old : props) (h : list (Z * Q * Q * list (Q * Q))) : option (list (Z * props) * props) :=
  match h with
  | [] => Some ([], old)
  | (snap, rho, unit, ps) :: t =>
      match calc cbrt sqrt sort soft rho unit snap old ps with
      | None => None
      | Some p => match life cbrt sqrt sort soft p t with
                  | Some (l, e) => Some ((if (length ps <=? 1)%nat then [] else [(snap, p)]) ++ l, e)
                  | None => None
                  end
      end
  end.
Theorem C56_peak : forall (cbrt sqrt : Q -> Q) sort (soft : Q) (old : props) (h : list (Z * Q * Q * list (Q * Q))) l e,
  life cbrt sqrt sort soft old h = Some (l, e) ->
  (o_lastv e = o_lastv old /\ o_lastsnap e = o_lastsnap old /\ Forall (fun sp => o_vmax (snd sp) < o_lastv old) l) \/
  (exists before s p after, l = before ++ (s, p) :: after /\ o_lastv e = o_vmax p /\ o_lastsnap e = s /\ o_lastv old <= o_vmax p /\
     Forall (fun sp => o_vmax (snd sp) <= o_vmax p) before /\ Forall (fun sp => o_vmax (snd sp) < o_vmax p) after).
Proof.
  intros cbrt sqrt sort soft old h. revert old. induction h as [|[[[snap rho] unit] ps] h IH]; intros old l e H; cbn [life] in H; [injection H as <- <-; left; auto|].
  destruct (calc cbrt sqrt sort soft rho unit snap old ps) as [p|] eqn:EC; [|discriminate]. destruct (life cbrt sqrt sort soft p h) as [[l' e']|] eqn:EL; [|discriminate]. assert (E1 : (if (length ps <=? 1)%nat then [] else [(snap, p)]) ++ l' = l) by congruence. assert (E2 : e' = e) by congruence. subst e' l. clear H. specialize (IH p l' e EL).
  unfold calc in EC. destruct (length ps <=? 1)%nat.
  - assert (E3 : o_lastv p = o_lastv old) by (injection EC as <-; reflexivity). assert (E4 : o_lastsnap p = o_lastsnap old) by (injection EC as <-; reflexivity). rewrite E3, E4 in IH. exact IH.
  - destruct (profile sort soft ps) as [|p0 t]; [discriminate|]. destruct (nth_error _ (length ps / 2)); [|discriminate]. destruct (nth_error _ (955 * length ps / 1000)); [|discriminate].
    set (v := sqrt (v2 (max_from p0 t) * unit)) in *.
    assert (Ev : o_vmax p = v) by (injection EC as <-; reflexivity). assert (E3 : o_lastv p = if Qle_bool (o_lastv old) v then v else o_lastv old) by (injection EC as <-; reflexivity). assert (E4 : o_lastsnap p = if Qle_bool (o_lastv old) v then snap else o_lastsnap old) by (injection EC as <-; reflexivity).
    clear EC. destruct (Qle_bool (o_lastv old) v) eqn:EQ.
    + apply Qle_bool_iff in EQ. right. destruct IH as [(A & B & C)|(bf & s & q & af & A & B & C & D & E & F)].
      * exists [], snap, p, l'. split; [reflexivity|]. split; [congruence|]. split; [congruence|]. split; [rewrite Ev; exact EQ|]. split; [constructor|]. rewrite Ev, <- E3. exact C.
      * exists ((snap, p) :: bf), s, q, af. subst l'. split; [reflexivity|]. split; [exact B|]. split; [exact C|]. rewrite E3 in D. split; [lra|]. split; [constructor; [cbn [snd]; rewrite Ev; lra|exact E]|exact F].
    + assert (Hlt : v < o_lastv old). { destruct (Qlt_le_dec v (o_lastv old)) as [L|L]; [exact L|]. apply Qle_bool_iff in L. congruence. }
      destruct IH as [(A & B & C)|(bf & s & q & af & A & B & C & D & E & F)].
      * left. split; [congruence|]. split; [congruence|]. constructor; [cbn [snd]; rewrite Ev; lra|]. rewrite <- E3. exact C.
      * right. exists ((snap, p) :: bf), s, q, af. subst l'. split; [reflexivity|]. split; [exact B|]. split; [exact C|]. rewrite E3 in D. split; [exact D|]. split; [constructor; [cbn [snd]; rewrite Ev; lra|exact E]|exact F].
Qed.
Print Assumptions C56_peak.
Example C56_witness : exists out, calc (fun x => x) (fun x => x) r_sort (1 # 2) (1 # 10) 2 7 {| o_rmax := 0; o_vmax := 0; o_r2sigma := 0; o_rhalf := 0; o_r200 := 0; o_m200 := 0; o_lastv := 3; o_lastsnap := 1 |} w_ps = Some out /\
  o_rmax out == 1 /\ o_vmax out == 14 /\ o_rhalf out == 1 /\ o_r2sigma out == 10 /\ o_lastsnap out = 7%Z.
Proof. eexists. split; [vm_compute; reflexivity|]. vm_compute. repeat split. Qed.
Example C56_life_witness : exists l e, life (fun x => x) (fun x => x) r_sort (1 # 2) {| o_rmax := 0; o_vmax := 0; o_r2sigma := 0; o_rhalf := 0; o_r200 := 0; o_m200 := 0; o_lastv := 3; o_lastsnap := 1 |}
  [(7%Z, 1 # 10, 2, w_ps); (8%Z, 1 # 10, 1, w_ps); (9%Z, 1 # 10, 1, [(0, 1)])] = Some (l, e) /\ length l = 2%nat /\ o_lastsnap e = 7%Z.
Proof. do 2 eexists. split; [vm_compute; reflexivity|]. vm_compute. repeat split. Qed.
