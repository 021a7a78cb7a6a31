(** Proofs about the linked-list grid: the searches against their specification, and the lists of several threads. *)
From Coq Require Import List ZArith QArith Qround Qfield Bool Lia Lqa Sorting.Permutation.
From Verif.Model Require Import ListMem Run Mymath Tree LinkedList.
From Verif.Spec Require Import Basic Octree Chains.
From Verif.Proofs Require Import ListMemProofs ListExtra MymathProofs MymathProofs2 TreeInsert TreeResults LinkProofs LinkMerge LinkSearch LinkGroups.
Import ListNotations.
Local Open Scope Z_scope.

(** *** What is accepted, as a function of the position. *)
Definition ball_of (periodic : bool) (L : Q) (x : vec) (r : Q) (y : vec) : option Q :=
  let v := norm2 (apart periodic L y x) in if Qgtb (r * r) v then Some v else None.
Definition shell_of (periodic : bool) (L : Q) (x : vec) (rmin rmax : Q) (y : vec) : option Q :=
  let v := norm2 (apart periodic L y x) in if Qgtb (rmax * rmax) v && Qgtb v (rmin * rmin) then Some v else None.
Definition cylinder_of (periodic : bool) (L : Q) (x : vec) (rz rp : Q) (y : vec) : option Q :=
  let d := apart periodic L y x in if negb (Qgtb (coord 2 d) rz || Qgtb (- rz)%Q (coord 2 d)) && Qgtb (rp * rp) (plane2 d) then Some (plane2 d) else None.

Definition dom (periodic : bool) (L : Q) (x : vec) : Prop := periodic = true -> in_domain L x.
(** [g] accepts what is wanted. *)
Definition accepts (D : vec -> Prop) (g : vec -> option Q) (want : vec -> Q -> Prop) : Prop :=
  forall y, D y -> (forall v, g y = Some v -> want y v) /\ (forall v, want y v -> exists v', (v' == v)%Q /\ g y = Some v').
Lemma ball_accepts periodic L x r : (periodic = true -> 0 < L)%Q -> dom periodic L x -> accepts (dom periodic L) (ball_of periodic L x r) (in_ball periodic L x r).
Proof.
  intros HL Dx y Dy. pose proof (apart_least periodic L y x Dy Dx HL) as HA. unfold ball_of, in_ball. cbn zeta. destruct (Qgtb (r * r) (norm2 (apart periodic L y x))) eqn:E; [apply Qgtb_spec in E|apply Qgtb_false in E].
  - split; [intros v [= <-]; auto|]. intros v [Hv _]. exists (norm2 (apart periodic L y x)). split; [apply (least_unique periodic L y x); assumption|reflexivity].
  - split; [discriminate|]. intros v [Hv Hlt]. pose proof (least_unique periodic L y x _ _ Hv HA). exfalso. lra.
Qed.
Lemma shell_accepts periodic L x rmin rmax : (periodic = true -> 0 < L)%Q -> dom periodic L x -> accepts (dom periodic L) (shell_of periodic L x rmin rmax) (in_shell periodic L x rmin rmax).
Proof.
  intros HL Dx y Dy. pose proof (apart_least periodic L y x Dy Dx HL) as HA. unfold shell_of, in_shell. cbn zeta. destruct (Qgtb (rmax * rmax) (norm2 (apart periodic L y x))) eqn:E; [apply Qgtb_spec in E|apply Qgtb_false in E]; cbn [andb].
  - destruct (Qgtb (norm2 (apart periodic L y x)) (rmin * rmin)) eqn:E2; [apply Qgtb_spec in E2|apply Qgtb_false in E2].
    + split; [intros v [= <-]; auto|]. intros v [Hv _]. exists (norm2 (apart periodic L y x)). split; [apply (least_unique periodic L y x); assumption|reflexivity].
    + split; [discriminate|]. intros v [Hv Hlt]. pose proof (least_unique periodic L y x _ _ Hv HA). exfalso. lra.
  - split; [discriminate|]. intros v [Hv Hlt]. pose proof (least_unique periodic L y x _ _ Hv HA). exfalso. lra.
Qed.
Lemma least_offset_apart periodic L j y x : (periodic = true -> 0 < L)%Q -> dom periodic L x -> dom periodic L y -> least_offset periodic L (coord j y) (coord j x) (coord j (apart periodic L y x)).
Proof.
  intros HL Dx Dy. unfold least_offset, dom in *. rewrite apart_coord. destruct periodic; [|reflexivity]. specialize (HL eq_refl). specialize (Dx eq_refl j). specialize (Dy eq_refl j).
  assert (R : near_range L (coord j y) (coord j x)) by (unfold near_range; lra). split; [apply nearest_spec; [exact HL|exact R]|]. intros e' He. pose proof (Qabs_sq _ _ (nearest_le L _ _ e' HL R He)). lra.
Qed.
Lemma least_offset_sq periodic L a b e e' : least_offset periodic L a b e -> least_offset periodic L a b e' -> (e' == e \/ e' == - e)%Q.
Proof.
  unfold least_offset. destruct periodic; [|intros -> ->; left; reflexivity]. intros [A1 A2] [B1 B2]. specialize (A2 _ B1). specialize (B2 _ A1).
  assert (H : ((e' - e) * (e' + e) == 0)%Q) by lra. apply Qmult_integral in H as [H|H]; [left|right]; lra.
Qed.
Lemma cylinder_accepts periodic L x rz rp : (periodic = true -> 0 < L)%Q -> dom periodic L x -> accepts (dom periodic L) (cylinder_of periodic L x rz rp) (in_cylinder periodic L x rz rp).
Proof.
  intros HL Dx y Dy. unfold cylinder_of, in_cylinder. cbn zeta. set (d := apart periodic L y x).
  assert (HA : forall j, least_offset periodic L (coord j y) (coord j x) (coord j d)) by (intros j; apply least_offset_apart; assumption).
  assert (G : negb (Qgtb (coord 2 d) rz || Qgtb (- rz)%Q (coord 2 d)) && Qgtb (rp * rp) (plane2 d) = true <-> ((- rz <= coord 2 d /\ coord 2 d <= rz) /\ plane2 d < rp * rp)%Q).
  { rewrite andb_true_iff, negb_true_iff, orb_false_iff, !Qgtb_false, Qgtb_spec. tauto. }
  destruct (negb (Qgtb (coord 2 d) rz || Qgtb (- rz)%Q (coord 2 d)) && Qgtb (rp * rp) (plane2 d)).
  - destruct (proj1 G eq_refl) as [G1 G2]. split.
    + intros v [= <-]. exists (coord 0 d), (coord 1 d), (coord 2 d). split; [apply HA|]. split; [apply HA|]. split; [apply HA|]. split; [reflexivity|]. split; [exact G2|exact G1].
    + intros v (e0 & e1 & e2 & A0 & A1 & A2 & Ev & _). exists (plane2 d). split; [|reflexivity]. unfold plane2. rewrite Ev. destruct (least_offset_sq _ _ _ _ _ _ A0 (HA 0%nat)) as [->| ->], (least_offset_sq _ _ _ _ _ _ A1 (HA 1%nat)) as [->| ->]; ring.
  - split; [discriminate|]. intros v (e0 & e1 & e2 & A0 & A1 & A2 & Ev & Hv & Hz). exfalso. assert (Hp : (plane2 d == v)%Q). { unfold plane2. rewrite Ev. destruct (least_offset_sq _ _ _ _ _ _ A0 (HA 0%nat)) as [->| ->], (least_offset_sq _ _ _ _ _ _ A1 (HA 1%nat)) as [->| ->]; ring. }
    assert (false = true); [|discriminate]. apply G. split; [|lra]. destruct (least_offset_sq _ _ _ _ _ _ A2 (HA 2%nat)) as [E|E]; lra.
Qed.

(** *** One list. *)
Lemma search_by ll L fuel x rad item (g : vec -> option Q) : linked ll -> good ll -> (L == ll_box ll)%Q -> (length (ll_ps ll) <= fuel)%nat ->
  (forall p y, item p y = match g y with Some v => [(p, v)] | None => [] end) ->
  (forall y v, g y = Some v -> forall j, - coord j rad <= coord j (apart (ll_periodic ll) L y x) <= coord j rad)%Q ->
  exists found, search_with ll fuel x rad item = Done found /\ (narrow ll rad -> NoDup (map fst found)) /\
    forall p v, In (p, v) found <-> exists y, zget (ll_ps ll) p = Some y /\ g y = Some v.
Proof.
  intros Hl Hg HL Hf Hit Hr. destruct (search_ok ll L fuel x rad item Hl Hg HL Hf) as (found & E & H1 & H2).
  - intros p y. rewrite Hit. destruct (g y) as [v|] eqn:Eg; [right|left; reflexivity]. exists v. split; [reflexivity|apply (Hr y v Eg)].
  - exists found. split; [exact E|]. split; [exact H1|]. intros p v. rewrite H2. split; intros (y & Ey & Hy); exists y; (split; [exact Ey|]).
    + rewrite Hit in Hy. destruct (g y); [congruence|discriminate].
    + rewrite Hit, Hy. reflexivity.
Qed.
Definition every (g : vec -> option Q) (ps : list vec) (found : list (Z * Q)) : Prop := forall p v, In (p, v) found <-> exists y, zget ps p = Some y /\ g y = Some v.
Lemma every_finds D g want ps found : accepts D g want -> Forall D ps -> every g ps found -> finds want ps found.
Proof.
  intros HA HD HE. assert (HDp : forall p y, zget ps p = Some y -> D y). { intros p y Ey. pose proof (zget_some _ _ _ Ey). rewrite zget_nat in Ey by lia. apply nth_error_In in Ey. rewrite Forall_forall in HD. auto. } split.
  - intros p r2 Hin. apply HE in Hin as (y & Ey & Eg). exists y. split; [exact Ey|]. apply (HA y (HDp p y Ey)). exact Eg.
  - intros p y r2 Ey Hw. destruct (HA y (HDp p y Ey)) as [_ HA2]. destruct (HA2 r2 Hw) as (v & Hv & Eg). exists v. split; [exact Hv|]. apply HE. eauto.
Qed.
Lemma sphere_by ll L fuel r x : linked ll -> good ll -> (L == ll_box ll)%Q -> (length (ll_ps ll) <= fuel)%nat -> (0 <= r)%Q ->
  exists found, sphere ll L fuel r x = Done found /\ (narrow ll (r, r, r) -> NoDup (map fst found)) /\ every (ball_of (ll_periodic ll) L x r) (ll_ps ll) found.
Proof.
  intros Hl Hg HL Hf Hr. apply (search_by ll L fuel x (r, r, r) (sphere_item ll L x r) (ball_of (ll_periodic ll) L x r) Hl Hg HL Hf).
  - intros p y. unfold ball_of. cbn zeta. destruct (sphere_item_ok ll L x r p y Hr) as [(H & -> & _)|(H & ->)]; cbn zeta in H; [rewrite (proj2 (Qgtb_spec (r * r) _) H)|rewrite (proj2 (Qgtb_false (r * r) _) H)]; reflexivity.
  - intros y v. unfold ball_of. cbn zeta. destruct (Qgtb (r * r) _) eqn:E; [apply Qgtb_spec in E|discriminate]. intros _ j. rewrite coord_const. apply coord_le_norm; assumption.
Qed.
Lemma shell_by ll L fuel rmin rmax x : linked ll -> good ll -> (L == ll_box ll)%Q -> (length (ll_ps ll) <= fuel)%nat -> (0 <= rmax)%Q ->
  exists found, shell ll L fuel rmin rmax x = Done found /\ (narrow ll (rmax, rmax, rmax) -> NoDup (map fst found)) /\
    every (if Qle_bool rmin 0 then ball_of (ll_periodic ll) L x rmax else shell_of (ll_periodic ll) (ll_box ll) x rmin rmax) (ll_ps ll) found.
Proof.
  intros Hl Hg HL Hf Hr. unfold shell. destruct (Qle_bool rmin 0) eqn:E; [apply sphere_by; assumption|]. apply Qle_bool_false in E.
  apply (search_by ll (ll_box ll) fuel x (rmax, rmax, rmax) (shell_item ll x rmin rmax) (shell_of (ll_periodic ll) (ll_box ll) x rmin rmax) Hl Hg (Qeq_refl _) Hf).
  - intros p y. unfold shell_item, shell_of. cbn zeta. destruct (_ && _); reflexivity.
  - intros y v. unfold shell_of. cbn zeta. destruct (Qgtb (rmax * rmax) _) eqn:E2; [apply Qgtb_spec in E2|discriminate]. intros _ j. rewrite coord_const. apply coord_le_norm; assumption.
Qed.
Lemma cylinder_by ll L fuel rz rp x : linked ll -> good ll -> (L == ll_box ll)%Q -> (length (ll_ps ll) <= fuel)%nat -> (0 <= rz)%Q -> (0 <= rp)%Q ->
  exists found, cylinder ll L fuel rz rp x = Done found /\ (narrow ll (rp, rp, rz) -> NoDup (map fst found)) /\ every (cylinder_of (ll_periodic ll) L x rz rp) (ll_ps ll) found.
Proof.
  intros Hl Hg HL Hf Hz Hp. assert (G : forall y, negb (Qgtb (coord 2 (apart (ll_periodic ll) L y x)) rz || Qgtb (- rz)%Q (coord 2 (apart (ll_periodic ll) L y x))) && Qgtb (rp * rp) (plane2 (apart (ll_periodic ll) L y x)) = true <-> ((- rz <= coord 2 (apart (ll_periodic ll) L y x) /\ coord 2 (apart (ll_periodic ll) L y x) <= rz) /\ plane2 (apart (ll_periodic ll) L y x) < rp * rp)%Q).
  { intros y. rewrite andb_true_iff, negb_true_iff, orb_false_iff, !Qgtb_false, Qgtb_spec. tauto. }
  apply (search_by ll L fuel x (rp, rp, rz) (cylinder_item ll L x rz rp) (cylinder_of (ll_periodic ll) L x rz rp) Hl Hg HL Hf).
  - intros p y. unfold cylinder_of. cbn zeta. specialize (G y). destruct (negb _ && _); destruct (cylinder_item_ok ll L x rz rp p y Hz Hp) as [(H & -> & _)|(H & ->)]; cbn zeta in H; try reflexivity; exfalso; [apply H; destruct (proj1 G eq_refl); tauto|]. destruct H as [Ha [Hb Hc]]. assert (false = true); [|discriminate]. apply G. tauto.
  - intros y v. unfold cylinder_of. cbn zeta. specialize (G y). destruct (negb _ && _) eqn:E; [|discriminate]. destruct (proj1 G eq_refl) as [G1 G2]. intros _ j. unfold plane2 in G2. destruct (apart (ll_periodic ll) L y x) as [[d0 d1] d2]. destruct j as [|[|j]]; cbn [coord] in *; [split; nra|split; nra|exact G1].
Qed.

(** *** Several lists. *)
Lemma for_each_collect {A B} (f : A -> option B) (h : A -> B) l : (forall a, In a l -> f a = Some (h a)) -> forall acc, for_each l (fun a acc => match f a with Some x => Some (acc ++ [x]) | None => None end) acc = Some (acc ++ map h l).
Proof.
  induction l as [|a r IH]; intros H acc; [rewrite app_nil_r; reflexivity|]. cbn [for_each map]. rewrite (H a (or_introl eq_refl)). rewrite IH by (intros b Hb; apply H; right; exact Hb). rewrite <- app_assoc. reflexivity.
Qed.
Lemma lattice_ok T t ps : 0 < T -> 0 <= t < T -> exists qs, lattice T t ps = Some qs /\ (length qs <= length ps)%nat /\ forall i, 0 <= i -> zget qs i = zget ps (i * T + t).
Proof.
  intros HT Ht. unfold lattice. set (n := Z.of_nat (length ps)). assert (Hn : 0 <= n) by lia. rewrite Z.quot_div_nonneg, Z.rem_mod_nonneg by lia. set (np := n / T + (if t <? n mod T then 1 else 0)).
  assert (Hnp : forall i, 0 <= i -> (i < np <-> i * T + t < n)).
  { intros i Hi. unfold np. pose proof (Z.div_mod n T ltac:(lia)) as E. pose proof (Z.mod_pos_bound n T HT) as Hm. set (q := n / T) in *. set (m := n mod T) in *. clearbody q m. destruct (Z.ltb_spec t m); nia. }
  assert (Hpos : 0 <= np) by (unfold np; pose proof (Z.div_pos n T Hn HT); destruct (t <? n mod T); lia).
  rewrite (for_each_collect (fun i => zget ps (Z.of_nat i * T + t)) (fun i => position ps (Z.of_nat i * T + t))).
  - eexists. split; [reflexivity|]. cbn [app]. split.
    + rewrite map_length, seq_length. destruct (Z_lt_le_dec 0 np) as [Hp|Hp]; [|lia]. pose proof (proj1 (Hnp (np - 1) ltac:(lia)) ltac:(lia)). nia.
    + intros i Hi. rewrite zget_nat by lia. destruct (Z_lt_le_dec i np) as [Hl|Hl].
      * rewrite (map_nth_error (fun i => position ps (Z.of_nat i * T + t)) (Z.to_nat i) (seq 0 (Z.to_nat np)) (d := Z.to_nat i)).
        -- rewrite Z2Nat.id by lia. unfold position. destruct (zget_in_range ps (i * T + t)) as [y Ey]; [pose proof (proj1 (Hnp i Hi) Hl); nia|]. rewrite Ey. reflexivity.
        -- rewrite nth_error_nth' with (d := 0%nat) by (rewrite seq_length; lia). rewrite seq_nth by lia. reflexivity.
      * replace (nth_error _ _) with (@None vec); [|symmetry; apply nth_error_None; rewrite map_length, seq_length; lia]. destruct (zget ps (i * T + t)) eqn:E; [|reflexivity]. apply zget_some in E. exfalso. assert (i < np); [|lia]. apply Hnp; lia.
  - intros i Hin. apply in_seq in Hin. unfold position. destruct (zget_in_range ps (Z.of_nat i * T + t)) as [y Ey]; [pose proof (proj1 (Hnp (Z.of_nat i) ltac:(lia)) ltac:(lia)); nia|]. rewrite Ey. reflexivity.
Qed.
(** The list of thread [t]. *)
Definition part_of (T : Z) (ndiv : Z) (ps : list vec) (box : Q) (periodic : bool) (t : Z) (ll : llist) : Prop :=
  linked ll /\ good ll /\ ll_periodic ll = periodic /\ ll_box ll = box /\ (forall j, coord j (ll_step ll) = (box - 0) / inject_Z ndiv)%Q /\
  (length (ll_ps ll) <= length ps)%nat /\ forall i, 0 <= i -> zget (ll_ps ll) i = zget ps (i * T + t).
Lemma build_lattice_ok T ndiv ps box periodic ts : 0 < T -> 0 < ndiv -> (0 < box)%Q -> (forall t, In t ts -> 0 <= t < T) ->
  exists lists, build_lattice T ts ndiv ps box periodic = Some lists /\ map fst lists = ts /\ forall t ll, In (t, ll) lists -> part_of T ndiv ps box periodic t ll.
Proof.
  intros HT Hd Hb. induction ts as [|t ts IH]; intros Hts; [exists []; split; [reflexivity|]; split; [reflexivity|]; intros t ll []|].
  destruct (IH (fun t' H => Hts t' (or_intror H))) as (lists & El & Em & HI). cbn [build_lattice]. destruct (lattice_ok T t ps HT (Hts t (or_introl eq_refl))) as (qs & Eq & Hlen & Hq). rewrite Eq.
  destruct (init_ok ndiv qs box periodic Hd Hb) as (ll0 & Hi & Hg & _ & _ & Ep & Ebx & _ & Es). destruct (build_ok ndiv qs box periodic ll0 Hi Hg) as (ll & Eb & Hl & Hgl & B1 & B2 & B3 & B4 & B5 & B6). rewrite Eb, El.
  eexists. split; [reflexivity|]. split; [cbn [map fst]; rewrite Em; reflexivity|]. intros t' ll' [E|Hin]; [|apply HI; exact Hin]. injection E as <- <-. split; [exact Hl|]. split; [exact Hgl|]. split; [congruence|]. split; [congruence|]. split; [intros j; rewrite B6; apply Es|]. rewrite B1. auto.
Qed.
Lemma para_ok T search lists ps g N : (0 < T)%nat -> NoDup (map fst lists) -> (forall t, In t (map fst lists) <-> 0 <= t < Z.of_nat T) ->
  (forall t ll, In (t, ll) lists -> exists found, search ll = Done found /\ (N -> NoDup (map fst found)) /\
     forall p v, In (p, v) found <-> exists y, 0 <= p /\ zget ps (p * Z.of_nat T + t) = Some y /\ g y = Some v) ->
  exists found, para_search T search lists = Done found /\ (N -> NoDup (map fst found)) /\ every g ps found.
Proof.
  intros HT HND Hts HS. unfold para_search.
  assert (HG : forall l acc, NoDup (map fst l) -> (forall t, In t (map fst l) -> 0 <= t < Z.of_nat T) -> (forall t ll, In (t, ll) l -> exists found, search ll = Done found /\ (N -> NoDup (map fst found)) /\
     forall p v, In (p, v) found <-> exists y, 0 <= p /\ zget ps (p * Z.of_nat T + t) = Some y /\ g y = Some v) ->
    exists found, run_each l (fun tl acc => rbind (search (snd tl)) (fun l => Done (acc ++ map (fun pr => (fst pr * Z.of_nat T + fst tl, snd pr)) l))) acc = Done (acc ++ found) /\
      (N -> NoDup (map fst found)) /\ forall q v, In (q, v) found <-> exists y t p, In t (map fst l) /\ 0 <= p /\ q = p * Z.of_nat T + t /\ zget ps q = Some y /\ g y = Some v).
  { clear HND Hts HS. induction l as [|[t ll] l IH]; intros acc HND Hts HS.
    - exists []. rewrite app_nil_r. split; [reflexivity|]. split; [intros _; constructor|]. intros q v. split; [intros []|]. intros (y & t & p & [] & _).
    - cbn [run_each]. destruct (HS t ll (or_introl eq_refl)) as (f1 & E1 & N1 & I1). cbn [fst snd]. rewrite E1. cbn [rbind]. cbn [map fst] in HND. apply NoDup_cons_iff in HND as [Ht HND].
      destruct (IH (acc ++ map (fun pr => (fst pr * Z.of_nat T + t, snd pr)) f1) HND (fun t' H => Hts t' (or_intror H)) (fun t' ll' H => HS t' ll' (or_intror H))) as (f2 & E2 & N2 & I2).
      exists (map (fun pr => (fst pr * Z.of_nat T + t, snd pr)) f1 ++ f2). split; [rewrite E2, app_assoc; reflexivity|]. split.
      + intros HN. specialize (N1 HN). specialize (N2 HN). rewrite map_app. apply NoDup_app_intro; [|exact N2|].
        * rewrite map_map. cbn [fst]. rewrite <- (map_map fst (fun p => p * Z.of_nat T + t)). apply FinFun.Injective_map_NoDup; [intros a b Hab; nia|exact N1].
        * intros q Hq1 Hq2. apply in_map_iff in Hq1 as ([q1 v1] & <- & Hq1). apply in_map_iff in Hq1 as ([p0 v0] & [= E' _] & _). cbn [fst] in *. subst q1. apply in_map_iff in Hq2 as ([q2 v2] & E'' & Hq2). cbn [fst] in E''. subst q2. apply I2 in Hq2 as (y & t' & p' & Hin & _ & Eq & _).
          pose proof (Hts t (or_introl eq_refl)). pose proof (Hts t' (or_intror Hin)). destruct (Z.div_mod_unique (Z.of_nat T) p0 p' t t') as [_ <-]; [left; assumption|left; assumption|lia|]. contradiction.
      + intros q v. rewrite in_app_iff, I2. split.
        * intros [H|(y & t' & p & Hin & H)]; [|exists y, t', p; split; [right; exact Hin|exact H]]. apply in_map_iff in H as ([p0 v0] & [= <- <-] & Hin). apply I1 in Hin as (y & Hp & Ey & Eg). exists y, t, p0. split; [left; reflexivity|auto].
        * intros (y & t' & p & [E|Hin] & Hp & Eq & Ey & Eg); [|right; exists y, t', p; auto]. cbn [fst] in E. subst t'. left. apply in_map_iff. exists (p, v). cbn [fst snd]. split; [congruence|]. apply I1. exists y. subst q. auto. }
  destruct (HG lists [] HND (fun t H => proj1 (Hts t) H) HS) as (found & E & H1 & H2). exists found. split; [exact E|]. split; [exact H1|]. intros q v. rewrite H2. split; [intros (y & _ & _ & _ & _ & _ & Ey & Eg); eauto|].
  intros (y & Ey & Eg). pose proof (zget_some _ _ _ Ey) as Hq. exists y, (q mod Z.of_nat T), (q / Z.of_nat T). split; [apply Hts; apply Z.mod_pos_bound; lia|]. split; [apply Z.div_pos; lia|]. split; [rewrite Z.mul_comm; apply Z.div_mod; lia|auto].
Qed.
