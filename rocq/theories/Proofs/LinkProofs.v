(** Proofs about the linked-list grid: chains and building. *)
From Coq Require Import List ZArith QArith Qround Bool Lia Lqa Sorting.Permutation.
From Verif.Model Require Import ListMem Run Mymath Tree LinkedList.
From Verif.Spec Require Import Basic Octree Chains.
From Verif.Proofs Require Import ListMemProofs ListExtra MymathProofs TreeInsert.
Import ListNotations.
Local Open Scope Z_scope.

Lemma NoDup_flat_map {A B} (f : A -> list B) l : NoDup l -> (forall x, In x l -> NoDup (f x)) ->
  (forall x y z, In x l -> In y l -> In z (f x) -> In z (f y) -> x = y) -> NoDup (flat_map f l).
Proof.
  induction l as [|x l IH]; intros ND H1 H2; [constructor|]. apply NoDup_cons_iff in ND as [Hx ND]. cbn [flat_map].
  assert (IH' : NoDup (flat_map f l)). { apply IH; [exact ND|intros; apply H1; right; assumption|intros a b z Ha Hb; apply H2; right; assumption]. }
  assert (Hd : forall z, In z (f x) -> ~ In z (flat_map f l)).
  { intros z Hz Hin. apply in_flat_map in Hin as (y & Hy & Hzy). assert (x = y) by (apply (H2 x y z); [left; reflexivity|right; exact Hy|exact Hz|exact Hzy]). subst y. contradiction. }
  assert (Nf : NoDup (f x)) by (apply H1; left; reflexivity). revert Hd Nf. generalize (f x). intros m. induction m as [|b m IHm]; intros Hd Nf; [exact IH'|].
  apply NoDup_cons_iff in Nf as [Hb Nf]. cbn [app]. constructor.
  - intros Hin. apply in_app_or in Hin as [Hin|Hin]; [contradiction|]. apply (Hd b); [left; reflexivity|exact Hin].
  - apply IHm; [|exact Nf]. intros z Hz. apply Hd. right. exact Hz.
Qed.

(** *** Chains. *)
Lemma chained_bound next p l : chained next p l -> forall i, In i l -> 0 <= i < Z.of_nat (length next).
Proof. induction 1 as [|p q l Hp Hq _ IH]; intros i Hi; [destruct Hi|]. destruct Hi as [<-|Hi]; [apply zget_some in Hq; exact Hq|apply IH; exact Hi]. Qed.
Lemma chained_frame next next' i x p l : zupd next i x = Some next' -> chained next p l -> ~ In i l -> chained next' p l.
Proof.
  intros Hu. induction 1 as [p Hp|p q l Hp Hq Hf IH]; intros Hni; [constructor; exact Hp|]. cbn [In] in Hni. apply (chained_step _ p q); [exact Hp| |apply IH; tauto].
  rewrite (zget_zupd _ _ _ p _ Hu). destruct (Z.eqb_spec p i) as [->|]; [tauto|exact Hq].
Qed.
Lemma chained_fun next p l l' : chained next p l -> chained next p l' -> l = l'.
Proof.
  intros H. revert l'. induction H as [p Hp|p q l Hp Hq _ IH]; intros l' H'; inversion H'; subst; try lia; [reflexivity|]. f_equal. apply IH. congruence.
Qed.
Lemma chain_follows next p l : chained next p l -> forall fuel, chain next fuel p = if (length l <=? fuel)%nat then Done l else Running.
Proof.
  induction 1 as [p Hp|p q l Hp Hq _ IH]; intros fuel.
  - destruct fuel; cbn [chain]; destruct (Z.ltb_spec p 0); try lia; reflexivity.
  - destruct fuel as [|fuel]; cbn [chain]; destruct (Z.ltb_spec p 0); try lia; [reflexivity|]. rewrite Hq, IH. cbn [length]. change (S (length l) <=? S fuel)%nat with (length l <=? fuel)%nat. destruct (length l <=? fuel)%nat; reflexivity.
Qed.
(** The state holds the chains [C]. *)
Definition chains (D3 n : nat) (C : Z -> list Z) (st : list Z * list Z) : Prop :=
  length (fst st) = D3 /\ length (snd st) = n /\ forall c, 0 <= c < Z.of_nat D3 -> exists h, zget (fst st) c = Some h /\ chained (snd st) h (C c).
Lemma chains_ext D3 n C C' st : (forall c, 0 <= c < Z.of_nat D3 -> C c = C' c) -> chains D3 n C st -> chains D3 n C' st.
Proof. intros HE (H1 & H2 & H3). split; [exact H1|]. split; [exact H2|]. intros c Hc. rewrite <- (HE c Hc). apply H3. exact Hc. Qed.
Lemma push_ok D3 n C st c i : chains D3 n C st -> 0 <= c < Z.of_nat D3 -> 0 <= i < Z.of_nat n -> (forall c', 0 <= c' < Z.of_nat D3 -> ~ In i (C c')) ->
  exists st', push c i st = Some st' /\ chains D3 n (fun c' => if c' =? c then i :: C c' else C c') st'.
Proof.
  intros (H1 & H2 & H3) Hc Hi Hni. destruct st as [hoc next]. cbn [fst snd] in *. unfold push. cbn [fst snd]. destruct (H3 c Hc) as (h & Hh & Hf). rewrite Hh.
  destruct (zupd_some next i h ltac:(lia)) as [next' En]. rewrite En. destruct (zupd_some hoc c i ltac:(lia)) as [hoc' Eh]. rewrite Eh. eexists. split; [reflexivity|].
  pose proof (zupd_length _ _ _ _ En). pose proof (zupd_length _ _ _ _ Eh). split; [cbn [fst]; lia|]. split; [cbn [snd]; lia|]. cbn [fst snd]. intros c' Hc'.
  rewrite (zget_zupd _ _ _ c' _ Eh). destruct (Z.eqb_spec c' c) as [->|Hne].
  - exists i. split; [reflexivity|]. apply (chained_step _ i h); [lia| |apply (chained_frame _ _ _ _ _ _ En Hf); apply Hni; exact Hc]. rewrite (zget_zupd _ _ _ i _ En), Z.eqb_refl. reflexivity.
  - destruct (H3 c' Hc') as (h' & Hh' & Hf'). exists h'. split; [exact Hh'|]. apply (chained_frame _ _ _ _ _ _ En Hf'). apply Hni. exact Hc'.
Qed.
(** Chain [c] after pushing the pairs (chain, particle). *)
Definition pushed (pairs : list (Z * Z)) (c : Z) : list Z := rev (map snd (filter (fun p => fst p =? c) pairs)).
Lemma pushed_in pairs c i : In i (pushed pairs c) <-> In (c, i) pairs.
Proof.
  unfold pushed. rewrite <- in_rev, in_map_iff. split.
  - intros ([c' i'] & E & H). apply filter_In in H as [H H']. cbn [fst snd] in *. apply Z.eqb_eq in H'. subst. exact H.
  - intros H. exists (c, i). split; [reflexivity|]. apply filter_In. split; [exact H|apply Z.eqb_refl].
Qed.
Lemma pushed_nodup pairs c : NoDup (map snd pairs) -> NoDup (pushed pairs c).
Proof.
  intros ND. unfold pushed. apply NoDup_rev. induction pairs as [|p r IH]; [constructor|]. cbn [map] in ND. apply NoDup_cons_iff in ND as [Hp ND]. cbn [filter]. destruct (fst p =? c); [|apply IH; exact ND].
  cbn [map]. constructor; [|apply IH; exact ND]. intros Hin. apply Hp. apply in_map_iff in Hin as (q & <- & Hq). apply filter_In in Hq as [Hq _]. apply in_map. exact Hq.
Qed.
Lemma push_all D3 n pairs : forall done st, chains D3 n (pushed done) st -> (forall c i, In (c, i) pairs -> 0 <= c < Z.of_nat D3 /\ 0 <= i < Z.of_nat n) -> NoDup (map snd (done ++ pairs)) ->
  exists st', for_each pairs (fun p => push (fst p) (snd p)) st = Some st' /\ chains D3 n (pushed (done ++ pairs)) st'.
Proof.
  induction pairs as [|[c i] pairs IH]; intros done st HC Hb ND.
  - exists st. split; [reflexivity|]. rewrite app_nil_r. exact HC.
  - destruct (Hb c i (or_introl eq_refl)) as [Hc Hi]. cbn [for_each fst snd].
    destruct (push_ok D3 n (pushed done) st c i HC Hc Hi) as (st1 & E1 & HC1).
    { intros c' _ Hin. apply pushed_in in Hin. rewrite map_app in ND. cbn [map] in ND. apply NoDup_remove_2 in ND. apply ND. apply in_or_app. left. apply (in_map snd) in Hin. exact Hin. }
    rewrite E1. replace (done ++ (c, i) :: pairs) with ((done ++ [(c, i)]) ++ pairs) in * by (rewrite <- app_assoc; reflexivity).
    apply IH; [|intros c' i' Hin; apply Hb; right; exact Hin|exact ND].
    eapply chains_ext; [|exact HC1]. intros c' _. cbn beta. unfold pushed. rewrite filter_app, map_app, rev_app_distr. cbn [filter fst]. rewrite (Z.eqb_sym c c'). destruct (c' =? c); reflexivity.
Qed.
Lemma for_each_map {A B S} (f : A -> B) (body : B -> S -> option S) l : forall s, for_each (map f l) body s = for_each l (fun a => body (f a)) s.
Proof. induction l as [|a l IH]; intros s; [reflexivity|]. cbn [map for_each]. destruct (body (f a) s); [apply IH|reflexivity]. Qed.
Lemma for_each_ext {A S} (b b' : A -> S -> option S) l : (forall a s, In a l -> b a s = b' a s) -> forall s, for_each l b s = for_each l b' s.
Proof. induction l as [|a l IH]; intros H s; [reflexivity|]. cbn [for_each]. rewrite (H a s (or_introl eq_refl)). destruct (b' a s); [apply IH; intros; apply H; right; assumption|reflexivity]. Qed.

(** *** Cells. *)
Definition good (ll : llist) : Prop :=
  0 < ll_ndiv ll /\ (forall j, 0 < coord j (ll_step ll))%Q /\
  (ll_periodic ll = true -> 0 < ll_box ll /\ forall j, coord j (ll_step ll) * inject_Z (ll_ndiv ll) == ll_box ll)%Q.
Definition cell1 (ll : llist) (j : nat) (x : Q) : Z := fix_grid ll (Qfloor ((x - coord j (ll_min ll)) / coord j (ll_step ll))).
Definition cell_of (ll : llist) (x : vec) : Z := sub2ind ll (cell1 ll 0 (coord 0 x), cell1 ll 1 (coord 1 x), cell1 ll 2 (coord 2 x)).
Lemma grid1_ok lo s x : (0 < s)%Q -> grid1 lo s x = Some (Qfloor ((x - lo) / s)).
Proof. intros H. unfold grid1. destruct (Qeq_bool s 0) eqn:E; [apply Qeq_bool_iff in E; lra|reflexivity]. Qed.
Lemma grid3_ok ll x : good ll -> grid3 ll x = Some (let f := fun j => Qfloor ((coord j x - coord j (ll_min ll)) / coord j (ll_step ll)) in (f 0%nat, f 1%nat, f 2%nat)).
Proof.
  intros (_ & Hs & _). unfold grid3. pose proof (Hs 0%nat) as S0. pose proof (Hs 1%nat) as S1. pose proof (Hs 2%nat) as S2. destruct x as [[x0 x1] x2], (ll_min ll) as [[a0 a1] a2], (ll_step ll) as [[s0 s1] s2]. cbn [coord] in *.
  rewrite !grid1_ok by assumption. reflexivity.
Qed.
Lemma fix_range ll g : 0 < ll_ndiv ll -> 0 <= fix_grid ll g < ll_ndiv ll.
Proof.
  intros H. unfold fix_grid, shift_grid, round_grid. destruct (ll_periodic ll).
  - pose proof (Z.rem_bound_abs g (ll_ndiv ll) ltac:(lia)). destruct (Z.ltb_spec (Z.rem g (ll_ndiv ll)) 0); lia.
  - destruct (Z.ltb_spec g 0); [lia|]. destruct (Z.leb_spec (ll_ndiv ll) g); lia.
Qed.
Lemma shift_mod ll g : 0 < ll_ndiv ll -> shift_grid ll g = g mod ll_ndiv ll.
Proof.
  intros H. unfold shift_grid. set (D := ll_ndiv ll) in *. pose proof (Z.rem_bound_abs g D ltac:(lia)) as Hb. pose proof (Z.quot_rem g D ltac:(lia)) as Hq.
  destruct (Z.ltb_spec (Z.rem g D) 0).
  - apply (Z.mod_unique _ _ (Z.quot g D - 1)); [left; lia|lia].
  - apply (Z.mod_unique _ _ (Z.quot g D)); [left; lia|lia].
Qed.
Lemma sub2ind_range ll i j k : 0 <= i < ll_ndiv ll -> 0 <= j < ll_ndiv ll -> 0 <= k < ll_ndiv ll -> 0 <= sub2ind ll (i, j, k) < ll_ndiv ll * ll_ndiv ll * ll_ndiv ll.
Proof. intros. unfold sub2ind. set (D := ll_ndiv ll) in *. nia. Qed.
Lemma sub2ind_inj ll i j k i' j' k' : 0 <= i < ll_ndiv ll -> 0 <= j < ll_ndiv ll -> 0 <= i' < ll_ndiv ll -> 0 <= j' < ll_ndiv ll ->
  sub2ind ll (i, j, k) = sub2ind ll (i', j', k') -> i = i' /\ j = j' /\ k = k'.
Proof.
  unfold sub2ind. set (D := ll_ndiv ll). intros Hi Hj Hi' Hj' E. assert (k = k').
  { assert (Z.abs ((k - k') * (D * D)) < D * D) by (replace ((k - k') * (D * D)) with (i' - i + (j' - j) * D) by lia; nia). nia. }
  subst k'. assert (j = j') by nia. subst j'. lia.
Qed.
Lemma cell_of_range ll x : 0 < ll_ndiv ll -> 0 <= cell_of ll x < ll_ndiv ll * ll_ndiv ll * ll_ndiv ll.
Proof. intros H. apply sub2ind_range; apply fix_range; exact H. Qed.

Definition D3 (ll : llist) : nat := Z.to_nat (ll_ndiv ll * ll_ndiv ll * ll_ndiv ll).
(** The chains hold the particles by cell. *)
Definition linked (ll : llist) : Prop :=
  exists C, chains (D3 ll) (length (ll_ps ll)) C (ll_hoc ll, ll_next ll) /\
    forall c, 0 <= c < Z.of_nat (D3 ll) -> NoDup (C c) /\ forall i, In i (C c) <-> exists x, zget (ll_ps ll) i = Some x /\ cell_of ll x = c.

Lemma init_ok ndiv ps box periodic : 0 < ndiv -> (0 < box)%Q ->
  exists ll, init ndiv ps box periodic = Some ll /\ good ll /\ ll_ps ll = ps /\ ll_ndiv ll = ndiv /\ ll_periodic ll = periodic /\ ll_box ll = box /\
    (forall j, coord j (ll_min ll) = 0)%Q /\ (forall j, coord j (ll_step ll) = (box - 0) / inject_Z ndiv)%Q.
Proof.
  intros Hd Hb. unfold init. destruct (Qeq_bool box 0) eqn:E; [apply Qeq_bool_iff in E; lra|]. eexists. split; [reflexivity|].
  assert (Hn : (0 < inject_Z ndiv)%Q) by (unfold Qlt; cbn; lia).
  assert (Hs : (0 < (box - 0) / inject_Z ndiv)%Q). { apply Qlt_shift_div_l; [exact Hn|lra]. }
  split; [|split; [reflexivity|split; [reflexivity|split; [reflexivity|split; [reflexivity|split; intros [|[|j]]; reflexivity]]]]].
  split; [exact Hd|]. cbn [ll_step ll_periodic ll_box ll_ndiv]. split; [intros [|[|j]]; exact Hs|]. intros _. split; [exact Hb|].
  assert ((box - 0) / inject_Z ndiv * inject_Z ndiv == box)%Q by (field; intros E0; rewrite E0 in Hn; lra). intros [|[|j]]; exact H.
Qed.
Lemma init_state ndiv ps box periodic ll : init ndiv ps box periodic = Some ll ->
  ll_hoc ll = repeat (-1) (Z.to_nat (ndiv * ndiv * ndiv)) /\ ll_next ll = repeat 0 (length ps) /\ ll_ndiv ll = ndiv /\ ll_ps ll = ps.
Proof.
  unfold init. destruct (if Qeq_bool box 0 then _ else _) as [[[[a0 b0] [a1 b1]] [a2 b2]]|]; [|discriminate]. intros E. injection E as <-. repeat split.
Qed.
Lemma chains_empty ll : ll_hoc ll = repeat (-1) (D3 ll) -> ll_next ll = repeat 0 (length (ll_ps ll)) -> chains (D3 ll) (length (ll_ps ll)) (pushed []) (ll_hoc ll, ll_next ll).
Proof.
  intros H1 H2. rewrite H1, H2. split; [apply repeat_length|]. split; [apply repeat_length|]. cbn [fst snd]. intros c Hc. exists (-1). split.
  - rewrite zget_nat by lia. destruct (nth_error (repeat (-1) (D3 ll)) (Z.to_nat c)) as [z|] eqn:E.
    + apply nth_error_In, repeat_spec in E. congruence.
    + apply nth_error_None in E. rewrite repeat_length in E. lia.
  - constructor. lia.
Qed.
Lemma good_with ll st : good (with_chains ll st) <-> good ll.
Proof. reflexivity. Qed.
(** Building puts every particle in its cell. *)
Lemma build_ok ndiv ps box periodic ll0 : init ndiv ps box periodic = Some ll0 -> good ll0 ->
  exists ll, build ndiv ps box periodic = Some ll /\ linked ll /\ good ll /\ ll_ps ll = ps /\ ll_ndiv ll = ndiv /\ ll_periodic ll = ll_periodic ll0 /\ ll_box ll = ll_box ll0 /\ ll_min ll = ll_min ll0 /\ ll_step ll = ll_step ll0.
Proof.
  intros Hi Hg. destruct (init_state _ _ _ _ _ Hi) as (S1 & S2 & S3 & S4). unfold build. rewrite Hi.
  set (pairs := map (fun i => (cell_of ll0 (position ps (Z.of_nat i)), Z.of_nat i)) (seq 0 (length ps))).
  assert (Hpos : forall i, (i < length ps)%nat -> nth_error ps i = Some (position ps (Z.of_nat i))).
  { intros i Hlt. unfold position. rewrite zget_nat, Nat2Z.id by lia. destruct (nth_error ps i) eqn:E; [reflexivity|apply nth_error_None in E; lia]. }
  rewrite (for_each_ext (insert_particle ll0) (fun i => push (cell_of ll0 (position ps (Z.of_nat i))) (Z.of_nat i))).
  2:{ intros i s Hin. apply in_seq in Hin. unfold insert_particle. rewrite S4, (Hpos i) by lia. rewrite (grid3_ok ll0 _ Hg). reflexivity. }
  rewrite <- (for_each_map (fun i => (cell_of ll0 (position ps (Z.of_nat i)), Z.of_nat i)) (fun p => push (fst p) (snd p))). fold pairs.
  assert (HND : NoDup (map snd pairs)). { unfold pairs. rewrite map_map. cbn [snd]. apply NoDup_map_inj; [intros; lia|apply seq_NoDup]. }
  destruct (push_all (D3 ll0) (length ps) pairs [] (ll_hoc ll0, ll_next ll0)) as (st & E & HC).
  - rewrite <- S4. apply chains_empty; [unfold D3; rewrite S3; exact S1|rewrite S4; exact S2].
  - intros c i Hin. apply in_map_iff in Hin as (k & Ek & Hk). injection Ek as <- <-. apply in_seq in Hk. pose proof (cell_of_range ll0 (position ps (Z.of_nat k)) (proj1 Hg)). unfold D3. lia.
  - exact HND.
  - rewrite E. eexists. split; [reflexivity|]. split; [|repeat split; try apply Hg; auto].
    exists (pushed pairs). split.
    + cbn [app] in HC. change (D3 (with_chains ll0 st)) with (D3 ll0). change (ll_ps (with_chains ll0 st)) with (ll_ps ll0). rewrite S4. destruct st. exact HC.
    + intros c _. split; [apply pushed_nodup; exact HND|]. intros i. rewrite pushed_in. change (ll_ps (with_chains ll0 st)) with (ll_ps ll0). rewrite S4. unfold pairs. rewrite in_map_iff. split.
      * intros (k & Ek & Hk). injection Ek as Ec <-. apply in_seq in Hk. exists (position ps (Z.of_nat k)). split; [rewrite zget_nat, Nat2Z.id by lia; apply Hpos; lia|exact Ec].
      * intros (x & Ex & Ec). pose proof (zget_some _ _ _ Ex) as Hr. exists (Z.to_nat i). rewrite Z2Nat.id by lia. split; [|apply in_seq; lia]. unfold position. rewrite Ex. f_equal. exact Ec.
Qed.
