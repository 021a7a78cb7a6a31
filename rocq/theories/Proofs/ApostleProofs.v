(** Sorting into pieces, and grouping particles by host id. *)
From Coq Require Import List ZArith Bool Lia Sorting.Permutation Sorting.Sorted.
From Verif.Model Require Import ListMem Run Mymath Mpi Apostle.
From Verif.Spec Require Import Apostle.
From Verif.Proofs Require Import ListExtra MpiProofs HostProofs ConfigProofs.
Import ListNotations.
Local Open Scope Z_scope.

(** ** Counting and cutting. *)
Lemma for_each_app {A S} (body : A -> S -> option S) l : forall m s, for_each (l ++ m) body s = match for_each l body s with Some s' => for_each m body s' | None => None end.
Proof. induction l as [|x r IH]; intros m s; [reflexivity|]. cbn. destruct (body x s); [apply IH|reflexivity]. Qed.

Lemma upd_map_seq {A} (f : nat -> A) n : forall a i x, (i < n)%nat -> upd (map f (seq a n)) i x = Some (map (fun k => if Nat.eqb k (a + i) then x else f k) (seq a n)).
Proof.
  induction n as [|n IH]; intros a i x Hi; [lia|]. cbn [seq map]. destruct i as [|i]; cbn [upd].
  - rewrite Nat.add_0_r, Nat.eqb_refl. do 2 f_equal. apply map_ext_in. intros k Hk. apply in_seq in Hk. destruct (Nat.eqb_spec k a); [lia|reflexivity].
  - rewrite IH by lia. destruct (Nat.eqb_spec a (a + S i)); [lia|]. do 2 f_equal. apply map_ext. intros k. replace (S a + i)%nat with (a + S i)%nat by lia. reflexivity.
Qed.

(** The sum of the weights of the elements with key [r]. *)
Definition weight {A} (key : A -> Z) (w : A -> nat) (r : nat) (l : list A) : nat := nsum (map w (filter (fun x => key x =? Z.of_nat r) l)).

Lemma add_all {A} (key : A -> Z) (w : A -> nat) W l : (forall x, In x l -> 0 <= key x < Z.of_nat W) ->
  for_each l (fun x c => match zget c (key x) with Some n => zupd c (key x) (n + w x)%nat | None => None end) (repeat O W) =
  Some (map (fun r => weight key w r l) (seq 0 W)).
Proof.
  induction l as [|x l IH] using rev_ind; intros H.
  - cbn [for_each]. f_equal. unfold weight. clear H. cbn [filter map]. generalize 0%nat at 2 as a. induction W as [|W IHW]; intros a; [reflexivity|]. cbn [repeat seq map]. f_equal. apply IHW.
  - rewrite for_each_app, IH by (intros y Hy; apply H, in_or_app; left; exact Hy). cbn [for_each].
    assert (Hx : 0 <= key x < Z.of_nat W) by (apply H, in_or_app; right; left; reflexivity).
    unfold zget, zupd. destruct (Z.ltb_spec (key x) 0); [lia|]. rewrite nth_error_map, nth_seq. destruct (Nat.ltb_spec (Z.to_nat (key x)) W); [|lia]. cbn [option_map Nat.add].
    rewrite upd_map_seq by lia. f_equal. apply map_ext_in. intros k Hk. apply in_seq in Hk. unfold weight. rewrite filter_app, map_app, nsum_app. cbn [filter].
    destruct (Nat.eqb_spec k (0 + Z.to_nat (key x))) as [->|Hne].
    + cbn [Nat.add]. rewrite Z2Nat.id by lia. rewrite Z.eqb_refl. cbn. lia.
    + destruct (Z.eqb_spec (key x) (Z.of_nat k)); [lia|]. cbn. lia.
Qed.

Lemma nsum_ones {A} (l : list A) : nsum (map (fun _ => 1%nat) l) = length l.
Proof. induction l; [reflexivity|]. cbn. unfold nsum in *. cbn. congruence. Qed.

Lemma tally_spec W ks : (forall k, In k ks -> 0 <= k < Z.of_nat W) -> tally W ks = Some (map (fun r => length (filter (fun k => k =? Z.of_nat r) ks)) (seq 0 W)).
Proof.
  intros H. unfold tally. pose proof (add_all (fun k : Z => k) (fun _ => 1%nat) W ks H) as E.
  assert (EB : for_each ks (fun i c => match zget c i with Some n => zupd c i (S n) | None => None end) (repeat O W) =
               for_each ks (fun x c => match zget c x with Some n => zupd c x (n + 1)%nat | None => None end) (repeat O W)).
  { clear. generalize (repeat 0%nat W). induction ks as [|k r IH]; intros s; [reflexivity|]. cbn. destruct (zget s k); [|reflexivity]. rewrite Nat.add_1_r. destruct (zupd s k (S n)); [apply IH|reflexivity]. }
  rewrite EB, E. f_equal. apply map_ext. intros r. unfold weight. rewrite nsum_ones. reflexivity.
Qed.

Lemma pieces_concat {A} (segs : list (list A)) : pieces (map (@length A) segs) (concat segs) = Some segs.
Proof.
  unfold pieces. rewrite concat_length_nsum, Nat.leb_refl. f_equal.
  assert (G : forall o (pre : list A), length pre = o -> map (fun dc => firstn (snd dc) (skipn (fst dc) (pre ++ concat segs))) (combine (offs_from o (map (@length A) segs)) (map (@length A) segs)) = segs).
  { induction segs as [|s r IH]; intros o pre Ho; [reflexivity|]. cbn [map offs_from combine concat fst snd]. f_equal.
    - subst o. rewrite skipn_app, skipn_all, Nat.sub_diag. cbn. rewrite firstn_app, Nat.sub_diag, firstn_all. cbn. apply app_nil_r.
    - rewrite app_assoc. apply IH. rewrite app_length. lia. }
  rewrite displacements_eq. apply (G 0%nat []). reflexivity.
Qed.

Lemma sorted_head {A} (key : A -> Z) l a : StronglySorted (fun x y => key x <= key y) l -> (forall x, In x l -> a <= key x) ->
  l = filter (fun x => key x =? a) l ++ filter (fun x => negb (key x =? a)) l.
Proof.
  induction l as [|x r IH]; intros Hs H; [reflexivity|]. inversion Hs as [|? ? Hs' HF]; subst. cbn [filter].
  destruct (Z.eqb_spec (key x) a) as [E|E]; cbn [negb].
  - cbn [app]. f_equal. apply IH; [exact Hs'|]. intros y Hy. apply H. right. exact Hy.
  - rewrite filter_none. 2: { intros y Hy. rewrite Forall_forall in HF. specialize (HF y Hy). specialize (H x (or_introl eq_refl)). apply Z.eqb_neq. lia. }
    cbn [app]. f_equal. clear IH. rewrite Forall_forall in HF. specialize (H x (or_introl eq_refl)). clear Hs Hs'. induction r as [|y r IH]; [reflexivity|]. cbn [filter].
    pose proof (HF y (or_introl eq_refl)). destruct (Z.eqb_spec (key y) a); [lia|]. cbn [negb]. f_equal. apply IH. intros z Hz. apply HF. right. exact Hz.
Qed.

Lemma sorted_filter {A} (R : A -> A -> Prop) f l : StronglySorted R l -> StronglySorted R (filter f l).
Proof.
  induction 1 as [|x r Hs IH HF]; [constructor|]. cbn. destruct (f x); [|exact IH]. constructor; [exact IH|].
  apply Forall_forall. intros y Hy. rewrite Forall_forall in HF. apply HF. apply filter_In in Hy. tauto.
Qed.

Lemma filter_filter {A} (f g : A -> bool) l : filter f (filter g l) = filter (fun x => g x && f x) l.
Proof. induction l as [|x r IH]; [reflexivity|]. cbn. destruct (g x); cbn; [destruct (f x); rewrite IH; reflexivity|exact IH]. Qed.

Lemma sorted_pieces {A} (key : A -> Z) n : forall a l, StronglySorted (fun x y => key x <= key y) l -> (forall x, In x l -> Z.of_nat a <= key x < Z.of_nat (a + n)) ->
  l = concat (map (fun r => filter (fun x => key x =? Z.of_nat r) l) (seq a n)).
Proof.
  induction n as [|n IH]; intros a l Hs H.
  - destruct l as [|x r]; [reflexivity|]. specialize (H x (or_introl eq_refl)). lia.
  - cbn [seq map concat]. rewrite (sorted_head key l (Z.of_nat a) Hs) at 1 by (intros x Hx; apply H, Hx). f_equal.
    rewrite (IH (S a) (filter (fun x => negb (key x =? Z.of_nat a)) l)) at 1.
    + f_equal. apply map_ext_in. intros r Hr. apply in_seq in Hr. rewrite filter_filter. apply filter_ext. intros x.
      destruct (Z.eqb_spec (key x) (Z.of_nat a)); cbn; [|reflexivity]. symmetry. apply Z.eqb_neq. lia.
    + apply sorted_filter, Hs.
    + intros x Hx. apply filter_In in Hx. destruct Hx as [Hx Hn]. specialize (H x Hx). destruct (Z.eqb_spec (key x) (Z.of_nat a)); [discriminate|]. lia.
Qed.

(** Cutting a sorted buffer at the counted numbers gives the elements by key. *)
Lemma cut_by_key {A B} (key : A -> Z) (f : A -> B) W l : StronglySorted (fun x y => key x <= key y) l -> (forall x, In x l -> 0 <= key x < Z.of_nat W) ->
  pieces (map (fun r => length (filter (fun x => key x =? Z.of_nat r) l)) (seq 0 W)) (map f l) = Some (map (fun r => map f (filter (fun x => key x =? Z.of_nat r) l)) (seq 0 W)).
Proof.
  intros Hs H. assert (E : map f l = concat (map (fun r => map f (filter (fun x => key x =? Z.of_nat r) l)) (seq 0 W))).
  { pose proof (sorted_pieces key W 0 l Hs) as E. apply (f_equal (map f)) in E; [|intros x Hx; specialize (H x Hx); lia]. rewrite concat_map, map_map in E. exact E. }
  rewrite E. rewrite <- (pieces_concat (map (fun r => map f (filter (fun x => key x =? Z.of_nat r) l)) (seq 0 W))). f_equal.
  rewrite map_map. apply map_ext. intros r. rewrite map_length. reflexivity.
Qed.
Lemma filter_length_map {A} (key : A -> Z) r l : length (filter (fun k => k =? Z.of_nat r) (map key l)) = length (filter (fun x => key x =? Z.of_nat r) l).
Proof. rewrite filter_map_comm, map_length. reflexivity. Qed.

(** ** Sorted permutations. *)
Lemma sorted_unique {A} (key : A -> Z) l : forall m, Permutation l m -> StronglySorted (fun a b => key a <= key b) l -> StronglySorted (fun a b => key a < key b) m -> l = m.
Proof.
  induction l as [|x l IH]; intros m Hp Hl Hm.
  - apply Permutation_nil in Hp. subst. reflexivity.
  - destruct m as [|y m]; [symmetry in Hp; apply Permutation_nil in Hp; discriminate|].
    inversion Hl as [|? ? Hl' HFl]; subst. inversion Hm as [|? ? Hm' HFm]; subst. rewrite Forall_forall in HFl, HFm.
    assert (E : x = y).
    { assert (Hx : In x (y :: m)) by (apply (Permutation_in _ Hp); left; reflexivity). assert (Hy : In y (x :: l)) by (apply (Permutation_in _ (Permutation_sym Hp)); left; reflexivity).
      destruct Hx as [Hx|Hx]; [congruence|]. destruct Hy as [Hy|Hy]; [congruence|]. specialize (HFm x Hx). specialize (HFl y Hy). lia. }
    subst y. f_equal. apply IH; [|exact Hl'|exact Hm']. apply Permutation_cons_inv in Hp. exact Hp.
Qed.

(** ** Runs of equal keys. *)
Section Runs.
  Context {P : Type}.
  (** The pairs of id and particle in a list of halos. *)
  Definition flat (hs : list (Z * list P)) : list (Z * P) := concat (map (fun h => map (fun p => (fst h, p)) (snd h)) hs).
  Fixpoint runs (l : list (Z * P)) : list (Z * list P) :=
    match l with
    | [] => []
    | (k, a) :: r => match runs r with
                     | (k', ps) :: t => if k' =? k then (k, a :: ps) :: t else (k, [a]) :: (k', ps) :: t
                     | [] => [(k, [a])]
                     end
    end.
  Lemma flat_app a b : flat (a ++ b) = flat a ++ flat b.
  Proof. unfold flat. rewrite map_app, concat_app. reflexivity. Qed.
  Lemma runs_flat l : flat (runs l) = l.
  Proof.
    induction l as [|[k a] r IH]; [reflexivity|]. cbn [runs]. rewrite <- IH at 2. destruct (runs r) as [|[k' ps] t]; [reflexivity|].
    destruct (Z.eqb_spec k' k); [subst|]; reflexivity.
  Qed.
  Lemma runs_full l : Forall (fun h => snd h <> []) (runs l).
  Proof.
    induction l as [|[k a] r IH]; [constructor|]. cbn [runs]. destruct (runs r) as [|[k' ps] t]; [repeat constructor; discriminate|].
    inversion IH; subst. destruct (k' =? k); repeat constructor; try discriminate; assumption.
  Qed.
  Lemma runs_keys l k : In k (map fst (runs l)) -> In k (map fst l).
  Proof.
    induction l as [|[k0 a] r IH]; [tauto|]. cbn [runs map fst]. destruct (runs r) as [|[k' ps] t]; [cbn; tauto|].
    cbn [map fst] in IH. destruct (Z.eqb_spec k' k0); cbn [map fst In]; intros H; firstorder congruence.
  Qed.
  Lemma runs_sorted l : StronglySorted (fun a b => fst a <= fst b) l -> StronglySorted (fun a b => fst a < fst b) (runs l).
  Proof.
    induction l as [|[k a] r IH]; intros Hs; [constructor|]. inversion Hs as [|? ? Hs' HF]; subst. specialize (IH Hs'). cbn [runs].
    assert (G : forall h, In h (runs r) -> k <= fst h).
    { intros h Hh. assert (Hi : In (fst h) (map fst r)) by (apply runs_keys, in_map, Hh). apply in_map_iff in Hi. destruct Hi as (x & Hx & Hi). rewrite Forall_forall in HF. specialize (HF x Hi). cbn in HF. lia. }
    destruct (runs r) as [|[k' ps] t] eqn:E; [repeat constructor|]. inversion IH as [|? ? IH' HF']; subst. rewrite Forall_forall in HF'.
    destruct (Z.eqb_spec k' k).
    - subst. constructor; [exact IH'|]. apply Forall_forall. intros h Hh. specialize (HF' h Hh). exact HF'.
    - specialize (G (k', ps) (or_introl eq_refl)) as G1. cbn in G1. constructor; [exact IH|]. constructor; [cbn; lia|].
      apply Forall_forall. intros h Hh. specialize (HF' h Hh). cbn in *. lia.
  Qed.

  Definition lens (hs : list (Z * list P)) : list (Z * nat) := map (fun h => (fst h, length (snd h))) hs.
  Definition bump (c : Z * nat) (L : list (Z * nat)) : list (Z * nat) :=
    match L with (k, m) :: r => if k =? fst c then (fst c, (snd c + m)%nat) :: r else c :: L | [] => [c] end.
  Lemma lens_runs k a r : lens (runs ((k, a) :: r)) = bump (k, 1%nat) (lens (runs r)).
  Proof. cbn [runs]. destruct (runs r) as [|[k' ps] t]; [reflexivity|]. cbn [lens map bump fst snd]. destruct (k' =? k); reflexivity. Qed.

  Lemma lens_spec l : forall curr n acc rest, (forall x, In x l -> fst x <> null_group) -> match rest with [] => True | x :: _ => fst x = null_group end ->
    halo_lens P curr ((curr, n) :: acc) (l ++ rest) = Some (rev acc ++ bump (curr, n) (lens (runs l))).
  Proof.
    induction l as [|[h p] l IH]; intros curr n acc rest Hl Hr.
    - cbn [app runs lens map bump]. destruct rest as [|[h p] rest]; cbn [halo_lens]; [reflexivity|]. cbn in Hr. subst h. rewrite Z.eqb_refl. reflexivity.
    - cbn [app halo_lens]. assert (Hh : h <> null_group) by (apply (Hl (h, p)); left; reflexivity). destruct (Z.eqb_spec h null_group); [contradiction|].
      rewrite lens_runs. destruct (Z.eqb_spec h curr) as [->|Hne]; cbn [negb].
      + rewrite IH by (auto; intros x Hx; apply Hl; right; exact Hx). do 2 f_equal. destruct (lens (runs l)) as [|[k m] L]; cbn [bump fst snd].
        * rewrite Z.eqb_refl. rewrite Nat.add_1_r. reflexivity.
        * destruct (Z.eqb_spec k curr); [subst|]; rewrite ?Z.eqb_refl; cbn [bump fst snd]; rewrite ?Z.eqb_refl; do 2 f_equal; lia.
      + rewrite IH by (auto; intros x Hx; apply Hl; right; exact Hx). cbn [rev]. rewrite <- app_assoc. do 2 f_equal. cbn [app].
        destruct (lens (runs l)) as [|[k m] L]; cbn [bump fst snd]; [destruct (Z.eqb_spec h curr); [contradiction|reflexivity]|].
        destruct (Z.eqb_spec k h); cbn [bump fst snd]; destruct (Z.eqb_spec h curr); try contradiction; reflexivity.
  Qed.

  Lemma flat_snd hs : map snd (flat hs) = concat (map snd hs).
  Proof. induction hs as [|[k ps] r IH]; [reflexivity|]. change ((k, ps) :: r) with ([(k, ps)] ++ r). rewrite flat_app, map_app, IH. cbn. rewrite app_nil_r, map_map. cbn. rewrite map_id. reflexivity. Qed.
  Lemma deal_lens hs : forall rest, deal P (lens hs) (concat (map snd hs) ++ rest) = Some hs.
  Proof.
    induction hs as [|[k ps] r IH]; intros rest; [reflexivity|]. cbn [lens map concat deal fst snd]. rewrite !app_length. destruct (Nat.leb_spec (length ps) (length ps + length (concat (map snd r)) + length rest)); [|lia].
    rewrite <- app_assoc, skipn_app, skipn_all, Nat.sub_diag. cbn [skipn app]. fold (lens r). rewrite IH. rewrite firstn_app, Nat.sub_diag, firstn_all. cbn. rewrite app_nil_r. reflexivity.
  Qed.

  Lemma flat_in hs k p : In (k, p) (flat hs) <-> exists ps, In (k, ps) hs /\ In p ps.
  Proof.
    unfold flat. rewrite in_concat. split.
    - intros (l & Hl & Hp). apply in_map_iff in Hl. destruct Hl as ([k' ps] & <- & Hin). cbn in Hp. apply in_map_iff in Hp. destruct Hp as (p' & E & Hp). injection E as -> ->. exists ps. auto.
    - intros (ps & Hin & Hp). exists (map (fun p => (k, p)) ps). split; [apply in_map_iff; exists (k, ps); auto|apply in_map_iff; exists p; auto].
  Qed.
  Lemma flat_members hs k ps : NoDup (map fst hs) -> In (k, ps) hs -> members k (flat hs) = ps.
  Proof.
    unfold members. induction hs as [|[k0 ps0] r IH]; intros Hn Hin; [destruct Hin|]. change ((k0, ps0) :: r) with ([(k0, ps0)] ++ r). rewrite flat_app, filter_app, map_app.
    cbn [map fst] in Hn. inversion Hn as [|? ? Hni Hn']; subst.
    assert (F1 : flat [(k0, ps0)] = map (fun p => (k0, p)) ps0) by (unfold flat; cbn; apply app_nil_r). rewrite F1.
    destruct Hin as [E|Hin].
    - injection E as -> ->. rewrite (filter_none _ (flat r)).
      + cbn. rewrite app_nil_r. rewrite filter_map_comm. cbn [fst]. rewrite Z.eqb_refl, map_map. cbn. rewrite map_id. clear. induction ps; [reflexivity|]. cbn. f_equal. assumption.
      + intros [k' p] Hx. apply flat_in in Hx. destruct Hx as (ps' & Hx & _). cbn. apply Z.eqb_neq. intros ->. apply Hni. apply in_map_iff. exists (k, ps'). auto.
    - rewrite IH by assumption. rewrite filter_none; [reflexivity|]. intros [k' p] Hx. apply in_map_iff in Hx. destruct Hx as (p' & E & _). injection E as <- <-. cbn.
      apply Z.eqb_neq. intros ->. apply Hni. apply in_map_iff. exists (k, ps). auto.
  Qed.

  (** Splitting a sorted list at the null id. *)
  Lemma null_last l : StronglySorted (fun a b : Z * P => fst a <= fst b) l -> (forall x, In x l -> fst x <= null_group) ->
    exists rest, l = filter (fun x => negb (fst x =? null_group)) l ++ rest /\ match rest with [] => True | x :: _ => fst x = null_group end.
  Proof.
    induction 1 as [|x r Hs IH HF]; intros H; [exists []; auto|]. cbn [filter]. destruct (Z.eqb_spec (fst x) null_group) as [E|E]; cbn [negb].
    - exists (x :: r). split; [|exact E]. rewrite filter_none; [reflexivity|]. intros y Hy. rewrite Forall_forall in HF. specialize (HF y Hy). specialize (H y (or_intror Hy)).
      apply negb_false_iff, Z.eqb_eq. lia.
    - destruct IH as (rest & E1 & E2); [intros y Hy; apply H; right; exact Hy|]. exists rest. split; [cbn; f_equal; exact E1|exact E2].
  Qed.

  Lemma last_shift {A} (r : list A) : forall y z, last (z :: r) y = last r z.
  Proof. induction r as [|w r IH]; intros y z; [reflexivity|]. change (last (z :: w :: r) y) with (last (w :: r) y). rewrite !IH. reflexivity. Qed.
  Lemma last_in {A} (r : list A) x : In (last r x) (x :: r).
  Proof. revert x. induction r as [|y r IH]; intros x; [left; reflexivity|]. rewrite last_shift. right. apply IH. Qed.

  (** src/io/apostle_io.cpp:443-488: grouping the particles of one process. *)
  Lemma local_ok sort_host read : sorts fst sort_host -> (forall x, In x read -> 0 <= fst x <= null_group) ->
    exists hs, local_halos P sort_host read = Some hs /\ Permutation (flat hs) (filter (fun x => negb (fst x =? null_group)) read) /\
      Forall (fun h => snd h <> []) hs /\ StronglySorted (fun a b => fst a < fst b) hs /\ forall h, In h hs -> 0 <= fst h < null_group.
  Proof.
    intros HS H. destruct (HS read) as [Hp Hs]. unfold local_halos. set (s := sort_host read) in *. clearbody s.
    assert (Hb : forall x, In x s -> 0 <= fst x <= null_group) by (intros x Hx; apply H; apply (Permutation_in _ Hp Hx)).
    assert (Hf : match s with [] => true | first :: r => (fst (last r first) <=? null_group) && (0 <=? fst first) end = true).
    { destruct s as [|x r]; [reflexivity|]. pose proof (Hb _ (last_in r x)). pose proof (Hb x (or_introl eq_refl)). apply andb_true_intro. split; apply Z.leb_le; lia. }
    rewrite Hf. destruct (null_last s Hs) as (rest & E & Hr); [intros x Hx; apply Hb, Hx|]. set (l := filter _ s) in E.
    assert (Hl : forall x, In x l -> 0 <= fst x < null_group).
    { intros x Hx. apply filter_In in Hx. destruct Hx as [Hx Hn]. specialize (Hb x Hx). destruct (Z.eqb_spec (fst x) null_group); [discriminate|]. lia. }
    assert (EL : halo_lens P null_group [] s = Some (lens (runs l))).
    { rewrite E. destruct l as [|[h p] r].
      - cbn [app runs]. destruct rest as [|[h p] rest]; [reflexivity|]. cbn in Hr. subst h. cbn [halo_lens]. rewrite Z.eqb_refl. reflexivity.
      - cbn [app halo_lens]. pose proof (Hl (h, p) (or_introl eq_refl)) as Hh. cbn [fst] in Hh. destruct (Z.eqb_spec h null_group); [lia|]. cbn [negb].
        rewrite lens_spec; [|intros x Hx; specialize (Hl x (or_intror Hx)); lia|exact Hr]. rewrite lens_runs. reflexivity. }
    exists (runs l). rewrite EL. split; [|split; [|split; [|split]]].
    - rewrite E, map_app. rewrite <- (runs_flat l) at 2. rewrite flat_snd. apply deal_lens.
    - rewrite runs_flat. unfold l. apply perm_filter. exact Hp.
    - apply runs_full.
    - apply runs_sorted. unfold l. apply sorted_filter, Hs.
    - intros h Hh. pose proof (runs_keys l (fst h) (in_map fst _ _ Hh)) as Hi. apply in_map_iff in Hi. destruct Hi as (x & <- & Hi). apply Hl, Hi.
  Qed.

  (** A particle with a too large group number: the assertion fails. *)
  Lemma local_large sort_host read x : sorts fst sort_host -> In x read -> null_group < fst x -> local_halos P sort_host read = None.
  Proof.
    intros HS Hin Hx. destruct (HS read) as [Hp Hs]. unfold local_halos. set (s := sort_host read) in *. clearbody s.
    apply (Permutation_in _ (Permutation_sym Hp)) in Hin. destruct s as [|y r]; [destruct Hin|].
    assert (G : null_group < fst (last r y)).
    { clear Hp HS. revert y Hs Hin. induction r as [|z r IH]; intros y Hs Hin; [destruct Hin as [<-|[]]; exact Hx|].
      inversion Hs as [|? ? Hs' HF]; subst. replace (last (z :: r) y) with (last r z).
      - destruct Hin as [<-|Hin]; [|apply IH; assumption]. rewrite Forall_forall in HF. specialize (HF (last r z)). pose proof (HF (last_in r z)). lia.
      - symmetry. apply last_shift. }
    destruct (Z.leb_spec (fst (last r y)) null_group); [lia|]. reflexivity.
  Qed.

  (** ** Merging. *)
  Lemma merge_flat l : forall h, flat (merge_from P h l) = flat (h :: l).
  Proof.
    induction l as [|h2 r IH]; intros h; [reflexivity|]. cbn [merge_from]. destruct (Z.eqb_spec (fst h2) (fst h)) as [E|E].
    - rewrite IH. unfold flat. cbn [map concat fst snd]. rewrite map_app, E, <- app_assoc. reflexivity.
    - change (flat ([h] ++ merge_from P h2 r) = flat ([h] ++ h2 :: r)). rewrite !flat_app, IH. reflexivity.
  Qed.
  Lemma merge_full l : forall h, snd h <> [] -> Forall (fun x => snd x <> []) l -> Forall (fun x => snd x <> []) (merge_from P h l).
  Proof.
    induction l as [|h2 r IH]; intros h Hh HF; [repeat constructor; exact Hh|]. inversion HF; subst. cbn [merge_from]. destruct (fst h2 =? fst h).
    - apply IH; [|assumption]. cbn. intros E. apply app_eq_nil in E. tauto.
    - constructor; [exact Hh|]. apply IH; assumption.
  Qed.
  Lemma merge_keys l : forall h, StronglySorted (fun a b => fst a <= fst b) (h :: l) -> StronglySorted (fun a b => fst a < fst b) (merge_from P h l) /\ (forall x, In x (merge_from P h l) -> fst h <= fst x /\ In (fst x) (map fst (h :: l))).
  Proof.
    induction l as [|h2 r IH]; intros h Hs.
    - split; [repeat constructor|]. cbn. intros x [<-|[]]. split; [lia|left; reflexivity].
    - inversion Hs as [|? ? Hs' HF]; subst. inversion Hs' as [|? ? Hs'' HF']; subst. cbn [merge_from]. destruct (Z.eqb_spec (fst h2) (fst h)) as [E|E].
      + destruct (IH (fst h, snd h ++ snd h2)) as [I1 I2]; [constructor; [exact Hs''|]; inversion HF; assumption|]. split; [exact I1|].
        intros x Hx. specialize (I2 x Hx). cbn [map fst In] in I2 |- *. tauto.
      + destruct (IH h2 Hs') as [I1 I2]. assert (L : fst h < fst h2) by (inversion HF as [|? ? L0 ?]; cbn beta in L0; lia). split.
        * constructor; [exact I1|]. apply Forall_forall. intros x Hx. specialize (I2 x Hx). lia.
        * intros x [<-|Hx]; [split; [lia|left; reflexivity]|]. specialize (I2 x Hx). split; [lia|right; tauto].
  Qed.
  Lemma sorted_lt_nodup (l : list (Z * list P)) : StronglySorted (fun a b => fst a < fst b) l -> NoDup (map fst l).
  Proof.
    induction 1 as [|x r Hs IH HF]; [constructor|]. cbn. constructor; [|exact IH]. intros Hin. apply in_map_iff in Hin. destruct Hin as (y & E & Hy). rewrite Forall_forall in HF. specialize (HF y Hy). lia.
  Qed.
  Lemma perm_flat a b : Permutation a b -> Permutation (flat a) (flat b).
  Proof. intros H. unfold flat. apply perm_concat, Permutation_map, H. Qed.
  Lemma merge_ok sort_halo hs : sorts fst sort_halo -> Forall (fun h => snd h <> []) hs ->
    Permutation (flat (merge_halos P sort_halo hs)) (flat hs) /\ Forall (fun h => snd h <> []) (merge_halos P sort_halo hs) /\
    NoDup (map fst (merge_halos P sort_halo hs)) /\ forall k, In k (map fst (merge_halos P sort_halo hs)) -> In k (map fst hs).
  Proof.
    intros HS HF. unfold merge_halos. destruct hs as [|h0 hr]; [refine (conj _ (conj _ (conj _ _))); [reflexivity|constructor|constructor|intros ? []]|]. destruct (HS (h0 :: hr)) as [Hp Hs]. destruct (sort_halo (h0 :: hr)) as [|h r] eqn:E.
    - apply Permutation_nil in Hp. discriminate.
    - rewrite Forall_forall in HF. assert (HF' : Forall (fun x => snd x <> []) (h :: r)) by (apply Forall_forall; intros x Hx; apply HF; exact (Permutation_in _ Hp Hx)).
      inversion HF'; subst. destruct (merge_keys r h Hs) as [K1 K2]. refine (conj _ (conj _ (conj _ _))).
      + rewrite merge_flat. apply perm_flat, Hp.
      + apply merge_full; assumption.
      + apply sorted_lt_nodup, K1.
      + intros k Hk. apply in_map_iff in Hk. destruct Hk as (x & <- & Hx). destruct (K2 x Hx) as [_ Hi]. apply (Permutation_in _ (Permutation_map fst Hp)), Hi.
  Qed.
End Runs.
