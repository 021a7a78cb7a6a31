(** Choosing the owners of the halos, exchanging and merging the pieces. *)
From Coq Require Import List ZArith Bool Lia QArith Sorting.Permutation Sorting.Sorted.
From Verif.Model Require Import ListMem Run Mymath Mpi Apostle.
From Verif.Spec Require Import Basic Comm Apostle.
From Verif.Proofs Require Import ListExtra ListMemProofs LocalizeProofs MymathProofs MymathProofs2 MpiProofs HostProofs ProfileProofs CatalogueProofs ApostleProofs.
Import ListNotations.
Local Open Scope Z_scope.

Lemma from_each_map {A B} (f : A -> nat -> B) W l r : (r < W)%nat -> from_each (map (fun x => map (f x) (seq 0 W)) l) r = Some (map (fun x => f x r) l).
Proof.
  intros Hr. unfold from_each. induction l as [|x l IH]; [reflexivity|]. cbn [map mapM]. rewrite IH, nth_error_map, nth_seq. destruct (Nat.ltb_spec r W); [|lia]. reflexivity.
Qed.
Lemma from_each_back {A B C} (g : A -> B -> C) la lb s b : nth_error lb s = Some b -> from_each (map (fun r => map (g r) lb) la) s = Some (map (fun r => g r b) la).
Proof. intros Hs. unfold from_each. induction la as [|x l IH]; [reflexivity|]. cbn [map mapM]. rewrite IH, nth_error_map, Hs. reflexivity. Qed.
Lemma mapM_indexed {A B} (f : nat -> option B) (g : A -> B) (l : list A) : (forall i x, nth_error l i = Some x -> f i = Some (g x)) -> mapM f (seq 0 (length l)) = Some (map g l).
Proof.
  revert f. induction l as [|x l IH]; intros f H; [reflexivity|]. cbn [length seq mapM map]. rewrite (H 0%nat x eq_refl). rewrite <- seq_shift.
  assert (E : forall m, mapM f (map S m) = mapM (fun i => f (S i)) m) by (induction m as [|i m IHm]; [reflexivity|]; cbn; rewrite IHm; reflexivity).
  rewrite E, (IH (fun i => f (S i))); [reflexivity|]. intros i y Hy. apply (H (S i) y Hy).
Qed.
Lemma mapM_map {A B C} (f : B -> option C) (g : A -> B) l : mapM f (map g l) = mapM (fun x => f (g x)) l.
Proof. induction l as [|x r IH]; [reflexivity|]. cbn. rewrite IH. reflexivity. Qed.
Lemma combine_map_l {A B} (f : A -> B) l : combine (map f l) l = map (fun x => (f x, x)) l.
Proof. induction l as [|x r IH]; [reflexivity|]. cbn. rewrite IH. reflexivity. Qed.
Lemma StronglySorted_map {A B} (R : B -> B -> Prop) (f : A -> B) l : StronglySorted R (map f l) <-> StronglySorted (fun a b => R (f a) (f b)) l.
Proof.
  induction l as [|x r IH]; [split; constructor|]. cbn. split; intros H; inversion H as [|? ? H1 H2]; subst; constructor; try (apply IH; exact H1).
  - apply Forall_forall. intros y Hy. rewrite Forall_forall in H2. apply H2, in_map, Hy.
  - apply Forall_forall. intros y Hy. apply in_map_iff in Hy. destruct Hy as (x' & <- & Hx). rewrite Forall_forall in H2. apply H2, Hx.
Qed.
Lemma StronglySorted_weaken {A} (R S : A -> A -> Prop) l : (forall a b, In a l -> In b l -> R a b -> S a b) -> StronglySorted R l -> StronglySorted S l.
Proof.
  intros H Hs. induction Hs as [|x r Hs IH HF]; [constructor|]. constructor.
  - apply IH. intros a b Ha Hb. apply H; right; assumption.
  - apply Forall_forall. intros y Hy. rewrite Forall_forall in HF. apply H; [left; reflexivity|right; exact Hy|apply HF, Hy].
Qed.
Lemma seq_combine_sorted {B} (l : list B) : forall a, StronglySorted (fun x y : nat * B => Z.of_nat (fst x) < Z.of_nat (fst y)) (combine (seq a (length l)) l).
Proof.
  induction l as [|x l IH]; intros a; [constructor|]. cbn [length seq combine]. constructor; [apply IH|]. apply Forall_forall. intros [i y] Hy. apply in_combine_l in Hy. apply in_seq in Hy. cbn. lia.
Qed.
Lemma map_snd_combine {A B} (la : list A) : forall lb : list B, length la = length lb -> map snd (combine la lb) = lb.
Proof. induction la as [|a la IH]; intros [|b lb] H; try discriminate; [reflexivity|]. cbn. f_equal. apply IH. injection H; auto. Qed.

Section Owner.
  Context {P X : Type}.
  Variables (average : list P -> X) (position : list X -> Q * Q * Q) (step : Q * Q * Q) (d0 d1 d2 : Z) (chunk : nat).
  Let dims := (d0, d1, d2).
  Variables (sort_host : list (Z * P) -> list (Z * P)) (sort_info sort_order : list (info X) -> list (info X)) (sort_rank : list (nat * Z) -> list (nat * Z)) (sort_halo : list (halo P) -> list (halo P)).
  Hypotheses (HD0 : 0 < d0) (HD1 : 0 < d1) (HD2 : 0 < d2).
  Hypotheses (S1 : sorts fst sort_host) (S2 : sorts (fun x => fst (snd x)) sort_info) (S3 : sorts (fun x => Z.of_nat (fst x)) sort_order) (S4 : sorts snd sort_rank) (S5 : sorts fst sort_halo).
  Variable W : nat.
  Hypothesis HW : Z.of_nat W = d0 * d1 * d2.
  Hypothesis Hchunk : (1 <= chunk)%nat.

  Definition place (xs : list X) : Z := assign_cell (position xs) step dims.
  Lemma place_range xs : 0 <= place xs < Z.of_nat W.
  Proof. unfold place, dims. rewrite HW. destruct (position xs) as [[p0 p1] p2], step as [[s0 s1] s2]. apply assign_cell_range; assumption. Qed.

  Definition chosen (full : list (info X)) (k : Z) : Z := place (map (fun x => snd (snd x)) (filter (fun x => fst (snd x) =? k) full)).
  Definition marked (full : list (info X)) (x : info X) : info X := (fst x, (chosen full (fst (snd x)), snd (snd x))).

  Lemma id_starts_go l : forall pre cur k,
    StronglySorted (fun a b : info X => fst (snd a) <= fst (snd b)) (pre ++ cur ++ l) -> cur <> [] -> (forall x, In x cur -> fst (snd x) = k) -> (forall x, In x pre -> fst (snd x) < k) -> (forall x, In x l -> k <= fst (snd x)) ->
    reduce_all X position step dims (length pre :: id_starts X (length pre + length cur) k l ++ [length (pre ++ cur ++ l)]) (pre ++ cur ++ l) = Some (map (marked (pre ++ cur ++ l)) (cur ++ l)).
  Proof.
    induction l as [|x l IH]; intros pre cur k Hs Hne Hc Hp Hl.
    - cbn [id_starts app reduce_all]. rewrite app_nil_r in *. rewrite app_length. destruct (Nat.leb_spec (length pre) (length pre + length cur)); [|lia]. rewrite Nat.leb_refl. cbn [andb].
      rewrite app_nil_r. f_equal. replace (length pre + length cur - length pre)%nat with (length cur) by lia. rewrite skipn_app, skipn_all, Nat.sub_diag. cbn [app skipn]. rewrite firstn_all.
      unfold reduce_rank. apply map_ext_in. intros x Hx. unfold marked, chosen. rewrite (Hc x Hx), filter_app, filter_none by (intros y Hy; specialize (Hp y Hy); apply Z.eqb_neq; lia).
      cbn [app]. rewrite (filter_everything _ cur) by (intros y Hy; apply Z.eqb_eq, Hc, Hy). reflexivity.
    - cbn [id_starts]. destruct (Z.eqb_spec k (fst (snd x))) as [E|E]; cbn [negb].
      + specialize (IH pre (cur ++ [x]) k). rewrite app_length in IH. cbn [length] in IH. rewrite <- (app_assoc cur [x] l) in IH. cbn [app] in IH.
        replace (length pre + (length cur + 1))%nat with (S (length pre + length cur)) in IH by lia. apply IH.
        * exact Hs.
        * destruct cur; discriminate.
        * intros y Hy. apply in_app_or in Hy. destruct Hy as [Hy|[<-|[]]]; [apply Hc, Hy|symmetry; exact E].
        * exact Hp.
        * intros y Hy. apply Hl. right. exact Hy.
      + assert (Hkx : k < fst (snd x)) by (specialize (Hl x (or_introl eq_refl)); lia).
        assert (Hxl : forall y, In y l -> fst (snd x) <= fst (snd y)).
        { intros y Hy. assert (Hs2 : StronglySorted (fun a b : info X => fst (snd a) <= fst (snd b)) (x :: l)).
          { clear - Hs. induction pre as [|p r IHp]; [|inversion Hs; auto]. induction cur as [|p r IHc]; [exact Hs|]. cbn in Hs. inversion Hs; auto. }
          inversion Hs2 as [|? ? _ HF]; subst. rewrite Forall_forall in HF. apply HF, Hy. }
        specialize (IH (pre ++ cur) [x] (fst (snd x))). rewrite app_length in IH. cbn [length app] in IH. rewrite <- !app_assoc in IH. cbn [app] in IH. rewrite Nat.add_1_r in IH.
        cbn [app]. set (full := pre ++ cur ++ x :: l) in *. set (tail := id_starts X (S (length pre + length cur)) (fst (snd x)) l ++ [length full]) in *.
        assert (Hb : (length pre + length cur <= length full)%nat) by (unfold full; rewrite !app_length; lia).
        change (reduce_all X position step dims (length pre :: (length pre + length cur)%nat :: tail) full) with
          (if ((length pre <=? length pre + length cur) && (length pre + length cur <=? length full))%nat
           then match reduce_all X position step dims ((length pre + length cur)%nat :: tail) full with Some r => Some (reduce_rank X position step dims (firstn (length pre + length cur - length pre) (skipn (length pre) full)) ++ r) | None => None end else None).
        destruct (Nat.leb_spec (length pre) (length pre + length cur)); [|lia]. destruct (Nat.leb_spec (length pre + length cur) (length full)); [|lia]. cbn [andb].
        rewrite IH.
        * f_equal. rewrite map_app. f_equal. replace (length pre + length cur - length pre)%nat with (length cur) by lia. unfold full at 1. rewrite skipn_app, skipn_all, Nat.sub_diag. cbn [app skipn]. rewrite firstn_app, Nat.sub_diag, firstn_all. cbn [firstn]. rewrite app_nil_r.
          unfold reduce_rank. apply map_ext_in. intros y Hy. unfold marked, chosen. rewrite (Hc y Hy). unfold full. rewrite !filter_app, (filter_none _ pre) by (intros z Hz; specialize (Hp z Hz); apply Z.eqb_neq; lia).
          rewrite (filter_none _ (x :: l)) by (intros z [<-|Hz]; [|specialize (Hxl z Hz)]; apply Z.eqb_neq; lia). rewrite app_nil_r. cbn [app].
          rewrite (filter_everything _ cur) by (intros z Hz; apply Z.eqb_eq, Hc, Hz). reflexivity.
        * exact Hs.
        * discriminate.
        * intros y [<-|[]]. reflexivity.
        * intros y Hy. apply in_app_or in Hy. destruct Hy as [Hy|Hy]; [specialize (Hp y Hy); lia|rewrite (Hc y Hy); exact Hkx].
        * exact Hxl.
  Qed.

  Lemma reduce_ok l : StronglySorted (fun a b : info X => fst (snd a) <= fst (snd b)) l -> (forall x, In x l -> 0 <= fst (snd x)) ->
    reduce_all X position step dims (id_starts X 0 (-1) l ++ [length l]) l = Some (map (marked l) l).
  Proof.
    intros Hs H. destruct l as [|x l]; [reflexivity|]. cbn [id_starts]. pose proof (H x (or_introl eq_refl)). destruct (Z.eqb_spec (-1) (fst (snd x))); [lia|]. cbn [negb app].
    apply (id_starts_go l [] [x] (fst (snd x))).
    - exact Hs.
    - discriminate.
    - intros y [<-|[]]. reflexivity.
    - intros y [].
    - inversion Hs as [|? ? _ HF]; subst. rewrite Forall_forall in HF. exact HF.
  Qed.

  (** src/io/apostle_io.cpp:638-665: the rank returned for a piece depends on its halo id only. *)
  Lemma decide_ok received : (forall x : Z * X, In x received -> 0 <= fst x) ->
    exists t : Z -> Z, (forall k, 0 <= t k < Z.of_nat W) /\ decide X position step dims sort_info sort_order received = Some (map (fun x => t (fst x)) received).
  Proof.
    intros H. unfold decide. set (ordered := combine (seq 0 (length received)) received). destruct (S2 ordered) as [Hp Hs]. set (s := sort_info ordered) in *. clearbody s.
    assert (Ho : map snd ordered = received) by (apply map_snd_combine; rewrite seq_length; reflexivity).
    assert (Hlen : length received = length s) by (etransitivity; [|symmetry; exact (Permutation_length Hp)]; unfold ordered; rewrite combine_length, seq_length; lia).
    cbv zeta. rewrite Hlen, (reduce_ok s Hs).
    2: { intros x Hx. apply H. rewrite <- Ho. apply in_map. exact (Permutation_in _ Hp Hx). }
    exists (chosen s). split; [intros k; apply place_range|]. f_equal. destruct (S3 (map (marked s) s)) as [Hp3 Hs3].
    rewrite (sorted_unique (fun x : info X => Z.of_nat (fst x)) _ (map (marked s) ordered)).
    - rewrite map_map. transitivity (map (fun x => chosen s (fst x)) (map snd ordered)); [rewrite map_map; reflexivity|rewrite Ho; reflexivity].
    - rewrite Hp3. apply Permutation_map, Hp.
    - exact Hs3.
    - apply StronglySorted_map. unfold marked. cbn [fst]. apply seq_combine_sorted.
  Qed.

  (** The halos of every process: increasing ids in [0, null). *)
  Variable all : list (list (halo P)).
  Hypothesis Hall : length all = W.
  Hypothesis Hids : forall hs, In hs all -> StronglySorted (fun a b => fst a < fst b) hs /\ forall h, In h hs -> 0 <= fst h.

  Lemma max_ge h hs : In hs all -> In h hs -> fst h <= max_halo_id P all.
  Proof.
    intros Hhs Hh. unfold max_halo_id. destruct (Hids hs Hhs) as [Hs _].
    assert (G1 : fst h <= last (map fst hs) 0).
    { destruct hs as [|x r]; [destruct Hh|]. cbn [map]. rewrite last_shift. assert (G : forall r x, StronglySorted (fun a b : halo P => fst a < fst b) (x :: r) -> forall h, In h (x :: r) -> fst h <= last (map fst r) (fst x)).
      { clear. induction r as [|y r IH]; intros x Hs h Hh; [destruct Hh as [<-|[]]; cbn; lia|]. cbn [map]. rewrite last_shift. inversion Hs as [|? ? Hs' HF]; subst.
        destruct Hh as [<-|Hh]; [|apply (IH y Hs' h Hh)]. pose proof (IH y Hs' y (or_introl eq_refl)). inversion HF; subst. lia. }
      apply (G r x Hs h Hh). }
    enough (last (map fst hs) 0 <= fold_right Z.max 0 (map (fun hs => last (map fst hs) 0) all)) by lia. clear - Hhs. induction all as [|a r IH]; [destruct Hhs|]. cbn. destruct Hhs as [<-|Hh]; [lia|]. specialize (IH Hh). lia.
  Qed.
  Lemma div_range h hs : In hs all -> In h hs -> 0 <= fst h / ndiv P W all < Z.of_nat W.
  Proof.
    intros Hhs Hh. pose proof (max_ge h hs Hhs Hh) as Hm. destruct (Hids hs Hhs) as [_ H0]. specialize (H0 h Hh). unfold ndiv. set (m := max_halo_id P all) in *.
    assert (HWp : 0 < Z.of_nat W) by (rewrite HW; nia). pose proof (Z.div_mod (m + 1) (Z.of_nat W) ltac:(lia)) as E. pose proof (Z.mod_pos_bound (m + 1) (Z.of_nat W) HWp) as B.
    set (q := (m + 1) / Z.of_nat W) in *. set (rm := (m + 1) mod Z.of_nat W) in *.
    assert (Hn : m + 1 <= Z.of_nat W * (q + (if rm =? 0 then 0 else 1))) by (destruct (Z.eqb_spec rm 0); nia).
    set (n := q + (if rm =? 0 then 0 else 1)) in *. clearbody n. assert (0 < n) by nia. split; [apply Z.div_pos; lia|]. apply Z.div_lt_upper_bound; lia.
  Qed.
  Lemma div_sorted hs : In hs all -> StronglySorted (fun a b : halo P => fst a / ndiv P W all <= fst b / ndiv P W all) hs.
  Proof.
    intros Hhs. destruct (Hids hs Hhs) as [Hs H0]. apply (StronglySorted_weaken (fun a b => fst a < fst b)); [|exact Hs].
    intros a b Ha Hb Hlt. assert (Hn : 0 < ndiv P W all).
    { pose proof (max_ge a hs Hhs Ha) as Hm. specialize (H0 a Ha). unfold ndiv. assert (HWp : 0 < Z.of_nat W) by (rewrite HW; nia).
      pose proof (Z.div_mod (max_halo_id P all + 1) (Z.of_nat W) ltac:(lia)) as E. pose proof (Z.mod_pos_bound (max_halo_id P all + 1) (Z.of_nat W) HWp) as B.
      set (q := (max_halo_id P all + 1) / Z.of_nat W) in *. set (rm := (max_halo_id P all + 1) mod Z.of_nat W) in *. destruct (Z.eqb_spec rm 0); nia. }
    apply Z.div_le_mono; lia.
  Qed.

  Definition div (h : halo P) : Z := fst h / ndiv P W all.
  Definition tell (h : halo P) : Z * X := (fst h, average (snd h)).
  Definition sel (r : nat) (hs : list (halo P)) : list (halo P) := filter (fun h => div h =? Z.of_nat r) hs.

  Lemma choose_all (rec : nat -> list (Z * X)) l : NoDup l -> (forall r, In r l -> forall x, In x (rec r) -> 0 <= fst x) ->
    exists t : nat -> Z -> Z, (forall r k, 0 <= t r k < Z.of_nat W) /\ mapM (decide X position step dims sort_info sort_order) (map rec l) = Some (map (fun r => map (fun x => t r (fst x)) (rec r)) l).
  Proof.
    clear Hids Hall. intros Hnd H. assert (HWp : 0 < Z.of_nat W) by (rewrite HW; nia). induction l as [|r l IH].
    - exists (fun _ _ => 0). split; [intros; lia|reflexivity].
    - inversion Hnd as [|? ? Hni Hnd']; subst. destruct IH as (t & Ht & E); [exact Hnd'|intros r' Hr'; apply H; right; exact Hr'|].
      destruct (decide_ok (rec r)) as (t0 & Ht0 & E0); [apply H; left; reflexivity|].
      exists (fun r' k => if Nat.eqb r' r then t0 k else t r' k). split; [intros r' k; destruct (Nat.eqb r' r); auto|].
      cbn [map mapM]. rewrite E0, E. rewrite Nat.eqb_refl. do 2 f_equal. apply map_ext_in. intros r' Hr'. destruct (Nat.eqb_spec r' r); [subst; contradiction|reflexivity].
  Qed.

  Lemma concat_sel {B} (f : nat -> halo P -> B) hs : In hs all -> concat (map (fun r => map (f r) (sel r hs)) (seq 0 W)) = map (fun h => f (Z.to_nat (div h)) h) hs.
  Proof.
    intros Hhs. pose proof (sorted_pieces div W 0 hs (div_sorted hs Hhs)) as E.
    assert (E' : hs = concat (map (fun r => sel r hs) (seq 0 W))) by (apply E; intros h Hh; pose proof (div_range h hs Hhs Hh); unfold div; lia).
    transitivity (map (fun h => f (Z.to_nat (div h)) h) (concat (map (fun r => sel r hs) (seq 0 W)))); [|rewrite <- E'; reflexivity].
    rewrite concat_map, map_map. f_equal. apply map_ext_in. intros r Hr. apply map_ext_in. intros h Hh. unfold sel in Hh. apply filter_In in Hh. destruct Hh as [_ Eh]. apply Z.eqb_eq in Eh. rewrite Eh, Nat2Z.id. reflexivity.
  Qed.

  (** src/io/apostle_io.cpp:606-676: all pieces of one halo get the same rank. *)
  Lemma target_ok : exists T : Z -> Z, (forall k, 0 <= T k < Z.of_nat W) /\
    target_ranks P X average position step dims sort_info sort_order all = Some (map (map (fun h => T (fst h))) all).
  Proof.
    set (rec := fun r => concat (map (fun hs => map tell (sel r hs)) all)).
    destruct (choose_all rec (seq 0 W)) as (t & Ht & ED).
    { apply seq_NoDup. }
    { intros r Hr x Hx. unfold rec in Hx. apply in_concat in Hx. destruct Hx as (l & Hl & Hx). apply in_map_iff in Hl. destruct Hl as (hs & <- & Hhs). apply in_map_iff in Hx. destruct Hx as (h & <- & Hh).
      unfold sel in Hh. apply filter_In in Hh. cbn. apply (proj2 (Hids hs Hhs)). tauto. }
    exists (fun k => t (Z.to_nat (k / ndiv P W all)) k). split; [intros k; apply Ht|].
    unfold target_ranks. rewrite Hall. cbv zeta.
    rewrite (mapM_some _ (fun hs => map (fun r => length (sel r hs)) (seq 0 W))).
    2: { intros hs Hhs. rewrite tally_spec.
         - f_equal. apply map_ext. intros r. apply (filter_length_map div).
         - intros k Hk. apply in_map_iff in Hk. destruct Hk as (h & <- & Hh). apply (div_range h hs Hhs Hh). }
    rewrite combine_map_l, mapM_map. cbn [fst snd].
    rewrite (mapM_some _ (fun hs => map (fun r => map tell (sel r hs)) (seq 0 W))).
    2: { intros hs Hhs. apply (cut_by_key div tell); [apply div_sorted, Hhs|]. intros h Hh. apply (div_range h hs Hhs Hh). }
    rewrite (mapM_some _ rec).
    2: { intros r Hr. apply in_seq in Hr. rewrite (from_each_map (fun hs r => map tell (sel r hs))) by lia. reflexivity. }
    fold (info X). rewrite ED.
    rewrite (mapM_some _ (fun r => map (fun hs => length (sel r hs)) all)).
    2: { intros r Hr. apply in_seq in Hr. apply (from_each_map (fun hs r => length (sel r hs))). lia. }
    rewrite combine_map_both, mapM_map. cbn [fst snd].
    rewrite (mapM_some _ (fun r => map (fun hs => map (fun h => t r (fst h)) (sel r hs)) all)).
    2: { intros r Hr. unfold rec. rewrite concat_map, map_map.
         rewrite <- (pieces_concat (map (fun hs => map (fun h => t r (fst h)) (sel r hs)) all)). f_equal.
         - rewrite map_map. apply map_ext. intros hs. rewrite map_length. reflexivity.
         - f_equal. apply map_ext. intros hs. rewrite map_map. reflexivity. }
    match goal with |- mapM ?F _ = _ => transitivity (mapM F (seq 0 (length all))); [rewrite Hall; reflexivity|] end. apply mapM_indexed. intros s hs Hs. rewrite (from_each_back _ (seq 0 W) all s hs Hs). cbn [option_map]. f_equal.
    apply (concat_sel (fun r h => t r (fst h)) hs). eapply nth_error_In; eauto.
  Qed.

  (** ** The exchange. *)
  Lemma a2a_table {A B} (f : A -> nat -> list B) l : length l = W ->
    my_all_to_all chunk (map (fun x => map (f x) (seq 0 W)) l) (map (fun x => map (fun r => length (f x r)) (seq 0 W)) l) = Some (map (fun r => map (fun x => f x r) l) (seq 0 W)).
  Proof.
    intros Hl. destruct (all_to_all_correct chunk W (map (fun x => map (f x) (seq 0 W)) l) (map (fun x => map (fun r => length (f x r)) (seq 0 W)) l) Hchunk) as (outs & E & [Ho1 Ho2] & Hc).
    - split; [|split].
      + split; [rewrite map_length; exact Hl|]. apply Forall_forall. intros x Hx. apply in_map_iff in Hx. destruct Hx as (y & <- & _). rewrite map_length, seq_length. reflexivity.
      + split; [rewrite map_length; exact Hl|]. apply Forall_forall. intros x Hx. apply in_map_iff in Hx. destruct Hx as (y & <- & _). rewrite map_length, seq_length. reflexivity.
      + intros s r xs c H1 H2. unfold cell in *. rewrite nth_error_map in H1, H2. destruct (nth_error l s) as [x|]; [|discriminate]. cbn [option_map] in *. rewrite nth_error_map in H1, H2.
        rewrite nth_seq in H1, H2. destruct (r <? W)%nat; [|discriminate]. cbn in *. injection H1 as <-. injection H2 as <-. lia.
    - rewrite E. f_equal. apply nth_error_ext. intros r. rewrite nth_error_map, nth_seq. destruct (Nat.ltb_spec r W) as [Hr|Hr].
      2: { cbn. apply nth_error_None. lia. }
      cbn [option_map Nat.add]. destruct (nth_error outs r) as [row|] eqn:Er; [|apply nth_error_None in Er; lia]. f_equal.
      assert (Hrow : length row = W) by (rewrite Forall_forall in Ho2; apply Ho2; eapply nth_error_In; eauto).
      apply nth_error_ext. intros s. rewrite nth_error_map. destruct (nth_error l s) as [x|] eqn:Es.
      + cbn [option_map]. specialize (Hc s r (f x r) (length (f x r))). unfold cell in Hc. rewrite !nth_error_map, Es, Er in Hc. cbn [option_map] in Hc. rewrite !nth_error_map, nth_seq in Hc.
        destruct (Nat.ltb_spec r W); [|lia]. cbn [option_map Nat.add] in Hc. rewrite Hc by reflexivity. rewrite firstn_all. reflexivity.
      + cbn. apply nth_error_None in Es. apply nth_error_None. lia.
  Qed.

  Variable T : Z -> Z.
  Hypothesis HT : forall k, 0 <= T k < Z.of_nat W.
  Definition own (h : halo P) : Z := T (fst h).
  Definition by_rank (hs : list (halo P)) : list (halo P) :=
    map (fun t => nth (fst t) hs (0, [])) (sort_rank (combine (seq 0 (length hs)) (map own hs))).
  Definition to_rank (r : nat) (hs : list (halo P)) : list (halo P) := filter (fun h => own h =? Z.of_nat r) (by_rank hs).

  Lemma sort_out_ok hs : sort_out P sort_rank W hs (map own hs) = Some (by_rank hs, map own (by_rank hs), map (fun r => length (to_rank r hs)) (seq 0 W)) /\
    Permutation (by_rank hs) hs /\ StronglySorted (fun a b => own a <= own b) (by_rank hs).
  Proof.
    unfold sort_out, to_rank. set (pairs := combine (seq 0 (length hs)) (map own hs)). destruct (S4 pairs) as [Hp Hs].
    assert (Hin : forall t, In t (sort_rank pairs) -> exists h, nth_error hs (fst t) = Some h /\ snd t = own h).
    { intros [i k] Ht. apply (Permutation_in _ Hp) in Ht. apply in_nth_iff in Ht. destruct Ht as [j Hj]. apply combine_nth_error_inv in Hj. destruct Hj as [Hi Hk].
      rewrite nth_seq in Hi. destruct (j <? length hs)%nat; [|discriminate]. cbn in Hi. injection Hi as <-. rewrite nth_error_map in Hk. cbn [fst snd]. destruct (nth_error hs j) as [h|]; [|discriminate]. exists h. split; [reflexivity|]. cbn in Hk. congruence. }
    assert (EB : by_rank hs = map (fun t => nth (fst t) hs (0, [])) (sort_rank pairs)) by reflexivity.
    assert (EO : map snd (sort_rank pairs) = map own (by_rank hs)).
    { rewrite EB, map_map. apply map_ext_in. intros t Ht. destruct (Hin t Ht) as (h & Hh & E). rewrite (nth_error_nth _ _ _ Hh). exact E. }
    split; [|split].
    - cbv zeta. rewrite (mapM_some _ (fun t => nth (fst t) hs (0, []))).
      2: { intros t Ht. destruct (Hin t Ht) as (h & Hh & _). rewrite (nth_error_nth _ _ _ Hh). exact Hh. }
      rewrite EO. rewrite <- EB. rewrite tally_spec.
      + do 2 f_equal. apply map_ext. intros r. apply (filter_length_map own).
      + intros k Hk. apply in_map_iff in Hk. destruct Hk as (h & <- & _). apply HT.
    - rewrite EB. rewrite Hp. unfold pairs. rewrite <- (map_map fst (fun i => nth i hs (0, []))).
      assert (EF : map fst (combine (seq 0 (length hs)) (map own hs)) = seq 0 (length hs)).
      { assert (G : forall (A B : Type) (la : list A) (lb : list B), length la = length lb -> map fst (combine la lb) = la) by (induction la as [|a la IH]; intros [|b lb] H; try discriminate; [reflexivity|]; cbn; f_equal; apply IH; injection H; auto).
        apply G. rewrite seq_length, map_length. reflexivity. }
      rewrite EF, map_nth_seq. reflexivity.
    - apply (StronglySorted_map Z.le own). rewrite <- EO. apply StronglySorted_map. exact Hs.
  Qed.

  Lemma particle_counts_ok hs : particle_counts P W (by_rank hs) (map own (by_rank hs)) = Some (map (fun r => length (concat (map snd (to_rank r hs)))) (seq 0 W)).
  Proof.
    unfold particle_counts. rewrite combine_map_l. rewrite (add_all (fun rh : Z * halo P => fst rh) (fun rh => length (snd (snd rh))) W).
    - f_equal. apply map_ext. intros r. unfold weight, to_rank. rewrite filter_map_comm, map_map. cbn [fst snd]. rewrite concat_length_nsum, map_map. reflexivity.
    - intros x Hx. apply in_map_iff in Hx. destruct Hx as (h & <- & _). apply HT.
  Qed.

  Definition received (r : nat) : list (halo P) := concat (map (to_rank r) all).
  Lemma exchange_ok : target_ranks P X average position step dims sort_info sort_order all = Some (map (map own) all) ->
    exchange_halos P X average position step dims chunk sort_info sort_order sort_rank all = Some (map received (seq 0 W)).
  Proof.
    intros ET. unfold exchange_halos. rewrite ET, Hall. cbv zeta. rewrite (combine_mapped (map own) all), mapM_map. cbn [fst snd].
    rewrite (mapM_some _ (fun hs => (by_rank hs, map own (by_rank hs), map (fun r => length (to_rank r hs)) (seq 0 W)))) by (intros hs _; apply sort_out_ok).
    rewrite !mapM_map. cbn [fst snd].
    rewrite (mapM_some _ (fun hs => map (fun r => to_rank r hs) (seq 0 W))).
    2: { intros hs _. pose proof (cut_by_key own (fun h => h) W (by_rank hs) (proj2 (proj2 (sort_out_ok hs)))) as E. rewrite map_id in E. unfold to_rank. rewrite E by (intros h _; apply HT). f_equal. apply map_ext. intros r. apply map_id. }
    rewrite (mapM_some _ (fun hs => map (fun r => length (concat (map snd (to_rank r hs)))) (seq 0 W))) by (intros hs _; apply particle_counts_ok).
    assert (EM : map (map (fun hs => concat (map snd hs))) (map (fun hs => map (fun r => to_rank r hs) (seq 0 W)) all) = map (fun hs => map (fun r => concat (map snd (to_rank r hs))) (seq 0 W)) all).
    { rewrite map_map. apply map_ext. intros hs. rewrite map_map. reflexivity. }
    rewrite EM, (a2a_table (fun hs r => concat (map snd (to_rank r hs))) all Hall).
    rewrite combine_mapped, mapM_map. cbn [fst snd]. apply mapM_some. intros r Hr. apply in_seq in Hr.
    rewrite (from_each_map (fun hs r => to_rank r hs)) by lia. rewrite combine_map_both, mapM_map. cbn [fst snd].
    rewrite (mapM_some _ (fun hs => to_rank r hs)); [reflexivity|]. intros hs _. rewrite <- (app_nil_r (concat _)). apply deal_lens.
  Qed.

  Lemma received_perm r : Permutation (received r) (filter (fun h => own h =? Z.of_nat r) (concat all)).
  Proof.
    unfold received. rewrite filter_concat. apply perm_concat2. clear Hids Hall. induction all as [|hs l IH]; [constructor|]. cbn. constructor; [|exact IH].
    unfold to_rank. apply perm_filter. apply sort_out_ok.
  Qed.
  Lemma received_all : Permutation (concat (map received (seq 0 W))) (concat all).
  Proof.
    etransitivity; [|apply (concat_filters (fun h => Z.to_nat (own h)) W)].
    - apply perm_concat2. generalize (seq 0 W) as l. induction l as [|r l IH]; [constructor|]. cbn. constructor; [|exact IH]. rewrite received_perm. 
      assert (E : filter (fun h => own h =? Z.of_nat r) (concat all) = filter (fun h => (Z.to_nat (own h) =? r)%nat) (concat all)); [|rewrite E; reflexivity].
      apply filter_ext. intros h. specialize (HT (fst h)). unfold own. destruct (Z.eqb_spec (T (fst h)) (Z.of_nat r)), (Nat.eqb_spec (Z.to_nat (T (fst h))) r); try reflexivity; lia.
    - intros h _. specialize (HT (fst h)). unfold own. lia.
  Qed.
End Owner.
