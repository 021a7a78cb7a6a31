From Coq Require Import List ZArith Bool Lia Arith Sorting.Sorted Sorting.Permutation.
From Coq Require Import ZifyBool ZifyNat.
From Verif.Model Require Import ListMem Run Mpi Exchange.
From Verif.Spec Require Import Exchange.
From Verif.Proofs Require Import ListMemProofs MpiProofs ExchangeProofs.
Import ListNotations.
Local Open Scope nat_scope.

Definition col (j : nat) (offs : list (list nat)) : list nat := map (fun row => nth j row 0) offs.

(** A column of cursor positions that separates small from large ids with [k] ids below. *)
Definition colok (lists : list (list Z)) (c : list nat) (k : nat) : Prop :=
  Forall2 (fun l o => o <= length l) lists c /\ nsum c = k /\
  forall p p' l l' o o' x y, nth_error lists p = Some l -> nth_error lists p' = Some l' ->
    nth_error c p = Some o -> nth_error c p' = Some o' -> In x (firstn o l) -> In y (skipn o' l') -> (x < y)%Z.

Definition part_ok (lists : list (list Z)) (offs : list (list nat)) : Prop :=
  let W := length lists in let n := length (concat lists) in
  length offs = W /\ Forall (fun row => length row = S W) offs /\
  (forall j, j < W -> colok lists (col j offs) (cum W j n)) /\
  (forall j j', j <= j' -> j' < W -> Forall2 le (col j offs) (col j' offs)).

Definition lists_ok (lists : list (list Z)) : Prop :=
  Forall (StronglySorted Z.lt) lists /\ NoDup (concat lists).

(** * Contiguous ids *)
Definition below (b : Z) (l : list Z) : nat := length (filter (fun x => (x <? b)%Z) l).

Lemma below_all b l : (forall x, In x l -> (x < b)%Z) -> below b l = length l.
Proof.
  intros H. unfold below. induction l as [|x l IH]; [reflexivity|]. cbn.
  destruct (Z.ltb_spec x b) as [_|Hge]; [|specialize (H x (or_introl eq_refl)); lia]. cbn. f_equal. apply IH. intros y Hy. apply H. right; exact Hy.
Qed.
Lemma below_none b l : (forall x, In x l -> (b <= x)%Z) -> below b l = 0.
Proof.
  intros H. unfold below. induction l as [|x l IH]; [reflexivity|]. cbn.
  destruct (Z.ltb_spec x b) as [Hlt|_]; [specialize (H x (or_introl eq_refl)); lia|]. apply IH. intros y Hy. apply H. right; exact Hy.
Qed.
Lemma below_app b l m : below b (l ++ m) = below b l + below b m.
Proof. unfold below. rewrite filter_app, app_length. reflexivity. Qed.
Lemma below_le b l : below b l <= length l.
Proof. unfold below. induction l as [|x l IH]; cbn; [lia|]. destruct (x <? b)%Z; cbn; lia. Qed.
Lemma below_mono b b' l : (b <= b')%Z -> below b l <= below b' l.
Proof.
  intros H. unfold below. induction l as [|x l IH]; cbn; [lia|].
  destruct (Z.ltb_spec x b), (Z.ltb_spec x b'); cbn; lia.
Qed.
Lemma below_split b l : StronglySorted Z.lt l ->
  (forall x, In x (firstn (below b l) l) -> (x < b)%Z) /\ (forall y, In y (skipn (below b l) l) -> (b <= y)%Z).
Proof.
  induction 1 as [|x l Hs IH Hall]; [split; intros ? []|]. unfold below in *. cbn.
  destruct (Z.ltb_spec x b) as [Hx|Hx]; cbn.
  - destruct IH as [IH1 IH2]. split; [intros y [<-|Hy]; auto|exact IH2].
  - rewrite Forall_forall in Hall. assert (Hn : forall y, In y l -> (b <= y)%Z) by (intros y Hy; specialize (Hall y Hy); lia).
    pose proof (below_none b l Hn) as E. unfold below in E. rewrite E. cbn. split; [intros ? []|]. intros y [<-|Hy]; auto.
Qed.

Section Cuts.
  Variable W n : nat.
  Variable g : Z.
  Definition B (r : nat) : Z := (g + Z.of_nat (cum W r n))%Z.

  Lemma B_mono r r' : r <= r' -> (B r <= B r')%Z.
  Proof. induction 1 as [|r' H IH]; [lia|]. unfold B in *. rewrite cum_S. lia. Qed.
  Lemma nnew_step rank : (if rank =? n mod W then (Z.of_nat (cnt_before W rank n) - 1)%Z else Z.of_nat (cnt_before W rank n)) = Z.of_nat (cnt_at W rank n).
  Proof.
    unfold cnt_before, cnt_at. generalize (n / W) (n mod W). intros q k.
    destruct (Nat.eqb_spec rank k); destruct (Nat.leb_spec rank k); destruct (Nat.ltb_spec rank k); lia.
  Qed.
End Cuts.

Section Contig.
  Variable ids : list Z.
  Variable W n : nat.
  Variable g : Z.
  Hypothesis HW : 1 <= W.
  Hypothesis Hids : StronglySorted Z.lt ids.
  Hypothesis Hrange : forall x, In x ids -> (x < g + Z.of_nat n)%Z.

  Lemma B_W : B W n g W = (g + Z.of_nat n)%Z.
  Proof. unfold B. rewrite cum_N by lia. reflexivity. Qed.

  Definition offs_upto (rank : nat) (offset : list nat) : Prop :=
    length offset = S W /\ forall r, r < rank -> nth_error offset r = Some (below (B W n g r) ids).

  Lemma contig_loop_spec fuel rank pid offset :
    pid <= length ids -> rank <= W -> offs_upto rank offset ->
    (forall x, In x (firstn pid ids) -> (x < B W n g rank)%Z) ->
    (forall r, r < rank -> below (B W n g r) ids <= pid) ->
    (length ids - pid) + (W - rank) < fuel ->
    exists rank' offset', contig_loop fuel ids (n mod W) rank pid (Z.of_nat (cnt_before W rank n)) (B W n g rank) offset = Done (rank', offset') /\
      rank' <= W /\ offs_upto rank' offset' /\ forall x, In x ids -> (x < B W n g rank')%Z.
  Proof.
    revert rank pid offset; induction fuel as [|fuel IH]; intros rank pid offset Hp Hr Ho Hlt Hb Hf; [lia|].
    cbn [contig_loop]. destruct (nth_error ids pid) as [x|] eqn:Ex.
    - pose proof (nth_error_lt _ _ _ Ex) as Hpl.
      destruct (Z.ltb_spec x (B W n g rank)) as [Hx|Hx].
      + apply IH; auto; try lia.
        * intros y Hy. assert (Hin : In y (firstn pid ids ++ [x])).
          { rewrite <- (firstn_skipn pid ids) in Hy at 1. rewrite firstn_app in Hy.
            rewrite firstn_length_le in Hy by lia. replace (S pid - pid) with 1 in Hy by lia.
            rewrite firstn_firstn in Hy. replace (Nat.min (S pid) pid) with pid in Hy by lia.
            apply in_app_iff in Hy as [Hy|Hy]; apply in_or_app; [left; exact Hy|].
            destruct (skipn pid ids) as [|z r] eqn:Es; [destruct Hy|]. right.
            assert (z = x). { pose proof (skipn_nth_error ids pid 0) as E. rewrite Es, Nat.add_0_r, Ex in E. cbn in E. congruence. }
            subst z. destruct Hy as [<-|[]]. left; reflexivity. }
          apply in_app_iff in Hin as [Hin|[<-|[]]]; auto.
      + assert (HrW : rank < W).
        { destruct (Nat.eq_dec rank W) as [->|]; [|lia]. rewrite B_W in Hx. specialize (Hrange x (nth_error_In _ _ Ex)). lia. }
        destruct Ho as [Ho1 Ho2].
        destruct (upd_some offset rank pid) as [offset' Eu]; [lia|]. rewrite Eu.
        assert (Hbel : below (B W n g rank) ids = pid).
        { rewrite <- (firstn_skipn pid ids) at 1. rewrite below_app, below_all by exact Hlt.
          rewrite below_none; [rewrite firstn_length_le by lia; lia|].
          intros y Hy. apply In_nth_error in Hy as [i Hi]. rewrite skipn_nth_error in Hi.
          destruct i as [|i]; [rewrite Nat.add_0_r in Hi; assert (y = x) by congruence; subst; lia|].
          assert (In x (firstn (S pid) ids)) by (apply nth_error_In with pid; rewrite firstn_nth_error by lia; exact Ex).
          assert (In y (skipn (S pid) ids)) by (apply nth_error_In with i; rewrite skipn_nth_error; replace (S pid + i) with (pid + S i) by lia; exact Hi).
          pose proof (sorted_split Z.lt ids (S pid) x y Hids). lia. }
        rewrite nnew_step.
        replace (B W n g rank + Z.of_nat (cnt_at W rank n))%Z with (B W n g (S rank)) by (unfold B; rewrite cum_S; lia).
        rewrite <- cnt_before_S.
        apply IH; auto; try lia.
        * split; [rewrite (upd_length _ _ _ _ Eu); exact Ho1|]. intros r Hr'.
          destruct (Nat.eq_dec r rank) as [->|Hne].
          -- rewrite (upd_same _ _ _ _ Eu). congruence.
          -- rewrite (upd_other _ _ _ r _ Eu) by lia. apply Ho2. lia.
        * intros y Hy. specialize (Hlt y Hy). pose proof (B_mono W n g rank (S rank)). lia.
        * intros r Hr'. destruct (Nat.eq_dec r rank) as [->|]; [lia|]. apply Hb. lia.
    - exists rank, offset. split; [reflexivity|]. split; [exact Hr|]. split; [exact Ho|].
      apply nth_error_None in Ex. intros x Hx. apply Hlt. rewrite firstn_all2 by lia. exact Hx.
  Qed.

  Lemma contig_offsets_spec fuel : length ids + W < fuel ->
    exists o, contig_offsets fuel W ids (n mod W) (Z.of_nat (n / W + 1)) g = Done o /\ length o = S W /\
      forall r, r < W -> nth_error o r = Some (below (B W n g r) ids).
  Proof.
    intros Hf. unfold contig_offsets.
    destruct (contig_loop_spec fuel 0 0 (repeat 0 (S W))) as (rank & offset & E & H1 & (H2 & H3) & H4); try lia.
    - split; [apply repeat_length|]. lia.
    - intros x [].
    - assert (E0 : B W n g 0 = g) by (unfold B, cum; cbn; lia). rewrite E0 in E.
      replace (n / W + 1) with (cnt_before W 0 n) by reflexivity. rewrite E.
      destruct (for_range_inv (fun k o => length o = S W /\ forall r, r < k -> nth_error o r = Some (below (B W n g r) ids)) rank (W - rank)
        (fun r o => upd o r (length ids)) offset) as (o & Eo & Hl & Ho).
      + split; assumption.
      + intros r o Hr [Hl Ho]. destruct (upd_some o r (length ids)) as [o' Eo']; [lia|]. exists o'. split; [exact Eo'|].
        split; [rewrite (upd_length _ _ _ _ Eo'); exact Hl|]. intros r' Hr'.
        destruct (Nat.eq_dec r' r) as [->|Hne].
        * rewrite (upd_same _ _ _ _ Eo'). rewrite below_all; [reflexivity|]. intros x Hx. specialize (H4 x Hx).
          pose proof (B_mono W n g rank r ltac:(lia)). lia.
        * rewrite (upd_other _ _ _ r' _ Eo') by lia. apply Ho. lia.
      + rewrite Eo. exists o. split; [reflexivity|]. split; [exact Hl|]. intros r Hr. apply Ho. lia.
  Qed.
End Contig.

Lemma zseq_below (g : Z) n k : k <= n -> below (g + Z.of_nat k) (map (fun i => (g + Z.of_nat i)%Z) (seq 0 n)) = k.
Proof.
  intros H. replace n with (k + (n - k)) by lia. rewrite seq_app, map_app, below_app.
  rewrite below_all, below_none; [rewrite map_length, seq_length; lia| |].
  - intros x Hx. apply in_map_iff in Hx as (i & <- & Hi). apply in_seq in Hi. lia.
  - intros x Hx. apply in_map_iff in Hx as (i & <- & Hi). apply in_seq in Hi. lia.
Qed.
Lemma below_perm b l l' : Permutation l l' -> below b l = below b l'.
Proof. unfold below. induction 1; cbn; try congruence; repeat destruct (_ <? b)%Z; cbn; congruence. Qed.
Lemma contiguous_perm (l : list Z) g : NoDup l -> (forall x, In x l -> (g <= x < g + Z.of_nat (length l))%Z) ->
  Permutation l (map (fun i => (g + Z.of_nat i)%Z) (seq 0 (length l))).
Proof.
  intros Hnd Hr. apply NoDup_Permutation_bis; [exact Hnd|rewrite map_length, seq_length; lia|].
  intros x Hx. apply in_map_iff. specialize (Hr x Hx). exists (Z.to_nat (x - g)). split; [lia|]. apply in_seq. lia.
Qed.
Lemma below_concat b lists : below b (concat lists) = nsum (map (below b) lists).
Proof. induction lists as [|l lists IH]; [reflexivity|]. cbn [concat map nsum]. rewrite below_app, IH. reflexivity. Qed.

Lemma zmax_list_ge x l z : In z (x :: l) -> (z <= zmax_list x l)%Z.
Proof.
  revert x z; induction l as [|y l IH]; intros x z Hz; cbn.
  - destruct Hz as [->|[]]. lia.
  - destruct Hz as [->|Hz]; [lia|]. specialize (IH y z Hz). lia.
Qed.
Lemma last_sorted x r z : StronglySorted Z.lt (x :: r) -> In z (x :: r) -> (z <= last r x)%Z.
Proof.
  revert x z; induction r as [|y r IH]; intros x z Hs Hz.
  - destruct Hz as [->|[]]. cbn. lia.
  - inversion Hs as [|a b Hs' Hall]; subst.
    assert (E : last (y :: r) x = last r y). { clear. revert x y. induction r as [|z r IH]; intros x y; [reflexivity|]. cbn in *. destruct r; [reflexivity|]. apply IH. }
    rewrite E. destruct Hz as [<-|Hz]; [|apply IH; assumption].
    specialize (IH y y Hs' (or_introl eq_refl)). inversion Hall; subst. lia.
Qed.
Lemma is_contiguous_range lists n g : Forall (StronglySorted Z.lt) lists -> is_contiguous lists (Z.of_nat n) = Some g ->
  forall x, In x (concat lists) -> (g <= x < g + Z.of_nat n)%Z.
Proof.
  intros Hs Hc x Hx. unfold is_contiguous in Hc.
  apply in_concat in Hx as (l & Hl & Hx). destruct l as [|a r]; [destruct Hx|].
  assert (Hf : In a (fronts lists)). { unfold fronts. apply in_flat_map. exists (a :: r). split; [exact Hl|left; reflexivity]. }
  assert (Hb : In (last r a) (backs lists)). { unfold backs. apply in_flat_map. exists (a :: r). split; [exact Hl|left; reflexivity]. }
  destruct (fronts lists) as [|f fs]; [discriminate|]. destruct (backs lists) as [|b bs]; [discriminate|].
  destruct (Z.eqb_spec (zmax_list b bs - zmin_list f fs + 1) (Z.of_nat n)) as [E|]; [|discriminate]. injection Hc as <-.
  pose proof (zmin_list_le _ _ _ Hf). pose proof (zmax_list_ge _ _ _ Hb).
  rewrite Forall_forall in Hs. specialize (Hs _ Hl). pose proof (last_sorted _ _ _ Hs Hx).
  assert (a <= x)%Z. { destruct Hx as [->|Hx]; [lia|]. inversion Hs as [|? ? _ Hall]; subst. rewrite Forall_forall in Hall. specialize (Hall x Hx). lia. }
  lia.
Qed.

Lemma mapRun_Forall2 {A B} (f : A -> run B) (Q : A -> B -> Prop) l : (forall x, In x l -> exists y, f x = Done y /\ Q x y) ->
  exists l', mapRun f l = Done l' /\ Forall2 Q l l'.
Proof.
  induction l as [|x l IH]; intros H; [exists []; split; [reflexivity|constructor]|].
  destruct (H x (or_introl eq_refl)) as (y & E & Hy). destruct IH as (l' & E' & H'). { intros z Hz. apply H. right; exact Hz. }
  exists (y :: l'). cbn. rewrite E, E'. split; [reflexivity|constructor; assumption].
Qed.

Lemma Forall2_Forall_r {A B} (P : B -> Prop) (Q : A -> B -> Prop) l l' : (forall x y, Q x y -> P y) -> Forall2 Q l l' -> Forall P l'.
Proof. intros H; induction 1; constructor; eauto. Qed.
Lemma Forall2_map_le {A} (f g : A -> nat) l : (forall x, f x <= g x) -> Forall2 le (map f l) (map g l).
Proof. intros H; induction l; cbn; constructor; auto. Qed.
Lemma map_eq_ext {A B C} (f : A -> C) (g : B -> C) l l' : Forall2 (fun x y => f x = g y) l l' -> map f l = map g l'.
Proof. induction 1; cbn; congruence. Qed.

Lemma colok_below lists g k : lists_ok lists -> (forall x, In x (concat lists) -> (g <= x < g + Z.of_nat (length (concat lists)))%Z) ->
  k <= length (concat lists) -> colok lists (map (below (g + Z.of_nat k)) lists) k.
Proof.
  intros [Hs Hnd] Hr Hk. split; [|split].
  - clear. induction lists; cbn; constructor; [apply below_le|assumption].
  - rewrite <- below_concat. rewrite (below_perm _ _ _ (contiguous_perm _ g Hnd Hr)). apply zseq_below. exact Hk.
  - intros p p' l l' o o' x y Hp Hp' Ho Ho' Hx Hy. rewrite nth_error_map, Hp in Ho. rewrite nth_error_map, Hp' in Ho'.
    injection Ho as <-. injection Ho' as <-. rewrite Forall_forall in Hs.
    pose proof (proj1 (below_split _ l (Hs _ (nth_error_In _ _ Hp))) x Hx).
    pose proof (proj2 (below_split _ l' (Hs _ (nth_error_In _ _ Hp'))) y Hy). lia.
Qed.

Lemma cum_mono W j j' n : j <= j' -> cum W j n <= cum W j' n.
Proof. induction 1 as [|j' H IH]; [lia|]. rewrite cum_S. lia. Qed.

Lemma partition_contig fuel lists g : lists_ok lists -> 1 <= length lists -> length (concat lists) + length lists < fuel ->
  is_contiguous lists (Z.of_nat (length (concat lists))) = Some g -> exists offs, partition fuel lists = Done offs /\ part_ok lists offs.
Proof.
  intros Hok HW Hf Hc. set (W := length lists) in *. set (n := length (concat lists)) in *.
  pose proof (is_contiguous_range _ _ _ (proj1 Hok) Hc) as Hr.
  unfold partition. fold W n. rewrite Hc.
  replace (Z.to_nat (Z.of_nat n mod Z.of_nat W)) with (n mod W) by (rewrite <- Nat2Z.inj_mod, Nat2Z.id; reflexivity).
  replace (Z.of_nat n / Z.of_nat W + 1)%Z with (Z.of_nat (n / W + 1)) by (rewrite <- Nat2Z.inj_div; lia).
  destruct (mapRun_Forall2 (fun ids => contig_offsets fuel W ids (n mod W) (Z.of_nat (n / W + 1)) g)
    (fun ids o => length o = S W /\ forall r, r < W -> nth_error o r = Some (below (B W n g r) ids)) lists) as (offs & E & HF).
  - intros ids Hin. apply contig_offsets_spec; [exact HW|exact (proj1 (Forall_forall _ _) (proj1 Hok) ids Hin)|..].
    + intros x Hx. apply Hr. apply in_concat. eauto.
    + assert (length ids <= n); [|lia]. unfold n. apply in_split in Hin as (a & b & ->). rewrite concat_app. cbn. rewrite !app_length. lia.
  - exists offs. split; [exact E|].
    assert (Hcol : forall j, j < W -> col j offs = map (below (B W n g j)) lists).
    { intros j Hj. symmetry. apply map_eq_ext. eapply Forall2_impl; [|exact HF]. intros ids o [_ H]. symmetry. apply nth_error_nth. auto. }
    assert (HlW : forall j, j < W -> cum W j n <= n) by (intros j Hj; apply cum_le; lia).
    split; [rewrite <- (Forall2_length_eq _ _ _ HF); reflexivity|]. split; [|split].
    + eapply Forall2_Forall_r; [|exact HF]. cbn. tauto.
    + intros j Hj. rewrite Hcol by exact Hj. apply colok_below; [exact Hok|exact Hr|]. fold n. auto.
    + intros j j' Hj Hj'. rewrite !Hcol by lia. apply Forall2_map_le. intros l. apply below_mono. apply B_mono. exact Hj.
Qed.

(** * Non-contiguous ids *)
Lemma total_left rs : Forall (fun r : cursor => snd r <= length (fst r)) rs ->
  left_over rs + nsum (map snd rs) = length (concat (map fst rs)).
Proof. induction 1 as [|r rs Hr HF IH]; cbn; [reflexivity|]. rewrite app_length. lia. Qed.

Lemma nsum_mono l l' : Forall2 le l l' -> nsum l <= nsum l'.
Proof. induction 1; cbn; lia. Qed.

Definition stride_inv (lists : list (list Z)) (i : nat) (rs : list cursor) (offs : list (list nat)) : Prop :=
  let W := length lists in let n := length (concat lists) in
  map fst rs = lists /\ Forall good rs /\ NoDup (concat (map rem rs)) /\ colok lists (map snd rs) (cum W i n) /\
  Forall2 (fun r row => length row = S W) rs offs /\
  (forall j, j < i -> colok lists (col j offs) (cum W j n)) /\
  (forall j, j < i -> Forall2 le (col j offs) (map snd rs)) /\
  (forall j j', j <= j' -> j' < i -> Forall2 le (col j offs) (col j' offs)).

Lemma Forall2_le_trans a b c : Forall2 le a b -> Forall2 le b c -> Forall2 le a c.
Proof. intros H; revert c; induction H; intros c' H'; inversion H'; subst; constructor; [lia|auto]. Qed.
Lemma Forall2_le_refl a : Forall2 le a a.
Proof. induction a; constructor; auto. Qed.

Lemma mapM_upd_col i W (rs : list cursor) offs : i <= W -> Forall2 (fun r row => length row = S W) rs offs ->
  exists offs', mapM (fun ro => upd (snd ro) i (snd (fst ro))) (combine rs offs) = Some offs' /\
    Forall2 (fun (r : cursor) (row : list nat) => length row = S W) rs offs' /\ col i offs' = map snd rs /\
    forall j, j <> i -> col j offs' = col j offs.
Proof.
  intros Hi. induction 1 as [|r row rs offs Hl HF (offs' & E & H1 & H2 & H3)].
  - exists []. split; [reflexivity|]. split; [constructor|]. auto.
  - cbn [combine mapM fst snd]. destruct (upd_some row i (snd r)) as [row' Er]; [lia|]. rewrite Er, E.
    exists (row' :: offs'). split; [reflexivity|]. split; [constructor; [rewrite (upd_length _ _ _ _ Er); exact Hl|exact H1]|].
    split.
    + cbn. f_equal; [|exact H2]. apply nth_error_nth. exact (upd_same _ _ _ _ Er).
    + intros j Hj. specialize (H3 j Hj). unfold col in *. cbn [map]. rewrite H3. f_equal.
      destruct (nth_error row j) eqn:En.
      * rewrite (nth_error_nth _ _ 0 En). apply nth_error_nth. rewrite (upd_other _ _ _ j _ Er) by lia. exact En.
      * rewrite !nth_overflow; [reflexivity| |]; apply nth_error_None; [exact En|]. rewrite (upd_other _ _ _ j _ Er) by lia. exact En.
Qed.

Lemma colok_step lists rs rs' k k' : map fst rs = lists -> map fst rs' = lists -> Forall good rs' -> Forall2 forward rs rs' ->
  colok lists (map snd rs) k -> nsum (map snd rs') = k' ->
  (forall x y, passed rs rs' x -> ahead rs' y -> (x < y)%Z) -> colok lists (map snd rs') k'.
Proof.
  intros Hf Hf' Hg HF (C1 & C2 & C3) Hk Hpa. split; [|split].
  - rewrite <- Hf'. clear - Hg. induction Hg as [|r rs' [_ H] HF IH]; cbn; constructor; assumption.
  - exact Hk.
  - intros p p' l l' o o' x y Hp Hp' Ho Ho' Hx Hy.
    assert (Hr : exists r, nth_error rs' p = Some r /\ fst r = l /\ snd r = o).
    { rewrite nth_error_map in Ho. rewrite <- Hf', nth_error_map in Hp. destruct (nth_error rs' p) as [r|]; [|discriminate].
      injection Ho as <-. injection Hp as <-. eauto. }
    destruct Hr as (r' & Hr' & <- & <-).
    assert (Hr : exists r, nth_error rs' p' = Some r /\ fst r = l' /\ snd r = o').
    { rewrite nth_error_map in Ho'. rewrite <- Hf', nth_error_map in Hp'. destruct (nth_error rs' p') as [r|]; [|discriminate].
      injection Ho' as <-. injection Hp' as <-. eauto. }
    destruct Hr as (s' & Hs' & <- & <-).
    destruct (Forall2_nth_r _ _ _ _ _ HF Hr') as (r & Hr & [F1 F2]).
    destruct (Forall2_nth_r _ _ _ _ _ HF Hs') as (s & Hs & [G1 G2]).
    assert (Hx' : In x (firstn (snd r) (fst r)) \/ In x (between (snd r) (snd r') (fst r))).
    { rewrite F1 in Hx. replace (firstn (snd r') (fst r)) with (between 0 (snd r') (fst r)) in Hx by (unfold between; rewrite Nat.sub_0_r; reflexivity).
      rewrite (between_app 0 (snd r)) in Hx by lia. apply in_app_iff in Hx. unfold between at 1 in Hx. rewrite Nat.sub_0_r in Hx. exact Hx. }
    destruct Hx' as [Hx'|Hx'].
    + apply (C3 p p' (fst r) (fst s) (snd r) (snd s)); try (rewrite <- Hf, nth_error_map, ?Hr, ?Hs; reflexivity);
        try (rewrite nth_error_map, ?Hr, ?Hs; reflexivity); [exact Hx'|].
      rewrite G1 in Hy. replace (snd s') with (snd s + (snd s' - snd s)) in Hy by lia. rewrite <- skipn_skipn in Hy.
      rewrite <- (firstn_skipn (snd s' - snd s) (skipn (snd s) (fst s))). apply in_or_app. right; exact Hy.
    + apply Hpa; [exists p, r, r'; auto|exists p', s'; auto].
Qed.

Lemma stride_offsets_spec fuel lists k i rs offs : i + k = length lists -> 1 <= length lists -> length (concat lists) < fuel ->
  stride_inv lists i rs offs ->
  exists rs' offs', stride_offsets fuel k i (length (concat lists) mod length lists) (Z.of_nat (cnt_before (length lists) i (length (concat lists)))) rs offs = Done (rs', offs') /\
    stride_inv lists (length lists) rs' offs'.
Proof.
  set (W := length lists). set (n := length (concat lists)).
  revert i rs offs; induction k as [|k IH]; intros i rs offs Hik HW Hf Hinv.
  - exists rs, offs. split; [reflexivity|]. replace W with i by lia. exact Hinv.
  - cbn [stride_offsets]. destruct Hinv as (I1 & I2 & I3 & I4 & I5 & I6 & I7 & I8). fold W n in I4, I5, I6.
    destruct (mapM_upd_col i W rs offs ltac:(lia) I5) as (offs' & E & U1 & U2 & U3). rewrite E.
    assert (Hnn : (if i =? n mod W then (Z.of_nat (cnt_before W i n) - 1)%Z else Z.of_nat (cnt_before W i n)) = Z.of_nat (cnt_at W i n)).
    { apply nnew_step. }
    rewrite Hnn.
    assert (Hlo : left_over rs + cum W i n = n).
    { destruct I4 as (_ & <- & _). unfold n. rewrite <- I1. apply total_left. eapply Forall_impl; [|exact I2]. intros r [_ H]. exact H. }
    assert (Hcs : cum W (S i) n <= n) by (apply cum_le; lia). rewrite cum_S in Hcs.
    destruct (parallel_stride_spec fuel rs (Z.of_nat (cnt_at W i n)) I2 I3) as (rs' & Es & P1 & P2 & P3 & P4 & P5); [lia|lia|].
    rewrite Es. rewrite <- cnt_before_S. apply IH; [lia|exact HW|exact Hf|].
    assert (F' : map fst rs' = lists).
    { rewrite <- I1. symmetry. apply map_eq_ext. eapply Forall2_impl; [|exact P1]. intros r r' [H _]. symmetry; exact H. }
    assert (Hlo' : left_over rs' + nsum (map snd rs') = n).
    { unfold n. rewrite <- F'. apply total_left. eapply Forall_impl; [|exact P2]. intros r [_ H]. exact H. }
    assert (Hle : Forall2 le (map snd rs) (map snd rs')).
    { clear - P1. induction P1 as [|r r' rs rs' [_ H] HF IH]; cbn; constructor; [lia|exact IH]. }
    split; [exact F'|]. split; [exact P2|]. split; [exact P3|]. split.
    { fold W n. eapply colok_step; [exact I1|exact F'|exact P2|exact P1|exact I4| |exact P5]. rewrite cum_S. lia. }
    split.
    { fold W. clear - P1 U1. revert offs' U1. induction P1; intros offs' U1; inversion U1; subst; constructor; [assumption|]. apply IHP1. assumption. }
    assert (Hi : forall j, j < S i -> j = i \/ j < i) by lia.
    split; [|split].
    + intros j Hj. destruct (Hi j Hj) as [->|Hj']; [rewrite U2; exact I4|rewrite U3 by lia; apply I6; exact Hj'].
    + intros j Hj. destruct (Hi j Hj) as [->|Hj']; [rewrite U2; exact Hle|rewrite U3 by lia; eapply Forall2_le_trans; [apply I7; exact Hj'|exact Hle]].
    + intros j j' Hjj Hj'. destruct (Hi j' Hj') as [->|Hj'']; destruct (Hi j ltac:(lia)) as [->|Hj'''].
      * apply Forall2_le_refl.
      * rewrite U2, U3 by lia. apply I7. exact Hj'''.
      * lia.
      * rewrite !U3 by lia. apply I8; assumption.
Qed.

Lemma partition_stride fuel lists : lists_ok lists -> 1 <= length lists -> length (concat lists) + length lists < fuel ->
  is_contiguous lists (Z.of_nat (length (concat lists))) = None -> exists offs, partition fuel lists = Done offs /\ part_ok lists offs.
Proof.
  intros [Hs Hnd] HW Hf Hc. set (W := length lists) in *. set (n := length (concat lists)) in *.
  unfold partition. fold W n. rewrite Hc.
  replace (Z.to_nat (Z.of_nat n mod Z.of_nat W)) with (n mod W) by (rewrite <- Nat2Z.inj_mod, Nat2Z.id; reflexivity).
  replace (Z.of_nat n / Z.of_nat W + 1)%Z with (Z.of_nat (cnt_before W 0 n)) by (unfold cnt_before; cbn; rewrite <- Nat2Z.inj_div; lia).
  destruct (stride_offsets_spec fuel lists W 0 (map (fun l => (l, 0)) lists) (map (fun _ => repeat 0 (S W)) lists)) as (rs & offs & E & H);
    [reflexivity|exact HW|fold n; lia| |].
  - assert (E1 : map fst (map (fun l : list Z => (l, 0)) lists) = lists) by (rewrite map_map; cbn; apply map_id).
    split; [exact E1|]. split.
    { apply Forall_map. eapply Forall_impl; [|exact Hs]. intros l Hl. split; [exact Hl|cbn; lia]. }
    split. { rewrite map_map. unfold rem; cbn. rewrite map_id. exact Hnd. }
    split.
    { split; [|split].
      - clear. induction lists; cbn; constructor; [lia|assumption].
      - fold W. unfold cum. cbn. clear. induction lists; cbn; auto.
      - intros p p' l l' o o' x y Hp Hp' Ho Ho' Hx Hy. rewrite map_map in Ho. cbn in Ho. rewrite nth_error_map in Ho.
        destruct (nth_error lists p); [|discriminate]. injection Ho as <-. destruct Hx. }
    split. { fold W. clearbody W. clear. induction lists; cbn [map]; constructor; [cbn; rewrite repeat_length; reflexivity|assumption]. }
    split; [lia|]. split; lia.
  - fold W n in E. rewrite E. destruct H as (I1 & I2 & I3 & I4 & I5 & I6 & I7 & I8). fold W n in I4, I5, I6.
    assert (Hall : forallb (fun r => snd r =? length (fst r)) rs = true).
    { destruct I4 as (J1 & J2 & _). rewrite cum_N in J2 by lia.
      assert (Hlo : left_over rs + nsum (map snd rs) = n).
      { unfold n. rewrite <- I1. apply total_left. eapply Forall_impl; [|exact I2]. intros r [_ H]. exact H. }
      assert (H0 : left_over rs = 0) by lia. clear - H0 I2. induction rs as [|r rs IH]; [reflexivity|].
      inversion I2 as [|a b [_ Hr] Hrs]; subst. cbn in *. rewrite IH by (auto; lia). rewrite andb_true_r. apply Nat.eqb_eq. lia. }
    rewrite Hall. exists offs. split; [reflexivity|]. split.
    { rewrite <- (Forall2_length_eq _ _ _ I5). rewrite <- I1. rewrite map_length. reflexivity. }
    split; [eapply Forall2_Forall_r; [|exact I5]; cbn; tauto|]. split.
    + intros j Hj. apply I6. exact Hj.
    + intros j j' Hj Hj'. apply I8; assumption.
Qed.

Lemma partition_spec fuel lists : lists_ok lists -> 1 <= length lists -> length (concat lists) + length lists < fuel ->
  exists offs, partition fuel lists = Done offs /\ part_ok lists offs.
Proof.
  intros Hok HW Hf. destruct (is_contiguous lists (Z.of_nat (length (concat lists)))) as [g|] eqn:E.
  - eapply partition_contig; eauto.
  - apply partition_stride; auto.
Qed.
