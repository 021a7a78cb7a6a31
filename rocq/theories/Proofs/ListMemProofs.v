From Coq Require Import List ZArith Bool Lia Arith Sorting.Permutation.
From Coq Require Import ZifyBool ZifyNat.
From Verif.Model Require Import ListMem.
Import ListNotations.

Lemma upd_some {A} (l : list A) i x : i < length l -> exists l', upd l i x = Some l'.
Proof.
  revert i; induction l as [|y l IH]; intros [|i] H; simpl in *; try lia; eauto.
  destruct (IH i) as [l' ->]; [lia|eauto].
Qed.
Lemma upd_length {A} (l l' : list A) i x : upd l i x = Some l' -> length l' = length l.
Proof.
  revert i l'; induction l as [|y l IH]; intros [|i] l' H; simpl in *; try discriminate.
  - inversion H; reflexivity.
  - destruct (upd l i x) as [r|] eqn:E; [|discriminate]. inversion H; subst. simpl. rewrite (IH _ _ E). reflexivity.
Qed.
Lemma upd_lt {A} (l l' : list A) i x : upd l i x = Some l' -> i < length l.
Proof.
  revert i l'; induction l as [|y l IH]; intros [|i] l' H; simpl in *; try discriminate; [lia|].
  destruct (upd l i x) as [r|] eqn:E; [|discriminate]. specialize (IH _ _ E). lia.
Qed.
Lemma upd_same {A} (l l' : list A) i x : upd l i x = Some l' -> nth_error l' i = Some x.
Proof.
  revert i l'; induction l as [|y l IH]; intros [|i] l' H; simpl in *; try discriminate.
  - inversion H; reflexivity.
  - destruct (upd l i x) as [r|] eqn:E; [|discriminate]. inversion H; subst. simpl. eauto.
Qed.
Lemma upd_other {A} (l l' : list A) i j x : upd l i x = Some l' -> j <> i -> nth_error l' j = nth_error l j.
Proof.
  revert i j l'; induction l as [|y l IH]; intros [|i] j l' H Hj; simpl in *; try discriminate.
  - inversion H; subst. destruct j; [lia|reflexivity].
  - destruct (upd l i x) as [r|] eqn:E; [|discriminate]. inversion H; subst.
    destruct j; [reflexivity|]. simpl. eauto.
Qed.
Lemma upd_nth {A} (l l' : list A) i j x : upd l i x = Some l' ->
  nth_error l' j = if Nat.eqb j i then Some x else nth_error l j.
Proof.
  intros H. destruct (Nat.eqb_spec j i) as [->|Hj]; [eapply upd_same; eauto|eapply upd_other; eauto].
Qed.
Lemma upd_none {A} (l : list A) i x : length l <= i -> upd l i x = None.
Proof.
  revert i; induction l as [|y l IH]; intros [|i] H; simpl in *; try reflexivity; try lia.
  rewrite IH by lia. reflexivity.
Qed.
Lemma upd_firstn_skipn {A} (l : list A) i x : i < length l -> upd l i x = Some (firstn i l ++ x :: skipn (S i) l).
Proof.
  revert i; induction l as [|y l IH]; intros [|i] H; simpl in *; try lia; try reflexivity.
  rewrite IH by lia. reflexivity.
Qed.
Lemma upd_map {A B} (f : A -> B) (l l' : list A) i x : upd l i x = Some l' -> upd (map f l) i (f x) = Some (map f l').
Proof.
  revert i l'; induction l as [|y l IH]; intros [|i] l' H; simpl in *; try discriminate.
  - inversion H; reflexivity.
  - destruct (upd l i x) as [r|] eqn:E; [|discriminate]. inversion H; subst. rewrite (IH _ _ E). reflexivity.
Qed.
Lemma upd_self {A} (l : list A) i x : nth_error l i = Some x -> upd l i x = Some l.
Proof.
  revert i; induction l as [|y l IH]; intros [|i] H; simpl in *; try discriminate.
  - inversion H; reflexivity.
  - rewrite IH by assumption. reflexivity.
Qed.

Lemma zget_nat {A} (l : list A) i : (0 <= i)%Z -> zget l i = nth_error l (Z.to_nat i).
Proof. intros H. unfold zget. destruct (Z.ltb_spec i 0); [lia|reflexivity]. Qed.
Lemma zupd_nat {A} (l : list A) i x : (0 <= i)%Z -> zupd l i x = upd l (Z.to_nat i) x.
Proof. intros H. unfold zupd. destruct (Z.ltb_spec i 0); [lia|reflexivity]. Qed.
Lemma zget_some {A} (l : list A) i x : zget l i = Some x -> (0 <= i < Z.of_nat (length l))%Z.
Proof.
  unfold zget. destruct (Z.ltb_spec i 0); [discriminate|]. intros H1.
  assert (Z.to_nat i < length l) by (apply nth_error_Some; congruence). lia.
Qed.
Lemma zget_in_range {A} (l : list A) i : (0 <= i < Z.of_nat (length l))%Z -> exists x, zget l i = Some x.
Proof.
  intros H. rewrite zget_nat by lia. destruct (nth_error l (Z.to_nat i)) eqn:E; [eauto|].
  apply nth_error_None in E. lia.
Qed.
Lemma zupd_some {A} (l : list A) i x : (0 <= i < Z.of_nat (length l))%Z -> exists l', zupd l i x = Some l'.
Proof. intros H. rewrite zupd_nat by lia. apply upd_some. lia. Qed.
Lemma zupd_length {A} (l l' : list A) i x : zupd l i x = Some l' -> length l' = length l.
Proof. unfold zupd. destruct (i <? 0)%Z; [discriminate|]. apply upd_length. Qed.
Lemma zupd_range {A} (l l' : list A) i x : zupd l i x = Some l' -> (0 <= i < Z.of_nat (length l))%Z.
Proof. unfold zupd. destruct (Z.ltb_spec i 0); [discriminate|]. intros H1. apply upd_lt in H1. lia. Qed.
Lemma zget_zupd {A} (l l' : list A) i j x : zupd l i x = Some l' ->
  zget l' j = if Z.eqb j i then Some x else zget l j.
Proof.
  intros H. pose proof (zupd_range _ _ _ _ H) as Hr. rewrite zupd_nat in H by lia.
  unfold zget. destruct (Z.ltb_spec j 0).
  - destruct (Z.eqb_spec j i); [lia|reflexivity].
  - rewrite (upd_nth _ _ _ (Z.to_nat j) _ H).
    destruct (Nat.eqb_spec (Z.to_nat j) (Z.to_nat i)); destruct (Z.eqb_spec j i); try lia; reflexivity.
Qed.

Lemma for_range_inv {S} (P : nat -> S -> Prop) i0 n body (s : S) :
  P i0 s ->
  (forall i s, i0 <= i < i0 + n -> P i s -> exists s', body i s = Some s' /\ P (Datatypes.S i) s') ->
  exists s', for_range i0 n body s = Some s' /\ P (i0 + n) s'.
Proof.
  revert i0 s; induction n as [|n IH]; intros i0 s H0 Hs.
  - exists s. rewrite Nat.add_0_r. split; [reflexivity|exact H0].
  - cbn [for_range]. destruct (Hs i0 s) as (s1 & E & H1); [lia|exact H0|].
    rewrite E. destruct (IH (Datatypes.S i0) s1) as (s' & E' & H').
    + exact H1.
    + intros i t Hi Ht. apply Hs; [lia|exact Ht].
    + exists s'. split; [exact E'|]. replace (i0 + Datatypes.S n) with (Datatypes.S i0 + n) by lia. exact H'.
Qed.

Lemma for_each_inv {A S} (P : list A -> S -> Prop) l body (s : S) :
  P [] s ->
  (forall pre x post s, l = pre ++ x :: post -> P pre s -> exists s', body x s = Some s' /\ P (pre ++ [x]) s') ->
  exists s', for_each l body s = Some s' /\ P l s'.
Proof.
  intros H0 Hs.
  assert (Hgen : forall post pre s, l = pre ++ post -> P pre s -> exists s', for_each post body s = Some s' /\ P l s').
  { induction post as [|x post IH]; intros pre t Hl Ht.
    - exists t. rewrite app_nil_r in Hl. subst. split; [reflexivity|exact Ht].
    - cbn [for_each]. destruct (Hs pre x post t Hl Ht) as (t1 & E & H1). rewrite E.
      apply (IH (pre ++ [x])); [rewrite <- app_assoc; exact Hl|exact H1]. }
  apply (Hgen l [] s); [reflexivity|exact H0].
Qed.

Lemma nth_error_ext {A} (l l' : list A) : (forall i, nth_error l i = nth_error l' i) -> l = l'.
Proof.
  revert l'; induction l as [|x l IH]; intros [|y l'] H.
  - reflexivity.
  - specialize (H 0); discriminate.
  - specialize (H 0); discriminate.
  - pose proof (H 0) as H0. simpl in H0. inversion H0; subst. f_equal. apply IH.
    intros i. apply (H (S i)).
Qed.
Lemma nth_error_lt {A} (l : list A) i x : nth_error l i = Some x -> i < length l.
Proof. intros H. apply nth_error_Some. congruence. Qed.
Lemma nth_error_in_range {A} (l : list A) i : i < length l -> exists x, nth_error l i = Some x.
Proof. intros H. destruct (nth_error l i) eqn:E; [eauto|]. apply nth_error_None in E. lia. Qed.

Lemma Forall2_impl {A B} (P Q : A -> B -> Prop) l l' : (forall a b, P a b -> Q a b) -> Forall2 P l l' -> Forall2 Q l l'.
Proof. intros H; induction 1; constructor; auto. Qed.

Lemma skipn_skipn {A} a b (l : list A) : skipn a (skipn b l) = skipn (b + a) l.
Proof. revert l; induction b; intros [|x l]; cbn; try reflexivity; [destruct a; reflexivity|apply IHb]. Qed.

Lemma NoDup_app_remove_r {A} (l m : list A) : NoDup (l ++ m) -> NoDup l.
Proof. induction l as [|x l IH]; intros H; [constructor|]. cbn in H. inversion H as [|y r Hn Hr]; subst. constructor; [|auto]. intros Hx. apply Hn. apply in_or_app. left; exact Hx. Qed.
Lemma NoDup_app_remove_l {A} (l m : list A) : NoDup (l ++ m) -> NoDup m.
Proof. induction l as [|x l IH]; intros H; [exact H|]. inversion H; subst. auto. Qed.
Lemma NoDup_app_disjoint {A} (l m : list A) x : NoDup (l ++ m) -> In x l -> In x m -> False.
Proof.
  induction l as [|y l IH]; intros H Hl Hm; [destruct Hl|]. inversion H as [|z r Hn Hr]; subst. destruct Hl as [->|Hl]; [|auto].
  apply Hn. apply in_or_app. right; exact Hm.
Qed.
Lemma NoDup_app_intro {A} (l m : list A) : NoDup l -> NoDup m -> (forall x, In x l -> In x m -> False) -> NoDup (l ++ m).
Proof.
  induction l as [|y l IH]; intros Hl Hm Hd; [exact Hm|]. inversion Hl as [|z r Hn Hr]; subst. cbn. constructor.
  - rewrite in_app_iff. intros [Hy|Hy]; [contradiction|]. apply (Hd y); [left; reflexivity|exact Hy].
  - apply IH; auto. intros x Hx. apply Hd. right; exact Hx.
Qed.
