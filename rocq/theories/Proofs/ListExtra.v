(** General lemmas about lists used by several proofs. *)
From Coq Require Import List ZArith Bool Lia Sorting.Permutation.
From Verif.Model Require Import ListMem.
From Verif.Proofs Require Import ListMemProofs.
Import ListNotations.
Local Open Scope nat_scope.

Lemma nth_firstn {A} n (l : list A) i : nth_error (firstn n l) i = if i <? n then nth_error l i else None.
Proof.
  revert l i; induction n as [|n IH]; intros l i; [destruct i; reflexivity|]. destruct l as [|x l].
  - cbn [firstn]. destruct (i <? S n); destruct i; reflexivity.
  - destruct i as [|i]; [reflexivity|]. cbn [firstn nth_error]. rewrite IH. reflexivity.
Qed.
Lemma nth_skipn {A} n (l : list A) i : nth_error (skipn n l) i = nth_error l (n + i).
Proof. revert l; induction n as [|n IH]; intros l; [reflexivity|]. destruct l as [|x l]; [destruct i; reflexivity|]. cbn. apply IH. Qed.
Lemma firstn_snoc {A} n (l : list A) x : nth_error l n = Some x -> firstn (S n) l = firstn n l ++ [x].
Proof. revert l; induction n as [|n IH]; intros [|y l] H; cbn in H; try discriminate; [injection H as ->; reflexivity|]. cbn. f_equal. apply IH. exact H. Qed.
Lemma skipn_cons {A} n (l : list A) x : nth_error l n = Some x -> skipn n l = x :: skipn (S n) l.
Proof. revert l; induction n as [|n IH]; intros [|y l] H; cbn in H; try discriminate; [injection H as ->; reflexivity|]. cbn. apply IH. exact H. Qed.
Lemma upd_firstn {A} (l l' : list A) i x n : upd l i x = Some l' -> n <= i -> firstn n l' = firstn n l.
Proof.
  intros H Hn. apply nth_error_ext. intros j. rewrite !nth_firstn. destruct (Nat.ltb_spec j n); [|reflexivity].
  apply (upd_other _ _ _ _ _ H). lia.
Qed.
Lemma nth_seq n a i : nth_error (seq a n) i = if i <? n then Some (a + i) else None.
Proof.
  revert a i; induction n as [|n IH]; intros a i; [destruct i; reflexivity|]. destruct i as [|i]; [cbn; f_equal; lia|]. cbn [seq nth_error]. rewrite IH.
  replace (S i <? S n) with (i <? n) by reflexivity. destruct (i <? n); [f_equal; lia|reflexivity].
Qed.
Lemma in_nth_iff {A} (l : list A) x : In x l <-> exists i, nth_error l i = Some x.
Proof. split; [apply In_nth_error|intros [i H]; eapply nth_error_In; eauto]. Qed.
Lemma perm_filter {A} (f : A -> bool) l l' : Permutation l l' -> Permutation (filter f l) (filter f l').
Proof.
  induction 1; cbn.
  - constructor.
  - destruct (f x); [constructor|]; assumption.
  - destruct (f x), (f y); try constructor; apply Permutation_refl.
  - eapply perm_trans; eauto.
Qed.
Lemma perm_concat {A} (l l' : list (list A)) : Permutation l l' -> Permutation (concat l) (concat l').
Proof.
  induction 1; cbn.
  - constructor.
  - apply Permutation_app_head; assumption.
  - rewrite !app_assoc. apply Permutation_app_tail. apply Permutation_app_comm.
  - eapply perm_trans; eauto.
Qed.
Lemma perm_concat2 {A} (l l' : list (list A)) : Forall2 (@Permutation A) l l' -> Permutation (concat l) (concat l').
Proof. induction 1; cbn; [constructor|]. apply Permutation_app; assumption. Qed.
Lemma NoDup_map_inj {A B} (f : A -> B) l : (forall x y, In x l -> In y l -> f x = f y -> x = y) -> NoDup l -> NoDup (map f l).
Proof.
  intros Hf Hn. induction Hn as [|x l Hx Hn IH]; cbn; [constructor|]. constructor.
  - intros Hi. apply in_map_iff in Hi as (y & E & Hy). apply Hx. rewrite (Hf x y); auto; [left|right]; auto.
  - apply IH. intros a b Ha Hb. apply Hf; right; assumption.
Qed.
Lemma NoDup_map_inv_eq {A B} (f : A -> B) l x y : NoDup (map f l) -> In x l -> In y l -> f x = f y -> x = y.
Proof.
  induction l as [|a l IH]; cbn; [intros _ []|]. intros Hn [<-|Hx] [<-|Hy] E; inversion Hn as [|? ? H1 H2]; subst; auto.
  - exfalso. apply H1. rewrite E. apply in_map. exact Hy.
  - exfalso. apply H1. rewrite <- E. apply in_map. exact Hx.
Qed.
Lemma Forall2_nth {A B} (P : A -> B -> Prop) l l' i x : Forall2 P l l' -> nth_error l i = Some x -> exists y, nth_error l' i = Some y /\ P x y.
Proof. intros H; revert i; induction H as [|a b l l' H1 H2 IH]; intros [|i] E; cbn in *; try discriminate; [injection E as <-; eauto|]. apply IH. exact E. Qed.
Lemma Forall2_of_nth {A B} (P : A -> B -> Prop) l l' : length l = length l' -> (forall i x y, nth_error l i = Some x -> nth_error l' i = Some y -> P x y) -> Forall2 P l l'.
Proof.
  revert l'; induction l as [|a l IH]; intros [|b l'] HL HP; try discriminate; constructor.
  - apply (HP 0); reflexivity.
  - apply IH; [cbn in HL; lia|]. intros i. apply (HP (S i)).
Qed.
Lemma Forall2_map_eq {A B C} (f : A -> C) (g : B -> C) l l' : Forall2 (fun a b => f a = g b) l l' -> map f l = map g l'.
Proof. induction 1; cbn; [reflexivity|]. f_equal; assumption. Qed.
Lemma nth_error_split2 {A} (l : list A) i x : nth_error l i = Some x -> l = firstn i l ++ x :: skipn (S i) l.
Proof. intros H. rewrite <- (firstn_skipn i l) at 1. f_equal. apply skipn_cons. exact H. Qed.
Lemma firstn_incl {A} (l : list A) n x : In x (firstn n l) -> In x l.
Proof. intros H. rewrite <- (firstn_skipn n l). apply in_or_app. left; exact H. Qed.
Lemma skipn_incl {A} (l : list A) n x : In x (skipn n l) -> In x l.
Proof. intros H. rewrite <- (firstn_skipn n l). apply in_or_app. right; exact H. Qed.
