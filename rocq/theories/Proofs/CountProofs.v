(** Proofs about the counts by type. *)
From Coq Require Import List ZArith QArith Bool Lia Lqa Sorting.Permutation.
From Verif.Model Require Import ListMem Counts.
From Verif.Spec Require Import Counts.
From Verif.Proofs Require Import ListMemProofs MpiProofs.
Import ListNotations.
Local Open Scope nat_scope.

Lemma mass_app l m : (total_mass (l ++ m) == total_mass l + total_mass m)%Q.
Proof. unfold total_mass. induction l as [|p l IH]; cbn [fold_right app]; [lra|]. rewrite IH. lra. Qed.
Lemma mass_perm l m : Permutation l m -> (total_mass l == total_mass m)%Q.
Proof. unfold total_mass. induction 1; cbn [fold_right]; lra. Qed.
Lemma type_app t l m : of_type t (l ++ m) = of_type t l ++ of_type t m.
Proof. apply filter_app. Qed.
Lemma type_perm t l m : Permutation l m -> Permutation (of_type t l) (of_type t m).
Proof.
  unfold of_type. induction 1 as [|x l m _ IH|x y l|l m k _ IH1 _ IH2]; cbn [filter]; [constructor| | |eapply perm_trans; eassumption].
  - destruct (q_type x =? t); [apply perm_skip|]; exact IH.
  - destruct (q_type x =? t), (q_type y =? t); try apply Permutation_refl. apply perm_swap.
Qed.
Lemma tallies_perm l m c : Permutation l m -> tallies_of l c -> tallies_of m c.
Proof.
  intros HP [[A A'] [B C]]. constructor.
  - split; [exact A|]. intros t n Hn. rewrite (A' t n Hn). apply Permutation_length, type_perm, HP.
  - split; [exact B|]. intros t q Hq. rewrite (C t q Hq). apply mass_perm, type_perm, HP.
Qed.
Lemma no_tallies_ok : tallies_of [] no_tallies.
Proof.
  constructor; (split; [reflexivity|]).
  - intros t n Hn. cbn [fst no_tallies] in Hn. apply nth_error_In, repeat_spec in Hn. subst n. reflexivity.
  - intros t m Hm. cbn [snd no_tallies] in Hm. apply nth_error_In, repeat_spec in Hm. subst m. reflexivity.
Qed.
Lemma tally_ok l c p : tallies_of l c -> q_type p < type_max -> exists c', tally p c = Some c' /\ tallies_of (l ++ [p]) c'.
Proof.
  intros [[A A'] [B B']] Ht. destruct c as [ns ms]. cbn [fst snd] in *. unfold tally. cbn [fst snd].
  destruct (nth_error ns (q_type p)) as [n|] eqn:En; [|apply nth_error_None in En; lia]. destruct (nth_error ms (q_type p)) as [m|] eqn:Em; [|apply nth_error_None in Em; lia].
  destruct (upd_some ns (q_type p) (S n)) as [ns' E1]; [lia|]. destruct (upd_some ms (q_type p) (m + q_mass p)%Q) as [ms' E2]; [lia|]. rewrite E1, E2. eexists. split; [reflexivity|].
  constructor; cbn [fst snd].
  - split; [rewrite (upd_length _ _ _ _ E1); exact A|]. intros t k Hk. rewrite (upd_nth _ _ _ _ _ E1) in Hk. rewrite type_app, app_length. unfold of_type at 2. cbn [filter]. rewrite (Nat.eqb_sym (q_type p) t). destruct (Nat.eqb_spec t (q_type p)) as [->|Hne].
    + injection Hk as <-. rewrite (A' _ _ En). cbn. lia.
    + rewrite (A' _ _ Hk). cbn. lia.
  - split; [rewrite (upd_length _ _ _ _ E2); exact B|]. intros t k Hk. rewrite (upd_nth _ _ _ _ _ E2) in Hk. rewrite type_app, mass_app. unfold of_type at 2. cbn [filter]. rewrite (Nat.eqb_sym (q_type p) t). destruct (Nat.eqb_spec t (q_type p)) as [->|Hne].
    + injection Hk as <-. rewrite (B' _ _ Em). unfold total_mass. cbn [fold_right]. lra.
    + rewrite (B' _ _ Hk). unfold total_mass. cbn [fold_right]. lra.
Qed.
Lemma tally_all m : typed m -> forall l c, tallies_of l c -> exists c', for_each m tally c = Some c' /\ tallies_of (l ++ m) c'.
Proof.
  induction 1 as [|p m Hp Hm IH]; intros l c Hc; [exists c; rewrite app_nil_r; auto|].
  destruct (tally_ok l c p Hc Hp) as (c1 & E1 & H1). destruct (IH _ _ H1) as (c2 & E2 & H2). exists c2. cbn [for_each]. rewrite E1, E2. rewrite <- app_assoc in H2. auto.
Qed.
Lemma add_ok l m a b : tallies_of l a -> tallies_of m b -> tallies_of (l ++ m) (add_tallies a b).
Proof.
  intros [[A A'] [B B']] [[C C'] [D D']]. constructor; cbn [add_tallies fst snd]; (split; [rewrite map_length, combine_length; lia|]).
  - intros t n Hn. rewrite nth_error_map in Hn. destruct (nth_error (combine (fst a) (fst b)) t) as [[x y]|] eqn:E; [|discriminate]. cbn in Hn. injection Hn as <-. apply combine_nth_error_inv in E as [E1 E2].
    rewrite (A' _ _ E1), (C' _ _ E2), type_app, app_length. reflexivity.
  - intros t n Hn. rewrite nth_error_map in Hn. destruct (nth_error (combine (snd a) (snd b)) t) as [[x y]|] eqn:E; [|discriminate]. cbn in Hn. injection Hn as <-. apply combine_nth_error_inv in E as [E1 E2].
    rewrite (B' _ _ E1), (D' _ _ E2), type_app, mass_app. reflexivity.
Qed.
(** The particles with these indices. *)
Definition picked (parts : list particle) (ix : list nat) : list particle := flat_map (fun i => match nth_error parts i with Some p => [p] | None => [] end) ix.
Lemma thread_ok parts ix : (forall i, In i ix -> exists p, nth_error parts i = Some p /\ q_type p < type_max) -> exists c, count_thread parts ix = Some c /\ tallies_of (picked parts ix) c.
Proof.
  intros Hix. unfold count_thread. cut (forall l c, tallies_of l c -> exists c', for_each ix (fun i t => match nth_error parts i with Some p => tally p t | None => None end) c = Some c' /\ tallies_of (l ++ picked parts ix) c').
  { intros H. exact (H [] no_tallies no_tallies_ok). }
  induction ix as [|i ix IH]; intros l c Hc; [exists c; cbn; rewrite app_nil_r; auto|]. cbn [for_each picked flat_map].
  destruct (Hix i (or_introl eq_refl)) as (p & Ep & Hp). rewrite Ep. destruct (tally_ok l c p Hc Hp) as (c1 & E1 & H1).
  destruct (IH (fun j Hj => Hix j (or_intror Hj)) _ _ H1) as (c2 & E2 & H2). exists c2. rewrite E1, E2. rewrite <- app_assoc in H2. auto.
Qed.
Lemma picked_app parts a b : picked parts (a ++ b) = picked parts a ++ picked parts b.
Proof. apply flat_map_app. Qed.
Lemma parallel_ok parts threads : (forall i, In i (concat threads) -> exists p, nth_error parts i = Some p /\ q_type p < type_max) -> exists c, count_parallel parts threads = Some c /\ tallies_of (picked parts (concat threads)) c.
Proof.
  intros Hix. unfold count_parallel. cut (forall l c, tallies_of l c -> exists c', for_each threads (fun ix t => option_map (add_tallies t) (count_thread parts ix)) c = Some c' /\ tallies_of (l ++ picked parts (concat threads)) c').
  { intros H. exact (H [] no_tallies no_tallies_ok). }
  induction threads as [|ix ts IH]; intros l c Hc; [exists c; cbn; rewrite app_nil_r; auto|]. cbn [for_each concat] in *.
  destruct (thread_ok parts ix) as (c1 & E1 & H1). { intros i Hi. apply Hix, in_or_app. auto. }
  destruct (IH (fun j Hj => Hix j (in_or_app _ _ _ (or_intror Hj))) _ _ (add_ok _ _ _ _ Hc H1)) as (c2 & E2 & H2). exists c2. rewrite E1. cbn [option_map]. rewrite E2. rewrite picked_app, app_assoc. auto.
Qed.
Lemma picked_seq parts k : forall a n, n <= length parts -> a + k = n -> picked parts (seq a k) = firstn k (skipn a parts).
Proof.
  induction k as [|k IH]; intros a n Hn Ha; [reflexivity|]. cbn [seq picked flat_map]. destruct (nth_error parts a) as [p|] eqn:Ep; [|apply nth_error_None in Ep; lia].
  change (flat_map _ (seq (S a) k)) with (picked parts (seq (S a) k)). rewrite (IH (S a) n) by lia. assert (E : skipn a parts = p :: skipn (S a) parts).
  { clear -Ep. revert a Ep. induction parts as [|q l IHl]; intros [|a] Ep; cbn in *; try discriminate; [congruence|apply IHl; exact Ep]. }
  rewrite E. reflexivity.
Qed.
Lemma picked_perm parts a b : Permutation a b -> Permutation (picked parts a) (picked parts b).
Proof. intros H. apply Permutation_flat_map. exact H. Qed.
(** The numbers of all types together. *)
Lemma types_all l : typed l -> length l = list_sum (map (fun t => length (of_type t l)) (seq 0 type_max)) /\
  (total_mass l == fold_right Qplus 0 (map (fun t => total_mass (of_type t l)) (seq 0 type_max)))%Q.
Proof.
  induction 1 as [|p l Hp Hl [IH1 IH2]]; [split; reflexivity|]. unfold type_max in *. cbn [seq map list_sum fold_right] in *.
  cbn [length total_mass fold_right]. fold (total_mass l). rewrite IH1, IH2. unfold of_type. cbn [filter].
  assert (Hc : q_type p = 0 \/ q_type p = 1 \/ q_type p = 2 \/ q_type p = 3 \/ q_type p = 4 \/ q_type p = 5) by lia.
  destruct Hc as [->|[->|[->|[->|[->| ->]]]]]; cbn [Nat.eqb length total_mass fold_right]; split; try lia; unfold total_mass; cbn [fold_right]; lra.
Qed.
Lemma six {A} (l : list A) : length l = type_max -> exists a b c d e f, l = [a; b; c; d; e; f].
Proof. destruct l as [|a [|b [|c [|d [|e [|f [|? ?]]]]]]]; cbn; intros H; try discriminate. repeat eexists. Qed.
Lemma tallies_sum l c : typed l -> tallies_of l c -> list_sum (fst c) = length l /\ (fold_left Qplus (snd c) 0 == total_mass l)%Q.
Proof.
  intros HT [[A A'] [B B']]. destruct (types_all l HT) as [E1 E2]. rewrite E1, E2. destruct c as [ns ms]. cbn [fst snd] in *. apply six in A as (n0 & n1 & n2 & n3 & n4 & n5 & ->). apply six in B as (m0 & m1 & m2 & m3 & m4 & m5 & ->).
  unfold type_max. cbn [seq map list_sum fold_right fold_left]. rewrite (A' 0 _ eq_refl), (A' 1 _ eq_refl), (A' 2 _ eq_refl), (A' 3 _ eq_refl), (A' 4 _ eq_refl), (A' 5 _ eq_refl). split; [reflexivity|].
  rewrite (B' 0 _ eq_refl), (B' 1 _ eq_refl), (B' 2 _ eq_refl), (B' 3 _ eq_refl), (B' 4 _ eq_refl), (B' 5 _ eq_refl). lra.
Qed.
Lemma serial_skip l c : (forall p, In p l -> q_id p <> (-1)%Z) -> for_each l (fun p t => if Z.eqb (q_id p) (-1) then Some t else tally p t) c = for_each l tally c.
Proof.
  revert c. induction l as [|p l IH]; intros c H; [reflexivity|]. cbn [for_each]. rewrite (proj2 (Z.eqb_neq _ _) (H p (or_introl eq_refl))). destruct (tally p c); [|reflexivity]. apply IH. intros q Hq. apply H. right. exact Hq.
Qed.
Lemma tallies_unique l a b : tallies_of l a -> tallies_of l b -> fst a = fst b /\ Forall2 Qeq (snd a) (snd b).
Proof.
  intros [[A A'] [B B']] [[C C'] [D D']]. destruct a as [ns ms], b as [ns' ms']. cbn [fst snd] in *. split.
  - apply nth_error_ext. intros i. destruct (nth_error ns i) as [n|] eqn:E1; destruct (nth_error ns' i) as [n'|] eqn:E2; [rewrite (A' _ _ E1), (C' _ _ E2); reflexivity| | |reflexivity].
    + apply nth_error_None in E2. assert (i < length ns) by (apply nth_error_Some; congruence). lia.
    + apply nth_error_None in E1. assert (i < length ns') by (apply nth_error_Some; congruence). lia.
  - apply six in B as (m0 & m1 & m2 & m3 & m4 & m5 & ->). apply six in D as (k0 & k1 & k2 & k3 & k4 & k5 & ->).
    repeat constructor; [rewrite (B' 0 _ eq_refl), (D' 0 _ eq_refl)|rewrite (B' 1 _ eq_refl), (D' 1 _ eq_refl)|rewrite (B' 2 _ eq_refl), (D' 2 _ eq_refl)|rewrite (B' 3 _ eq_refl), (D' 3 _ eq_refl)|rewrite (B' 4 _ eq_refl), (D' 4 _ eq_refl)|rewrite (B' 5 _ eq_refl), (D' 5 _ eq_refl)]; reflexivity.
Qed.
