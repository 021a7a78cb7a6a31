(** Proofs about the Python reader. *)
From Coq Require Import List ZArith QArith Lia Lqa Bool Permutation Sorted Arith.
From Verif.Model Require Import Mpi Reader.
From Verif.Spec Require Import Reader.
Import ListNotations.
Local Open Scope Z_scope.

Lemma py_index_nat : forall A (l : list A) i, py_index l (Z.of_nat i) = nth_error l i.
Proof. intros A l i. unfold py_index. destruct (Z.ltb_spec (Z.of_nat i) 0); [lia|]. rewrite Nat2Z.id. reflexivity. Qed.
Lemma py_index_nonneg : forall A (l : list A) i, 0 <= i -> py_index l i = nth_error l (Z.to_nat i).
Proof. intros A l i H. unfold py_index. destruct (Z.ltb_spec i 0); [lia|reflexivity]. Qed.

Section Files.
  Variables (sub part : Type) (TrackId Birth : sub -> Z) (disk : Z -> option nat -> option (file sub part)).
  Variables (r : reader) (isnap : Z) (fs : list (file sub part)).
  Hypotheses (Hh : holds disk (the_snapshot r isnap) fs) (Hn : nfiles r <> 0%nat).

  Lemma open_is : forall i, open disk r isnap i = nth_error fs i.
  Proof using Hh Hn. intros i. unfold open. destruct (Nat.eqb_spec (nfiles r) 0); [congruence|]. apply Hh. Qed.
  Lemma range_is : file_range r = seq 0 (nfiles r).
  Proof using Hn. unfold file_range. f_equal. lia. Qed.

  Lemma nth_from : forall k g, nth_error fs k = Some g -> skipn k fs = g :: skipn (S k) fs.
  Proof using. clear. induction fs as [|f t IH]; intros [|k] g E; cbn in *; try discriminate; [injection E as ->; reflexivity|]. rewrite (IH k g E). destruct t; reflexivity. Qed.

  Lemma load_files_is : forall B (select : list sub -> list B) n k, select [] = [] -> (k + n <= length fs)%nat ->
    load_files disk r select isnap (seq k n) = Some (concat (map (fun f => select (f_subhalos f)) (firstn n (skipn k fs)))).
  Proof using Hh Hn.
    intros B select n. induction n as [|n IH]; intros k Hs L; [reflexivity|]. cbn [seq load_files]. rewrite open_is.
    destruct (nth_error fs k) as [f|] eqn:E; [|apply nth_error_None in E; lia]. rewrite IH by (assumption || lia).
    rewrite (nth_from k f E). cbn [firstn map concat]. destruct (Nat.eqb_spec (length (f_subhalos f)) 0) as [Z|Z]; [|reflexivity].
    destruct (f_subhalos f); [rewrite Hs; reflexivity|discriminate].
  Qed.
  Lemma load_files_short : forall B (select : list sub -> list B) n k, (length fs < k + n)%nat -> (0 < n)%nat ->
    load_files disk r select isnap (seq k n) = None.
  Proof using Hh Hn.
    intros B select n. induction n as [|n IH]; intros k L P; [lia|]. cbn [seq load_files]. rewrite open_is.
    destruct (nth_error fs k) as [f|] eqn:E; [|reflexivity]. assert (k < length fs)%nat by (apply nth_error_Some; congruence).
    rewrite IH by lia. reflexivity.
  Qed.
  Lemma load_index_is : forall n k off i, (k + n <= length fs)%nat -> off <= i ->
    load_index disk r isnap i off (seq k n) =
    Some (match nth_error (concat (map f_subhalos (firstn n (skipn k fs)))) (Z.to_nat (i - off)) with Some s => [s] | None => [] end).
  Proof using Hh Hn.
    intros n. induction n as [|n IH]; intros k off i L P; [cbn; destruct (Z.to_nat (i - off)); reflexivity|]. cbn [seq load_index]. rewrite open_is.
    destruct (nth_error fs k) as [f|] eqn:E; [|apply nth_error_None in E; lia]. rewrite (nth_from k f E). cbn [firstn map concat].
    destruct (Z.eqb_spec (Z.of_nat (length (f_subhalos f))) 0) as [Z|Z].
    { destruct (f_subhalos f); [|cbn in Z; lia]. cbn [app]. apply IH; lia. }
    destruct (Z.ltb_spec i (off + Z.of_nat (length (f_subhalos f)))) as [Lt|Ge].
    - rewrite py_index_nonneg by lia. rewrite nth_error_app1 by lia.
      destruct (nth_error (f_subhalos f) (Z.to_nat (i - off))) eqn:E2; [reflexivity|]. apply nth_error_None in E2. lia.
    - rewrite IH by lia. rewrite nth_error_app2 by lia.
      replace (Z.to_nat (i - off) - length (f_subhalos f))%nat with (Z.to_nat (i - (off + Z.of_nat (length (f_subhalos f))))) by lia. reflexivity.
  Qed.
  Lemma list_at_is : forall B (get : file sub part -> list B) count n k off i, (forall f, In f fs -> count f = length (get f)) ->
    (k + n <= length fs)%nat -> off <= i ->
    list_at disk r get count isnap i off (seq k n) = nth_error (concat (map get (firstn n (skipn k fs)))) (Z.to_nat (i - off)).
  Proof using Hh Hn.
    intros B get count n. induction n as [|n IH]; intros k off i Hc L P; [cbn; destruct (Z.to_nat (i - off)); reflexivity|]. cbn [seq list_at]. rewrite open_is.
    destruct (nth_error fs k) as [f|] eqn:E; [|apply nth_error_None in E; lia]. rewrite (nth_from k f E). cbn [firstn map concat].
    rewrite (Hc f (nth_error_In _ _ E)).
    destruct (Z.ltb_spec i (off + Z.of_nat (length (get f)))) as [Lt|Ge].
    - rewrite py_index_nonneg by lia. rewrite nth_error_app1 by lia. reflexivity.
    - rewrite IH by (assumption || lia). rewrite nth_error_app2 by lia. f_equal. lia.
  Qed.
  Lemma mapM_open : forall n k, (k + n <= length fs)%nat -> mapM (open disk r isnap) (seq k n) = Some (firstn n (skipn k fs)).
  Proof using Hh Hn.
    intros n. induction n as [|n IH]; intros k L; [reflexivity|]. cbn [seq mapM]. rewrite open_is.
    destruct (nth_error fs k) as [f|] eqn:E; [|apply nth_error_None in E; lia]. rewrite IH by lia. rewrite (nth_from k f E). reflexivity.
  Qed.
End Files.

Lemma flatnonzero_first : forall A (test : A -> bool) l from x i, nth_error l i = Some x -> test x = true ->
  (forall j y, (j < i)%nat -> nth_error l j = Some y -> test y = false) -> exists t, flatnonzero test l from = (from + Z.of_nat i) :: t.
Proof.
  intros A test l. induction l as [|a l IH]; intros from x i E T F; [destruct i; discriminate|]. cbn [flatnonzero]. destruct i as [|i].
  - injection E as ->. rewrite T. cbn [app]. eexists. f_equal. lia.
  - rewrite (F 0%nat a) by (lia || reflexivity). cbn [app]. destruct (IH (from + 1) x i E T) as [t Et].
    { intros j y L Ey. apply (F (S j) y); [lia|exact Ey]. }
    exists t. rewrite Et. f_equal. lia.
Qed.
Lemma flatnonzero_none : forall A (test : A -> bool) l from, (forall x, In x l -> test x = false) -> flatnonzero test l from = [].
Proof. intros A test l. induction l as [|a l IH]; intros from F; [reflexivity|]. cbn. rewrite (F a) by (left; reflexivity). apply IH. intros; apply F; right; assumption. Qed.

(** * Exclusive particles. *)
Lemma insert_size_perm : forall e l, Permutation (insert_by_size e l) (e :: l).
Proof. intros e l. induction l as [|x l IH]; cbn; [reflexivity|]. destruct (_ <=? _)%nat; [reflexivity|]. rewrite IH. apply perm_swap. Qed.
Lemma sort_size_perm : forall l, Permutation (sort_by_size l) l.
Proof. intros l. induction l as [|x l IH]; cbn; [reflexivity|]. rewrite insert_size_perm, IH. reflexivity. Qed.
Lemma insert_index_perm : forall e l, Permutation (insert_by_index e l) (e :: l).
Proof. intros e l. induction l as [|x l IH]; cbn; [reflexivity|]. destruct (_ <=? _)%nat; [reflexivity|]. rewrite IH. apply perm_swap. Qed.
Lemma sort_index_perm : forall l, Permutation (sort_by_index l) l.
Proof. intros l. induction l as [|x l IH]; cbn; [reflexivity|]. rewrite insert_index_perm, IH. reflexivity. Qed.
(** Order of the turns: by size, then by index. *)
Definition before (a b : nat * list Z) : Prop := (length (snd a) < length (snd b))%nat \/ length (snd a) = length (snd b) /\ (fst a < fst b)%nat.
Lemma before_trans : forall a b c, before a b -> before b c -> before a c.
Proof. unfold before. intros. lia. Qed.
Lemma insert_size_sorted : forall e l, StronglySorted before l -> (forall e', In e' l -> (fst e < fst e')%nat) -> StronglySorted before (insert_by_size e l).
Proof.
  intros e l S. induction S as [|x l S IH F]; intros H; cbn; [repeat constructor|].
  assert (Hx := H x (or_introl eq_refl)). destruct (Nat.leb_spec (length (snd e)) (length (snd x))) as [L|L].
  - assert (B : before e x) by (unfold before; lia). constructor; [constructor; assumption|]. constructor; [exact B|].
    rewrite Forall_forall in *. intros y Y. apply before_trans with x; auto.
  - constructor; [apply IH; intros; apply H; right; assumption|]. rewrite Forall_forall in *. intros y Y.
    apply (Permutation_in _ (insert_size_perm e l)) in Y. destruct Y as [<-|Y]; [unfold before; lia|auto].
Qed.
Lemma sort_size_sorted : forall l, StronglySorted (fun a b => (fst a < fst b)%nat) l -> StronglySorted before (sort_by_size l).
Proof.
  intros l S. induction S as [|x l S IH F]; cbn; [constructor|]. apply insert_size_sorted; [exact IH|]. intros e' I.
  apply (Permutation_in _ (sort_size_perm l)) in I. rewrite Forall_forall in F. auto.
Qed.
Lemma insert_index_sorted : forall e l, StronglySorted (fun a b => (fst a <= fst b)%nat) l -> StronglySorted (fun a b => (fst a <= fst b)%nat) (insert_by_index e l).
Proof.
  intros e l S. induction S as [|x l S IH F]; cbn; [repeat constructor|]. destruct (Nat.leb_spec (fst e) (fst x)) as [L|L].
  - constructor; [constructor; assumption|]. constructor; [exact L|]. rewrite Forall_forall in *. intros y Y. specialize (F y Y). cbn in F. lia.
  - constructor; [exact IH|]. rewrite Forall_forall in *. intros y Y. apply (Permutation_in _ (insert_index_perm e l)) in Y. destruct Y as [<-|Y]; [lia|auto].
Qed.
Lemma sort_index_sorted : forall l, StronglySorted (fun a b => (fst a <= fst b)%nat) (sort_by_index l).
Proof. intros l. induction l as [|x l IH]; cbn; [constructor|]. apply insert_index_sorted, IH. Qed.

Lemma sorted_indices : forall l k, StronglySorted (fun a b => (fst a <= fst b)%nat) l -> Permutation (map fst l) (seq k (length l)) ->
  map (@fst nat (list Z)) l = seq k (length l).
Proof.
  intros l. induction l as [|x l IH]; intros k S P; [reflexivity|]. cbn [map length seq] in *. apply StronglySorted_inv in S. destruct S as [S F].
  assert (E : fst x = k).
  { assert (I1 : In (fst x) (k :: seq (Datatypes.S k) (length l))) by (apply (Permutation_in _ P); left; reflexivity).
    assert (I2 : In k (fst x :: map fst l)) by (apply (Permutation_in _ (Permutation_sym P)); left; reflexivity).
    destruct I1 as [I1|I1]; [congruence|]. apply in_seq in I1. destruct I2 as [I2|I2]; [congruence|]. apply in_map_iff in I2. destruct I2 as (y & Ey & Iy).
    rewrite Forall_forall in F. specialize (F y Iy). lia. }
  rewrite E in *. f_equal. apply IH; [exact S|]. apply Permutation_cons_inv in P. exact P.
Qed.

Lemma mem_spec : forall x l, mem x l = true <-> In x l.
Proof.
  intros x l. unfold mem. rewrite existsb_exists. split; [intros (y & I & E); apply Z.eqb_eq in E; subst; exact I|]. intros I. exists x. split; [exact I|apply Z.eqb_refl].
Qed.

Section Exclusive.
  Variable as_list : list Z -> list Z.
  Hypothesis Hl : forall l, Permutation (as_list l) l.
  (** What is left for a subhalo: its ids (each once) that are in no list with several ids processed before. *)
  Lemma take_turns_fst : forall l repo, map fst (take_turns as_list l repo) = map fst l.
  Proof using. intros l. induction l as [|[i p] l IH]; intros repo; cbn [take_turns map fst]; [reflexivity|]. destruct (1 <? length p)%nat; cbn [map fst]; rewrite IH; reflexivity. Qed.
  Lemma take_turns_is : forall l repo i q, In (i, q) (take_turns as_list l repo) ->
    exists l1 p l2, l = l1 ++ (i, p) :: l2 /\
      if (1 <? length p)%nat
      then NoDup q /\ forall x, In x q <-> In x p /\ ~ In x repo /\ forall e, In e l1 -> (1 < length (snd e))%nat -> ~ In x (snd e)
      else q = p.
  Proof using Hl.
    intros l. induction l as [|[i0 p0] l IH]; intros repo i q I; [destruct I|]. cbn [take_turns] in I.
    destruct (1 <? length p0)%nat eqn:B.
    - destruct I as [I|I].
      + injection I as <- <-. exists [], p0, l. split; [reflexivity|]. rewrite B.
        set (p' := filter (fun x => negb (mem x repo)) (nodup Z.eq_dec p0)). split.
        * apply (Permutation_NoDup (Permutation_sym (Hl p'))). apply NoDup_filter, NoDup_nodup.
        * intros x. split.
          -- intros X. apply (Permutation_in _ (Hl p')), filter_In in X. destruct X as [X1 X2]. apply nodup_In in X1. split; [exact X1|].
             split; [|intros e []]. rewrite <- mem_spec. destruct (mem x repo); [discriminate|congruence].
          -- intros (X1 & X2 & _). apply (Permutation_in _ (Permutation_sym (Hl p'))), filter_In. split; [apply nodup_In; exact X1|].
             rewrite <- mem_spec in X2. destruct (mem x repo); [congruence|reflexivity].
      + destruct (IH _ _ _ I) as (l1 & p & l2 & E & H). exists ((i0, p0) :: l1), p, l2. split; [rewrite E; reflexivity|].
        destruct (1 <? length p)%nat; [|exact H]. destruct H as [H1 H2]. split; [exact H1|]. intros x. rewrite H2. rewrite in_app_iff, filter_In, nodup_In.
        apply Nat.ltb_lt in B. split.
        * intros (X1 & X2 & X3). split; [exact X1|]. split; [tauto|]. intros e [<-|Ie] Le; [|auto]. cbn [snd]. intros Xp. apply X2. right. split; [exact Xp|].
          destruct (mem x repo) eqn:M; [|reflexivity]. apply mem_spec in M. tauto.
        * intros (X1 & X2 & X3). split; [exact X1|]. split; [|intros; apply X3; [right|]; assumption].
          intros [X|[X _]]; [tauto|]. exact (X3 (i0, p0) (or_introl eq_refl) B X).
    - destruct I as [I|I].
      + injection I as <- <-. exists [], p0, l. split; [reflexivity|]. rewrite B. reflexivity.
      + destruct (IH _ _ _ I) as (l1 & p & l2 & E & H). exists ((i0, p0) :: l1), p, l2. split; [rewrite E; reflexivity|].
        destruct (1 <? length p)%nat; [|exact H]. destruct H as [H1 H2]. split; [exact H1|]. intros x. rewrite H2.
        split; intros (X1 & X2 & X3); (split; [exact X1|]; split; [exact X2|]); intros e Ie Le; [|apply X3; [right|]; assumption].
        destruct Ie as [<-|Ie]; [|auto]. cbn [snd] in Le. apply Nat.ltb_ge in B. lia.
  Qed.
End Exclusive.

Lemma combine_in : forall (parts : list (list Z)) k i p, In (i, p) (combine (seq k (length parts)) parts) <-> (k <= i)%nat /\ nth_error parts (i - k) = Some p.
Proof.
  intros parts. induction parts as [|q t IH]; intros k i p; cbn [length seq combine In].
  - split; [intros []|]. intros [_ E]. destruct (i - k)%nat; discriminate.
  - rewrite IH. split.
    + intros [E|[L E]]; [injection E as <- <-; rewrite Nat.sub_diag; auto|]. split; [lia|]. replace (i - k)%nat with (S (i - S k)) by lia. exact E.
    + intros [L E]. destruct (Nat.eq_dec i k) as [->|N]; [rewrite Nat.sub_diag in E; injection E as ->; left; reflexivity|].
      right. split; [lia|]. replace (i - k)%nat with (S (i - S k)) in E by lia. exact E.
Qed.
Lemma combine_sorted : forall (parts : list (list Z)) k, StronglySorted (fun a b => (fst a < fst b)%nat) (combine (seq k (length parts)) parts).
Proof.
  intros parts. induction parts as [|q t IH]; intros k; cbn [length seq combine]; constructor; [apply IH|]. apply Forall_forall. intros [i p] I.
  apply combine_in in I. cbn. lia.
Qed.
