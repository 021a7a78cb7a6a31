(** Property C50: iteration over the particles of a range of objects. *)
From Coq Require Import List Lia Arith.
From Verif.Model Require Import ListMem Run Iterators.
From Verif.Proofs Require Import ListMemProofs ListExtra.
Import ListNotations.

Section Iter.
  Context {A : Type}.
  Variable objs : list (list A).
  (** What is still to come from position (h, p). *)
  Definition rest (h p : nat) : list A := match skipn h objs with [] => [] | l :: r => skipn p l ++ concat r end.
  Lemma skipn_step h l : nth_error objs h = Some l -> skipn h objs = l :: skipn (S h) objs.
  Proof. revert h. induction objs as [|x r IH]; intros [|h] H; try discriminate; cbn in *; [congruence|]. apply IH. exact H. Qed.
  Lemma rest_step h l p : nth_error objs h = Some l -> rest h p = skipn p l ++ concat (skipn (S h) objs).
  Proof. intros H. unfold rest. rewrite (skipn_step h l H). reflexivity. Qed.
  Lemma advance_ok : forall fuel it l, nth_error objs (it_halo it) = Some l -> it_part it <= length l -> length objs - it_halo it < fuel ->
    exists it', advance objs fuel it = Some it' /\ it_first it' = it_first it /\
      (is_end objs it' = true /\ rest (it_halo it) (it_part it) = [] \/
       exists l' x, nth_error objs (it_halo it') = Some l' /\ nth_error l' (it_part it') = Some x /\ it_part it' < length l' /\ rest (it_halo it') (it_part it') = rest (it_halo it) (it_part it)).
  Proof.
    induction fuel as [|f IH]; intros it l Hl Hp Hf; [lia|]. cbn [advance]. rewrite Hl. pose proof (nth_error_lt _ _ _ Hl) as Hlt. destruct (Nat.eqb_spec (it_part it) (length l)) as [E|E].
    - rewrite (rest_step _ _ _ Hl), E, skipn_all. cbn [app]. unfold is_end at 1. cbn [it_halo]. destruct (Nat.eqb_spec (S (it_halo it)) (length objs)) as [E2|E2].
      + eexists. split; [reflexivity|]. split; [reflexivity|]. left. split; [unfold is_end; cbn [it_halo reset init it_first]; apply Nat.eqb_eq; exact E2|]. rewrite E2, skipn_all. reflexivity.
      + destruct (nth_error_in_range objs (S (it_halo it))) as [l1 Hl1]; [lia|]. destruct (IH {| it_first := it_first it; it_halo := S (it_halo it); it_part := 0 |} l1 Hl1) as (it' & H1 & H2 & H3); [cbn; lia|cbn; lia|].
        exists it'. split; [exact H1|]. split; [exact H2|]. cbn [it_halo it_part] in H3. assert (Er : rest (S (it_halo it)) 0 = concat (skipn (S (it_halo it)) objs)) by (unfold rest; destruct (skipn (S (it_halo it)) objs); reflexivity). rewrite Er in H3. exact H3.
    - exists it. split; [reflexivity|]. split; [reflexivity|]. right. destruct (nth_error_in_range l (it_part it)) as [x Hx]; [lia|]. exists l, x. split; [exact Hl|]. split; [exact Hx|]. split; [lia|reflexivity].
  Qed.
  Lemma collect_ok : forall n it l, rest (it_halo it) (it_part it) = l -> length l < n ->
    (is_end objs it = true /\ l = [] \/ exists l' x, nth_error objs (it_halo it) = Some l' /\ nth_error l' (it_part it) = Some x) -> collect objs n it = Done l.
  Proof.
    induction n as [|n IH]; intros it l Hr Hn H; [lia|]. cbn [collect]. destruct H as [[-> ->]|(l' & x & Hl & Hx)]; [reflexivity|].
    pose proof (nth_error_lt _ _ _ Hl) as Hlt. pose proof (nth_error_lt _ _ _ Hx) as Hlx. unfold is_end. destruct (Nat.eqb_spec (it_halo it) (length objs)); [lia|]. unfold deref. rewrite Hl, Hx. unfold next.
    destruct (advance_ok (S (length objs)) {| it_first := it_first it; it_halo := it_halo it; it_part := S (it_part it) |} l' Hl) as (it' & -> & _ & H3); [cbn; lia|cbn; lia|]. cbn [it_halo it_part] in H3.
    assert (El : l = x :: rest (it_halo it) (S (it_part it))). { rewrite <- Hr, !(rest_step _ _ _ Hl). assert (Es : skipn (it_part it) l' = x :: skipn (S (it_part it)) l'). { revert Hx. clear. generalize (it_part it). induction l' as [|y r IHl]; intros [|k] H; try discriminate; cbn in *; [congruence|]. apply IHl. exact H. } rewrite Es. reflexivity. }
    rewrite El in Hn |- *. cbn [length] in Hn. destruct H3 as [[He Hz]|(l2 & x2 & H4 & H5 & _ & H7)].
    - rewrite Hz in *. rewrite (IH it' []); [reflexivity| |cbn; lia|left; auto]. unfold rest. unfold is_end in He. apply Nat.eqb_eq in He. rewrite He, skipn_all. reflexivity.
    - rewrite (IH it' (rest (it_halo it) (S (it_part it)))); [reflexivity|exact H7|lia|right; eauto].
  Qed.
  Lemma skip_ok : forall (l : list (list A)) k, concat (skipn (skip_empty k l - k) l) = concat l /\ k <= skip_empty k l <= k + length l /\ (skip_empty k l < k + length l -> exists x r, nth_error l (skip_empty k l - k) = Some (x :: r)).
  Proof.
    induction l as [|[|x r] l IH]; intros k; cbn [skip_empty].
    - rewrite Nat.sub_diag. cbn. split; [reflexivity|]. split; [lia|]. intros H. lia.
    - destruct (IH (S k)) as (H1 & H2 & H3). replace (skip_empty (S k) l - k) with (S (skip_empty (S k) l - S k)) by lia. cbn [skipn concat nth_error length]. split; [exact H1|]. split; [lia|]. intros H. apply H3. lia.
    - rewrite Nat.sub_diag. cbn. split; [reflexivity|]. split; [lia|]. intros _. eauto.
  Qed.
End Iter.

(** C50: for every list of objects, with empty ones anywhere, the loop ends without undefined behaviour after exactly the
    elements of all lists, in order; after a [reset] it does so again. *)
Theorem C50_concatenation : forall (A : Type) (objs : list (list A)) (fuel : nat), length (concat objs) < fuel ->
  collect objs fuel (init objs) = Done (concat objs) /\
  forall halo part, collect objs fuel (reset {| it_first := it_first (init objs); it_halo := halo; it_part := part |}) = Done (concat objs).
Proof.
  intros A objs fuel Hf. assert (H : collect objs fuel (init objs) = Done (concat objs)); [|split; [exact H|intros; exact H]].
  destruct (skip_ok objs 0) as (H1 & H2 & H3). rewrite Nat.sub_0_r in H1, H3. cbn [plus] in *. apply collect_ok; [|exact Hf|].
  - cbn [it_halo it_part init reset it_first]. rewrite <- H1. unfold rest. destruct (skipn _ objs); reflexivity.
  - cbn [it_halo it_part init reset it_first]. destruct (Nat.eq_dec (skip_empty 0 objs) (length objs)) as [E|E].
    + left. split; [unfold is_end; cbn [it_halo reset init it_first]; apply Nat.eqb_eq; exact E|]. rewrite <- H1, E, skipn_all. reflexivity.
    + right. destruct H3 as (x & r & Hx); [lia|]. exists (x :: r), x. split; [exact Hx|reflexivity].
Qed.
Print Assumptions C50_concatenation.
(** No element is reached after the end, and the position reported at each step is that of the element: the iterator starting
    anywhere inside yields exactly what follows. *)
Theorem C50_from_here : forall (A : Type) (objs : list (list A)) (first h p fuel : nat) l x, nth_error objs h = Some l -> nth_error l p = Some x ->
  length (concat objs) < fuel ->
  collect objs fuel {| it_first := first; it_halo := h; it_part := p |} = Done (skipn p l ++ concat (skipn (S h) objs)).
Proof.
  intros A objs first h p fuel l x Hl Hx Hf. assert (Er : rest objs h p = skipn p l ++ concat (skipn (S h) objs)) by (apply rest_step; exact Hl). rewrite <- Er. apply collect_ok; [reflexivity| |right; exists l, x; auto].
  rewrite Er. eapply Nat.le_lt_trans; [|exact Hf]. rewrite <- (firstn_skipn h objs) at 2. rewrite (skipn_step objs h l Hl), concat_app, !app_length. cbn [concat]. rewrite app_length, skipn_length. lia.
Qed.
Print Assumptions C50_from_here.
Example C50_witness : collect [[]; [1; 2]; []; []; [3]; []] 9 (init [[]; [1; 2]; []; []; [3]; []]) = Done [1; 2; 3] /\
  collect (A := nat) [[]; []] 9 (init (A := nat) [[]; []]) = Done [] /\ collect (A := nat) [] 9 (init (A := nat) []) = Done [].
Proof. repeat split. Qed.
