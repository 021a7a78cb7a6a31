(** Proofs for the axes of subhalos. *)
From Coq Require Import List Reals Lra Sorting.Permutation Sorting.Sorted.
From Verif.Model Require Import Eigen.
From Verif.Spec Require Import Eigen.
Import ListNotations.
Local Open Scope R_scope.

(** Orthonormal columns make orthonormal rows: the traces agree. *)
Lemma rows_norm u v w : dot u u = 1 -> dot v v = 1 -> dot w w = 1 -> dot u v = 0 -> dot u w = 0 -> dot v w = 0 ->
  forall x, dot x u * dot x u + dot x v * dot x v + dot x w * dot x w = dot x x.
Proof.
  destruct u as [[u1 u2] u3], v as [[v1 v2] v3], w as [[w1 w2] w3]. unfold dot. intros U V W UV UW VW [[x1 x2] x3].
  set (d := u1 * (v2 * w3 - v3 * w2) - v1 * (u2 * w3 - u3 * w2) + w1 * (u2 * v3 - u3 * v2)).
  (* every entry times the determinant is its cofactor *)
  assert (K : forall a1 a2 a3, d * a1 = (a1 * u1 + a2 * u2 + a3 * u3) * (v2 * w3 - v3 * w2) - (a1 * v1 + a2 * v2 + a3 * v3) * (u2 * w3 - u3 * w2) + (a1 * w1 + a2 * w2 + a3 * w3) * (u2 * v3 - u3 * v2)) by (intros; unfold d; ring).
  assert (K2 : forall a1 a2 a3, d * a2 = - (a1 * u1 + a2 * u2 + a3 * u3) * (v1 * w3 - v3 * w1) + (a1 * v1 + a2 * v2 + a3 * v3) * (u1 * w3 - u3 * w1) - (a1 * w1 + a2 * w2 + a3 * w3) * (u1 * v3 - u3 * v1)) by (intros; unfold d; ring).
  assert (K3 : forall a1 a2 a3, d * a3 = (a1 * u1 + a2 * u2 + a3 * u3) * (v1 * w2 - v2 * w1) - (a1 * v1 + a2 * v2 + a3 * v3) * (u1 * w2 - u2 * w1) + (a1 * w1 + a2 * w2 + a3 * w3) * (u1 * v2 - u2 * v1)) by (intros; unfold d; ring).
  assert (UV' : v1 * u1 + v2 * u2 + v3 * u3 = 0) by lra. assert (UW' : w1 * u1 + w2 * u2 + w3 * u3 = 0) by lra. assert (VW' : w1 * v1 + w2 * v2 + w3 * v3 = 0) by lra.
  pose proof (K u1 u2 u3) as A1. pose proof (K2 u1 u2 u3) as A2. pose proof (K3 u1 u2 u3) as A3. rewrite U, UV, UW in A1, A2, A3.
  pose proof (K v1 v2 v3) as B1. pose proof (K2 v1 v2 v3) as B2. pose proof (K3 v1 v2 v3) as B3. rewrite V, UV', VW in B1, B2, B3.
  pose proof (K w1 w2 w3) as C1. pose proof (K2 w1 w2 w3) as C2. pose proof (K3 w1 w2 w3) as C3. rewrite W, UW', VW' in C1, C2, C3.
  assert (Hd : d * d = 1).
  { transitivity (d * u1 * (v2 * w3 - v3 * w2) - d * u2 * (v1 * w3 - v3 * w1) + d * u3 * (v1 * w2 - v2 * w1)); [unfold d; ring|]. rewrite A1, A2, A3.
    transitivity ((v1 * v1 + v2 * v2 + v3 * v3) * (w1 * w1 + w2 * w2 + w3 * w3) - (v1 * w1 + v2 * w2 + v3 * w3) * (v1 * w1 + v2 * w2 + v3 * w3)); [ring|]. rewrite V, W, VW. ring. }
  assert (Hn : d <> 0) by (intros E; rewrite E in Hd; lra).
  set (p := x1 * u1 + x2 * u2 + x3 * u3). set (q := x1 * v1 + x2 * v2 + x3 * v3). set (r := x1 * w1 + x2 * w2 + x3 * w3).
  apply (Rmult_eq_reg_l d); [|exact Hn].
  transitivity (p * (x1 * (d * u1) + x2 * (d * u2) + x3 * (d * u3)) + q * (x1 * (d * v1) + x2 * (d * v2) + x3 * (d * v3)) + r * (x1 * (d * w1) + x2 * (d * w2) + x3 * (d * w3))); [unfold p, q, r; ring|].
  rewrite A1, A2, A3, B1, B2, B3, C1, C2, C3.
  transitivity (x1 * (d * x1) + x2 * (d * x2) + x3 * (d * x3)); [|ring]. rewrite (K x1 x2 x3), (K2 x1 x2 x3), (K3 x1 x2 x3). fold p q r. ring.
Qed.

(** The form of a sum of weighted dyads. *)
Definition form (g : R -> R -> R -> R -> R) (l : list (R * (R * R * R))) (v : R * R * R) : R :=
  fold_right (fun p acc => let '(m, (x, y, z)) := p in g m x y z * (dot (x, y, z) v * dot (x, y, z) v) + acc) 0 l.
Definition trace (g : R -> R -> R -> R -> R) (l : list (R * (R * R * R))) : R :=
  fold_right (fun p acc => let '(m, (x, y, z)) := p in g m x y z * dot (x, y, z) (x, y, z) + acc) 0 l.
Definition dyads (g : R -> R -> R -> R -> R) (l : list (R * (R * R * R))) : list R :=
  [reduction l (fun m x y z => x * x * g m x y z); reduction l (fun m x y z => x * y * g m x y z); reduction l (fun m x y z => x * z * g m x y z);
   reduction l (fun m x y z => y * y * g m x y z); reduction l (fun m x y z => y * z * g m x y z); reduction l (fun m x y z => z * z * g m x y z)].
Lemma form_ok g l v : dot v (apply_matrix (matrix_of (dyads g l)) v) = form g l v.
Proof.
  destruct v as [[a b] c]. induction l as [|[m [[x y] z]] l IH]; [cbn; ring|]. cbn [form fold_right]. fold (form g l (a, b, c)). rewrite <- IH. unfold dyads, matrix_of, apply_matrix, dot, reduction. cbn [fold_right]. ring.
Qed.
Lemma form_nonneg g l v : (forall m x y z, In (m, (x, y, z)) l -> 0 <= g m x y z) -> 0 <= form g l v.
Proof.
  intros H. induction l as [|[m [[x y] z]] l IH]; cbn [form fold_right]; [lra|]. fold (form g l v). specialize (IH (fun m' x' y' z' Hin => H m' x' y' z' (or_intror Hin))). pose proof (H m x y z (or_introl eq_refl)) as Hg.
  pose proof (Rmult_le_pos _ _ Hg (Rle_0_sqr (dot (x, y, z) v))) as Hs. unfold Rsqr in Hs. lra.
Qed.
Lemma form_trace g l u v w : dot u u = 1 -> dot v v = 1 -> dot w w = 1 -> dot u v = 0 -> dot u w = 0 -> dot v w = 0 ->
  form g l u + form g l v + form g l w = trace g l.
Proof.
  intros U V W UV UW VW. induction l as [|[m [[x y] z]] l IH]; cbn [form trace fold_right]; [lra|]. fold (form g l u) (form g l v) (form g l w) (trace g l). rewrite <- IH, <- (rows_norm u v w U V W UV UW VW (x, y, z)). ring.
Qed.

Lemma dot_stretch a b x y : dot (stretch a x) (stretch b y) = a * b * dot x y.
Proof. destruct x as [[x1 x2] x3], y as [[y1 y2] y3]. cbn. ring. Qed.
Lemma size_stretch a x : 0 <= a -> dot x x = 1 -> size (stretch a x) = a.
Proof. intros Ha Hx. unfold size. rewrite dot_stretch, Hx, Rmult_1_r. apply sqrt_square. exact Ha. Qed.
Lemma dot_comm x y : dot x y = dot y x.
Proof. destruct x as [[x1 x2] x3], y as [[y1 y2] y3]. cbn. ring. Qed.

Section Axes.
  Variables (symmv : vec3 * vec3 * vec3 -> list (R * vec3)) (sort_desc : list (R * vec3) -> list (R * vec3)).
  Hypothesis (Hsort : descending_sort sort_desc).

  Lemma axes_ok g l M : solves symmv (matrix_of (dyads g l)) -> 0 < M -> (forall m x y z, In (m, (x, y, z)) l -> 0 <= g m x y z) ->
    axes_of (map (fun I => I / M) (dyads g l)) M (trace g l)
      (map (fun p => let '(lambda, (x, y, z)) := p in (lambda * x, lambda * y, lambda * z)) (sort_desc (symmv (matrix_of (dyads g l))))).
  Proof.
    intros Hsym HM Hg. destruct Hsym as (a0 & u0 & b0 & v0 & c0 & w0 & E & E1 & E2 & E3 & U0 & V0 & W0 & UV0 & UW0 & VW0); [cbn; repeat split|].
    destruct (Hsort (symmv (matrix_of (dyads g l)))) as [P HS]. rewrite E in *.
    set (ev := fun p : R * vec3 => apply_matrix (matrix_of (dyads g l)) (snd p) = stretch (fst p) (snd p) /\ dot (snd p) (snd p) = 1).
    (* the sorted list has three pairwise orthogonal pairs again *)
    assert (S3 : exists p q r, sort_desc [(a0, u0); (b0, v0); (c0, w0)] = [p; q; r] /\ ev p /\ ev q /\ ev r /\ dot (snd p) (snd q) = 0 /\ dot (snd p) (snd r) = 0 /\ dot (snd q) (snd r) = 0).
    { assert (G : ForallOrdPairs (fun p q : R * vec3 => dot (snd p) (snd q) = 0) (sort_desc [(a0, u0); (b0, v0); (c0, w0)]) /\ Forall ev (sort_desc [(a0, u0); (b0, v0); (c0, w0)])).
      { split.
        - assert (Q0 : ForallOrdPairs (fun p q : R * vec3 => dot (snd p) (snd q) = 0) [(a0, u0); (b0, v0); (c0, w0)]) by (repeat constructor; assumption).
          revert Q0. apply Permutation_sym in P. generalize (sort_desc [(a0, u0); (b0, v0); (c0, w0)]) [(a0, u0); (b0, v0); (c0, w0)] P. clear. intros l1 l2 P. induction P as [|x l l' P IH|x y l|l l' l'' P1 IH1 P2 IH2]; intros Q0; auto.
          + inversion Q0 as [|? ? F Q]; subst. constructor; [rewrite <- P; exact F|apply IH; exact Q].
          + inversion Q0 as [|? ? F Q]; subst. inversion Q as [|? ? F' Q']; subst. apply Forall_cons_iff in F as [Fx F]. constructor; [constructor; [rewrite dot_comm; exact Fx|exact F']|]. constructor; assumption.
        - rewrite P. repeat constructor; assumption. }
      destruct G as [G1 G2]. pose proof (Permutation_length P) as L. destruct (sort_desc _) as [|p [|q [|r [|s t]]]]; try discriminate L. exists p, q, r. split; [reflexivity|].
      inversion G1 as [|? ? F Q]; subst. inversion Q as [|? ? F' Q']; subst. apply Forall_cons_iff in G2 as [Gp G2]. apply Forall_cons_iff in G2 as [Gq G2]. apply Forall_cons_iff in G2 as [Gr _]. apply Forall_cons_iff in F as [Fq F]. apply Forall_cons_iff in F as [Fr _]. apply Forall_cons_iff in F' as [F' _]. repeat (split; [assumption|]). assumption. }
    destruct S3 as (p & q & r & ES & (P1 & P2) & (Q1 & Q2) & (R1 & R2) & O1 & O2 & O3). rewrite ES in *. destruct p as [a u], q as [b v], r as [c w]. cbn [fst snd] in *.
    assert (NN : forall x d, apply_matrix (matrix_of (dyads g l)) x = stretch d x -> dot x x = 1 -> d = form g l x).
    { intros x d Hx H1. rewrite <- form_ok, Hx. replace (dot x (stretch d x)) with (d * dot x x) by (destruct x as [[x1 x2] x3]; cbn; ring). rewrite H1. ring. }
    pose proof (NN u a P1 P2) as Ea. pose proof (NN v b Q1 Q2) as Eb. pose proof (NN w c R1 R2) as Ec.
    assert (Na : 0 <= a) by (rewrite Ea; apply form_nonneg; exact Hg). assert (Nb : 0 <= b) by (rewrite Eb; apply form_nonneg; exact Hg). assert (Nc : 0 <= c) by (rewrite Ec; apply form_nonneg; exact Hg).
    exists (stretch a u), (stretch b v), (stretch c w).
    assert (EM : map (fun p => let '(lambda, (x, y, z)) := p in (lambda * x, lambda * y, lambda * z)) [(a, u); (b, v); (c, w)] = [stretch a u; stretch b v; stretch c w]).
    { destruct u as [[u1 u2] u3], v as [[v1 v2] v3], w as [[w1 w2] w3]. reflexivity. }
    unfold vec3 in *. rewrite EM. split; [reflexivity|].
    assert (AX : forall d x, 0 <= d -> dot x x = 1 -> apply_matrix (matrix_of (dyads g l)) x = stretch d x -> apply_matrix (matrix_of (map (fun I => I / M) (dyads g l))) (stretch d x) = stretch (size (stretch d x) / M) (stretch d x)).
    { intros d x Hd H1 Hx. rewrite (size_stretch d x Hd H1). destruct x as [[x1 x2] x3]. cbn in Hx |- *. injection Hx as X1 X2 X3.
      f_equal; [f_equal|].
      - match type of X1 with ?s = _ => transitivity (d / M * s); [field; lra|rewrite X1; reflexivity] end.
      - match type of X2 with ?s = _ => transitivity (d / M * s); [field; lra|rewrite X2; reflexivity] end.
      - match type of X3 with ?s = _ => transitivity (d / M * s); [field; lra|rewrite X3; reflexivity] end. }
    split; [intros x [<-|[<-|[<-|[]]]]; apply AX; assumption|].
    rewrite !dot_stretch, O1, O2, O3, !size_stretch by assumption. split; [ring|]. split; [ring|]. split; [ring|]. split.
    - split; [exact (HS 1%nat 2%nat _ _ ltac:(auto) eq_refl eq_refl)|exact (HS 0%nat 1%nat _ _ ltac:(auto) eq_refl eq_refl)].
    - rewrite Ea, Eb, Ec. apply form_trace; assumption.
  Qed.
End Axes.

(** A descending sort, for the witness. *)
Definition is_le (x y : R) : bool := if Rle_dec x y then true else false.
Fixpoint put_in (x : R * vec3) (l : list (R * vec3)) : list (R * vec3) :=
  match l with [] => [x] | y :: l' => if is_le (fst y) (fst x) then x :: l else y :: put_in x l' end.
Definition insertion (l : list (R * vec3)) : list (R * vec3) := fold_right put_in [] l.
Lemma put_in_perm x l : Permutation (put_in x l) (x :: l).
Proof. induction l as [|y l IH]; cbn; [reflexivity|]. destruct (is_le _ _); [reflexivity|]. rewrite IH. apply perm_swap. Qed.
Lemma put_in_sorted x l : StronglySorted (fun p q : R * vec3 => fst q <= fst p) l -> StronglySorted (fun p q : R * vec3 => fst q <= fst p) (put_in x l).
Proof.
  induction 1 as [|y l H IH Hy]; cbn; [repeat constructor|]. unfold is_le. destruct (Rle_dec (fst y) (fst x)) as [Hx|Hx].
  - constructor; [constructor; assumption|]. constructor; [exact Hx|]. eapply Forall_impl; [|exact Hy]. cbn. intros z Hz. lra.
  - constructor; [exact IH|]. rewrite put_in_perm. constructor; [lra|exact Hy].
Qed.
Lemma insertion_ok : descending_sort insertion.
Proof.
  intros l. split.
  - induction l as [|x l IH]; cbn; [reflexivity|]. rewrite put_in_perm, IH. reflexivity.
  - assert (H : StronglySorted (fun p q : R * vec3 => fst q <= fst p) (insertion l)) by (induction l as [|x l IH]; cbn; [constructor|apply put_in_sorted; exact IH]).
    induction H as [|x m H IH Hx]; intros i j p q Hij Hp Hq; [destruct i; discriminate|]. destruct j as [|j]; [inversion Hij|]. destruct i as [|i]; cbn in Hp, Hq.
    + injection Hp as <-. rewrite Forall_forall in Hx. apply Hx. exact (nth_error_In _ _ Hq).
    + apply (IH i j p q); [apply PeanoNat.Nat.succ_lt_mono; exact Hij|assumption|assumption].
Qed.
