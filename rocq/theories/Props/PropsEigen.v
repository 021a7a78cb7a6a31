(** The axes of subhalos: C96. *)
From Coq Require Import List Reals Lra Sorting.Permutation.
From Verif.Model Require Import Eigen.
From Verif.Spec Require Import Eigen.
From Verif.Proofs Require Import EigenProofs.
Import ListNotations.
Local Open Scope R_scope.

Lemma undo M t : M <> 0 -> map (fun x => M * x) (map (fun I => I / M) t) = t.
Proof. intros H. rewrite map_map. rewrite <- (map_id t) at 2. apply map_ext. intros x. field. exact H. Qed.

(** C96: if GSL's eigenvalue routines do what they document for the two tensors, a subhalo with at least two bound particles
    gets three mutually orthogonal axes of each tensor, the longest first.  Each is an eigenvector of the reported tensor, and
    its size is Mbound times the eigenvalue there.  The three sizes add up to the sum of m r^2 over the particles around the
    most bound one, for the weighted tensor to their mass. *)
Theorem C96_axes : forall symmv sort_desc l Mbound t tw axes axesw, shape symmv sort_desc l Mbound = (t, tw, axes, axesw) ->
  descending_sort sort_desc -> solves symmv (matrix_of (map (fun x => Mbound * x) t)) -> solves symmv (matrix_of (map (fun x => Mbound * x) tw)) ->
  l <> [] -> 0 < Mbound -> (forall m d, In (m, d) l -> 0 < m /\ 0 < dot d d) ->
  axes_of t Mbound (total (fun m d => m * dot d d) l) axes /\ axes_of tw Mbound (total (fun m d => m) l) axesw.
Proof.
  intros symmv sort_desc l M t tw axes axesw E Hs H1 H2 Hl HM Hp.
  set (g1 := fun m x y z : R => m). set (g2 := fun m x y z : R => / dr2_over_m m x y z).
  set (ax := fun g => map (fun p : R * vec3 => let '(lambda, (x, y, z)) := p in (lambda * x, lambda * y, lambda * z)) (sort_desc (symmv (matrix_of (dyads g l))))).
  assert (E' : shape symmv sort_desc l M = (map (fun I => I / M) (dyads g1 l), map (fun I => I / M) (dyads g2 l), ax g1, ax g2)) by (destruct l; [congruence|reflexivity]).
  rewrite E' in E. apply pair_equal_spec in E as [E Ew]. apply pair_equal_spec in E as [E Ea]. apply pair_equal_spec in E as [Et Etw]. rewrite <- Et, <- Etw, <- Ea, <- Ew in *. clear E' Et Etw Ea Ew. rewrite undo in H1, H2 by lra.
  assert (T1 : trace g1 l = total (fun m d => m * dot d d) l).
  { unfold trace, total. clear. induction l as [|[m [[x y] z]] l IH]; [reflexivity|]. cbn [fold_right fst snd]. rewrite IH. reflexivity. }
  assert (T2 : trace g2 l = total (fun m d => m) l).
  { unfold trace, total. clear -Hp. induction l as [|[m [[x y] z]] l IH]; [reflexivity|]. cbn [fold_right fst snd]. rewrite IH by (intros m' d Hd; apply Hp; right; exact Hd). f_equal.
    destruct (Hp m (x, y, z) (or_introl eq_refl)) as [Hm Hd]. unfold g2, dr2_over_m. cbn in *. field. split; lra. }
  rewrite <- T1, <- T2. split.
  - apply (axes_ok symmv sort_desc Hs g1 l M H1 HM). intros m x y z Hin. unfold g1. apply Hp in Hin as [Hin _]. lra.
  - apply (axes_ok symmv sort_desc Hs g2 l M H2 HM). intros m x y z Hin. unfold g2, dr2_over_m. apply Hp in Hin as [Hm Hd]. cbn in Hd. left. apply Rinv_0_lt_compat. apply Rdiv_lt_0_compat; assumption.
Qed.
Print Assumptions C96_axes.

(** A solver for diagonal matrices, for the witness. *)
Definition diagonal (m : vec3 * vec3 * vec3) : list (R * vec3) :=
  let '((a, _, _), (_, b, _), (_, _, c)) := m in [(c, (0, 0, 1)); (b, (0, 1, 0)); (a, (1, 0, 0))].
Lemma diagonal_ok a b c : solves diagonal ((a, 0, 0), (0, b, 0), (0, 0, c)).
Proof. intros _. exists c, (0, 0, 1), b, (0, 1, 0), a, (1, 0, 0). cbn. split; [reflexivity|]. repeat (split; [repeat (apply pair_equal_spec; split); lra|]). lra. Qed.
(** Three particles around the most bound one; total mass 10. *)
Definition three : list (R * vec3) := [(1, (2, 0, 0)); (3, (0, 1, 0)); (2, (0, 0, 1))].
Lemma three_shape : exists axes axesw, shape diagonal insertion three 10 = ([4 / 10; 0; 0; 3 / 10; 0; 2 / 10], [1 / 10; 0; 0; 3 / 10; 0; 2 / 10], axes, axesw).
Proof.
  eexists. eexists. unfold shape, three. cbn [map reduction fold_right]. unfold dr2_over_m. f_equal. f_equal. f_equal; repeat (apply (f_equal2 cons); [lra|]); reflexivity.
Qed.
Example C96_witness : exists t tw axes axesw, shape diagonal insertion three 10 = (t, tw, axes, axesw) /\ descending_sort insertion /\
  solves diagonal (matrix_of (map (fun x => 10 * x) t)) /\ solves diagonal (matrix_of (map (fun x => 10 * x) tw)) /\
  (forall m d, In (m, d) three -> 0 < m /\ 0 < dot d d) /\ axes_of t 10 9 axes /\ axes_of tw 10 6 axesw.
Proof.
  destruct three_shape as (axes & axesw & E). exists [4 / 10; 0; 0; 3 / 10; 0; 2 / 10], [1 / 10; 0; 0; 3 / 10; 0; 2 / 10], axes, axesw. split; [exact E|]. split; [exact insertion_ok|].
  assert (D1 : solves diagonal (matrix_of (map (fun x => 10 * x) [4 / 10; 0; 0; 3 / 10; 0; 2 / 10]))) by (cbn; rewrite Rmult_0_r; apply diagonal_ok).
  assert (D2 : solves diagonal (matrix_of (map (fun x => 10 * x) [1 / 10; 0; 0; 3 / 10; 0; 2 / 10]))) by (cbn; rewrite Rmult_0_r; apply diagonal_ok).
  assert (HP : forall m d, In (m, d) three -> 0 < m /\ 0 < dot d d) by (intros m d [H|[H|[H|[]]]]; injection H as <- <-; cbn; lra).
  split; [exact D1|]. split; [exact D2|]. split; [exact HP|].
  destruct (C96_axes _ _ _ _ _ _ _ _ E insertion_ok D1 D2 ltac:(discriminate) ltac:(lra) HP) as [A B].
  replace (total (fun m d => m * dot d d) three) with 9 in A by (cbn; lra). replace (total (fun m d => m) three) with 6 in B by (cbn; lra). split; assumption.
Qed.
(** C96: the comment in src/subhalo.h:73 ("amplitude equal to eigenvalue") does not hold for the reported tensor: for a
    subhalo the size of an axis is not its eigenvalue in InertialTensor, since that is divided by Mbound and the axes are not. *)
Theorem C96_amplitude_refuted : exists t tw axes axesw, shape diagonal insertion three 10 = (t, tw, axes, axesw) /\
  exists x, In x axes /\ size x <> 0 /\ apply_matrix (matrix_of t) x <> stretch (size x) x.
Proof.
  destruct C96_witness as (t & tw & axes & axesw & E & _ & _ & _ & _ & (u & v & w & -> & H & _ & _ & _ & Ho & Hs) & _). exists t, tw, [u; v; w], axesw. split; [exact E|]. exists u. split; [left; reflexivity|].
  assert (Hu : 3 <= size u) by lra. split; [lra|]. rewrite (H u (or_introl eq_refl)). intros C.
  assert (D : dot (stretch (size u / 10) u) u = dot (stretch (size u) u) u) by (rewrite C; reflexivity).
  assert (G : forall c, dot (stretch c u) u = c * (size u * size u)).
  { intros c. replace (size u * size u) with (dot u u); [destruct u as [[x y] z]; cbn; ring|]. unfold size. symmetry. apply sqrt_def. destruct u as [[x y] z]. cbn. pose proof (Rle_0_sqr x). pose proof (Rle_0_sqr y). pose proof (Rle_0_sqr z). unfold Rsqr in *. lra. }
  rewrite !G in D. assert (0 < size u * size u) by (apply Rmult_lt_0_compat; lra). apply Rmult_eq_reg_r in D; lra.
Qed.
Print Assumptions C96_amplitude_refuted.
