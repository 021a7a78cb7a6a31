(** Lemmas about forests. *)
From Coq Require Import List ZArith Bool Lia Sorting.Permutation.
From Verif.Spec Require Import Forest.
From Verif.Proofs Require Import ListMemProofs ListExtra.
Import ListNotations.
Local Open Scope Z_scope.

Section Ind.
  Variable P : tree -> Prop.
  Hypothesis HN : forall i ts, Forall P ts -> P (Node i ts).
  Fixpoint tree_rect' (t : tree) : P t :=
    match t with Node i ts => HN i ts ((fix go l := match l return Forall P l with [] => Forall_nil _ | t :: r => Forall_cons _ (tree_rect' t) (go r) end) ts) end.
End Ind.

Lemma in_flat {A B} (f : A -> list B) l y : In y (flat_map f l) <-> exists x, In x l /\ In y (f x).
Proof. apply in_flat_map. Qed.
Lemma flat_map_perm {A B} (f : A -> list B) l l' : Permutation l l' -> Permutation (flat_map f l) (flat_map f l').
Proof. intros H. rewrite !flat_map_concat_map. apply perm_concat. apply Permutation_map. exact H. Qed.
Lemma flat_map_perm2 {A B} (f g : A -> list B) l : (forall x, In x l -> Permutation (f x) (g x)) -> Permutation (flat_map f l) (flat_map g l).
Proof.
  induction l as [|x l IH]; intros H; cbn; [constructor|]. apply Permutation_app; [apply H; left; reflexivity|]. apply IH. intros y Hy. apply H. right; exact Hy.
Qed.
Lemma flat_map_flat {A B C} (f : B -> list C) (g : A -> list B) l : flat_map f (flat_map g l) = flat_map (fun x => flat_map f (g x)) l.
Proof. induction l as [|x l IH]; cbn; [reflexivity|]. rewrite flat_map_app. f_equal. exact IH. Qed.
Lemma flat_map_split {A B} (f g : A -> list B) l : Permutation (flat_map (fun x => f x ++ g x) l) (flat_map f l ++ flat_map g l).
Proof.
  induction l as [|x l IH]; cbn; [constructor|]. rewrite IH. rewrite <- !app_assoc. apply Permutation_app_head. rewrite !app_assoc.
  apply Permutation_app_tail. apply Permutation_app_comm.
Qed.
Lemma flat_map_single {A B} (f : A -> B) l : flat_map (fun x => [f x]) l = map f l.
Proof. induction l; cbn; congruence. Qed.

Lemma nodes_edges t : Permutation (nodes t) (label t :: map snd (edges t)).
Proof.
  induction t as [i ts IH] using tree_rect'. cbn. constructor. rewrite map_app, map_map. cbn [snd].
  rewrite Forall_forall in IH.
  rewrite (flat_map_perm2 nodes (fun t => [label t] ++ map snd (edges t)) ts IH).
  rewrite flat_map_split, flat_map_single. apply Permutation_app_head.
  clear. induction ts as [|t ts IH]; cbn; [constructor|]. rewrite map_app. apply Permutation_app_head. exact IH.
Qed.
Lemma label_in t : In (label t) (nodes t).
Proof. destruct t. left; reflexivity. Qed.
Lemma edge_nodes t p c : In (p, c) (edges t) -> In p (nodes t) /\ In c (nodes t).
Proof.
  induction t as [i ts IH] using tree_rect'. cbn [edges nodes]. intros H. apply in_app_or in H as [H|H].
  - apply in_map_iff in H as (t & E & Ht). injection E as <- <-. split; [left; reflexivity|right; apply in_flat; exists t; split; [exact Ht|apply label_in]].
  - apply in_flat in H as (t & Ht & He). rewrite Forall_forall in IH. destruct (IH t Ht He) as [H1 H2].
    split; right; apply in_flat; exists t; split; assumption.
Qed.
(** In a tree without repeated labels the parent is unique and the root is no member. *)
Lemma parent_unique t p q c : NoDup (nodes t) -> In (p, c) (edges t) -> In (q, c) (edges t) -> p = q.
Proof.
  intros Hn H1 H2. assert (H3 : NoDup (map snd (edges t))).
  { eapply Permutation_NoDup in Hn; [|apply nodes_edges]. inversion Hn; assumption. }
  pose proof (NoDup_map_inv_eq snd (edges t) (p, c) (q, c) H3 H1 H2 eq_refl) as E. congruence.
Qed.
Lemma root_no_member t p : NoDup (nodes t) -> ~ In (p, label t) (edges t).
Proof.
  intros Hn H. eapply Permutation_NoDup in Hn; [|apply nodes_edges]. inversion Hn as [|? ? H1 _]. apply H1.
  apply in_map_iff. exists (p, label t). split; [reflexivity|exact H].
Qed.

(** ** Cutting edges *)
Section Cut.
  Variable cut : Z -> Z -> bool.
  Fixpoint split (t : tree) : tree * list tree :=
    match t with
    | Node i ts =>
        let rs := map split ts in
        (Node i (map fst (filter (fun r => negb (cut i (label (fst r)))) rs)),
         flat_map (fun r => (if cut i (label (fst r)) then [fst r] else []) ++ snd r) rs)
    end.
  Definition pieces (t : tree) : list tree := fst (split t) :: snd (split t).

  Lemma split_label t : label (fst (split t)) = label t.
  Proof. destruct t. reflexivity. Qed.

  Lemma split_part {B} (f : tree -> list B) i (rs : list (tree * list tree)) :
    Permutation (flat_map f (map fst (filter (fun r => negb (cut i (label (fst r)))) rs) ++ flat_map (fun r => (if cut i (label (fst r)) then [fst r] else []) ++ snd r) rs))
      (flat_map (fun r => flat_map f (fst r :: snd r)) rs).
  Proof.
    induction rs as [|[t ex] rs IH]; [constructor|]. rewrite flat_map_app in *. cbn [filter map flat_map fst snd]. destruct (cut i (label t)); cbn [negb map app flat_map].
    - rewrite !flat_map_app. rewrite <- IH. rewrite <- (app_assoc (f t)). rewrite (app_assoc (f t)).
      rewrite (app_assoc (f t) (flat_map f ex) (_ ++ _)). apply (Permutation_app_swap_app _ (f t ++ flat_map f ex)).
    - rewrite !flat_map_app. rewrite <- !app_assoc. apply Permutation_app_head. rewrite <- IH. apply Permutation_app_swap_app.
  Qed.

  Lemma split_nodes t : Permutation (flat_map nodes (pieces t)) (nodes t).
  Proof.
    unfold pieces. induction t as [i ts IH] using tree_rect'. cbn [split fst snd flat_map nodes]. cbn [app]. constructor.
    rewrite <- flat_map_app. rewrite split_part. rewrite flat_map_concat_map, map_map, <- flat_map_concat_map.
    apply flat_map_perm2. rewrite Forall_forall in IH. intros t Ht. apply IH. exact Ht.
  Qed.
  Lemma split_members i ts : map label (branches (fst (split (Node i ts)))) = filter (fun c => negb (cut i c)) (map label ts).
  Proof.
    cbn [split fst branches]. rewrite map_map. induction ts as [|t ts IH]; cbn; [reflexivity|]. rewrite split_label.
    destruct (cut i (label t)); cbn; [exact IH|]. rewrite split_label. f_equal. exact IH.
  Qed.
  Lemma split_represents (m m' : Z -> list Z -> Prop) t : represents m t ->
    (forall i l, In i (nodes t) -> m i l -> m' i (filter (fun c => negb (cut i c)) l)) -> Forall (represents m') (pieces t).
  Proof.
    unfold pieces. induction t as [i ts IH] using tree_rect'. intros HR Hm. inversion HR as [? ? H1 H2]; subst.
    assert (Hall : forall t, In t ts -> Forall (represents m') (fst (split t) :: snd (split t))).
    { rewrite Forall_forall in IH, H2. intros t Ht. apply (IH t Ht); [apply H2; exact Ht|]. intros j l Hj. apply Hm. cbn. right. apply in_flat. exists t. split; assumption. }
    constructor.
    - pose proof (split_members i ts) as Hsm. cbn [split fst branches] in *. constructor.
      + rewrite Hsm. apply Hm; [left; reflexivity|exact H1].
      + rewrite Forall_forall. intros t Ht. apply in_map_iff in Ht as (r & <- & Hr). apply filter_In in Hr as [Hr _].
        apply in_map_iff in Hr as (t0 & <- & Ht0). specialize (Hall t0 Ht0). inversion Hall; assumption.
    - cbn [split snd]. rewrite Forall_forall. intros t Ht. apply in_flat in Ht as (r & Hr & Hin). apply in_map_iff in Hr as (t0 & <- & Ht0).
      specialize (Hall t0 Ht0). inversion Hall as [|? ? Ha Hb]; subst. rewrite Forall_forall in Hb. apply in_app_or in Hin as [Hin|Hin]; [|apply Hb; exact Hin].
      destruct (cut i (label (fst (split t0)))); [|destruct Hin]. destruct Hin as [<-|[]]. exact Ha.
  Qed.
  Lemma split_edges t e : In e (flat_map edges (pieces t)) <-> In e (edges t) /\ cut (fst e) (snd e) = false.
  Proof.
    unfold pieces. induction t as [i ts IH] using tree_rect'. rewrite Forall_forall in IH.
    assert (E : flat_map edges (fst (split (Node i ts)) :: snd (split (Node i ts))) =
       map (fun c => (i, c)) (map label (branches (fst (split (Node i ts))))) ++
       flat_map edges (branches (fst (split (Node i ts))) ++ snd (split (Node i ts)))).
    { cbn [flat_map]. destruct (split (Node i ts)) as [[j us] ex] eqn:Es. cbn [fst snd branches edges]. rewrite flat_map_app, map_map, <- app_assoc.
      assert (j = i) by (cbn in Es; congruence). subst j. reflexivity. }
    rewrite E, split_members, in_app_iff. clear E.
    assert (H2 : In e (flat_map edges (branches (fst (split (Node i ts))) ++ snd (split (Node i ts)))) <-> In e (flat_map edges ts) /\ cut (fst e) (snd e) = false).
    { cbn [split fst snd branches].
      assert (HP := split_part edges i (map split ts)). split.
      - intros H. eapply Permutation_in in H; [|exact HP]. apply in_flat in H as (r & Hr & He). apply in_map_iff in Hr as (t & <- & Ht).
        apply (IH t Ht) in He as [He Hc]. split; [|exact Hc]. apply in_flat. exists t. split; assumption.
      - intros [H Hc]. eapply Permutation_in; [symmetry; exact HP|]. apply in_flat in H as (t & Ht & He). apply in_flat. exists (split t).
        split; [apply in_map; exact Ht|]. apply (IH t Ht). split; assumption. }
    rewrite H2. cbn [edges]. rewrite in_app_iff. destruct e as [p c]. cbn [fst snd]. split.
    - intros [H|[H Hc]]; [|split; [right; exact H|exact Hc]]. apply in_map_iff in H as (x & Ex & Hx). injection Ex as <- <-.
      apply filter_In in Hx as [Hx Hc]. split; [|destruct (cut i x); [discriminate|reflexivity]]. left. apply in_map_iff in Hx as (t & <- & Ht). apply in_map_iff. eauto.
    - intros [[H|H] Hc]; [left|right; split; assumption]. apply in_map_iff in H as (t & Ex & Ht). injection Ex as -> <-.
      apply in_map_iff. exists (label t). split; [reflexivity|]. apply filter_In. split; [apply in_map; exact Ht|rewrite Hc; reflexivity].
  Qed.
  (** the roots of the separated trees are the members whose edge was cut *)
  Lemma split_roots t : forall c, In c (map label (snd (split t))) <-> exists p, In (p, c) (edges t) /\ cut p c = true.
  Proof.
    induction t as [i ts IH] using tree_rect'. rewrite Forall_forall in IH. intros c. cbn [split snd edges]. split.
    - intros H. apply in_map_iff in H as (u & <- & Hu). apply in_flat in Hu as (r & Hr & Hin). apply in_map_iff in Hr as (t & <- & Ht). apply in_app_or in Hin as [Hin|Hin].
      + rewrite split_label in Hin. destruct (cut i (label t)) eqn:E; [|destruct Hin]. destruct Hin as [<-|[]]. exists i. rewrite split_label.
        split; [|exact E]. apply in_or_app. left. apply in_map_iff. eauto.
      + destruct (proj1 (IH t Ht (label u)) (in_map label _ _ Hin)) as (p & Hp & Hc). exists p. split; [|exact Hc].
        apply in_or_app. right. apply in_flat. eauto.
    - intros (p & Hp & Hc). apply in_app_or in Hp as [Hp|Hp].
      + apply in_map_iff in Hp as (t & E & Ht). injection E as -> <-. apply in_map_iff. exists (fst (split t)). split; [apply split_label|].
        apply in_flat. exists (split t). split; [apply in_map; exact Ht|]. rewrite split_label, Hc. left; reflexivity.
      + apply in_flat in Hp as (t & Ht & He). assert (H : In c (map label (snd (split t)))) by (apply (IH t Ht); eauto).
        apply in_map_iff in H as (u & <- & Hu). apply in_map. apply in_flat. exists (split t). split; [apply in_map; exact Ht|]. apply in_or_app. right; exact Hu.
  Qed.
End Cut.
