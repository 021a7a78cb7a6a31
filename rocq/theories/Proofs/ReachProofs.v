(** Forests and reachability. *)
From Coq Require Import List ZArith Bool Lia Sorting.Permutation.
From Verif.Model Require Import ListMem Mpi Run Hash Subhalo Nest.
From Verif.Spec Require Import Forest Nesting.
From Verif.Proofs Require Import ListMemProofs MpiProofs ListExtra TreeProofs NestProofs NestProofs2 NestProofs3 NestProofs4 NestProofs5 LocalizeProofs ForestSteps.
Import ListNotations.
Local Open Scope Z_scope.

Lemma depths_shift t : forall d e i x, In (i, x) (depths d t) -> In (i, x + e) (depths (d + e) t).
Proof.
  induction t as [j ts IH] using tree_rect'. intros d e i x Hin. cbn in Hin |- *. destruct Hin as [E|Hin]; [injection E as <- <-; left; reflexivity|]. right.
  apply in_flat in Hin as (t & Ht & Hin). apply in_flat. exists t. split; [exact Ht|]. rewrite Forall_forall in IH. replace (d + e + 1) with (d + 1 + e) by lia. apply (IH t Ht). exact Hin.
Qed.
Lemma depths_in t d i : In i (nodes t) -> exists x, In (i, x) (depths d t).
Proof. intros Hi. rewrite <- (depths_nodes t d) in Hi. apply in_map_iff in Hi as ([j x] & E & Hx). cbn in E. subst. eauto. Qed.
Lemma depths_node t d i x : In (i, x) (depths d t) -> In i (nodes t).
Proof. intros Hi. rewrite <- (depths_nodes t d). apply in_map_iff. exists (i, x). auto. Qed.
Lemma depths_unique t d i x y : NoDup (nodes t) -> In (i, x) (depths d t) -> In (i, y) (depths d t) -> x = y.
Proof.
  intros Hn Hx Hy. rewrite <- (depths_nodes t d) in Hn. assert (E : (i, x) = (i, y)) by (eapply (NoDup_map_inv_eq fst); eauto). congruence.
Qed.
Lemma depths_ge t : forall d i x, In (i, x) (depths d t) -> d <= x.
Proof.
  induction t as [j ts IH] using tree_rect'. intros d i x Hin. cbn in Hin. destruct Hin as [E|Hin]; [injection E as _ <-; lia|]. apply in_flat in Hin as (t & Ht & Hin). rewrite Forall_forall in IH. specialize (IH t Ht _ _ _ Hin). lia.
Qed.
Lemma depths_edge t : forall d p c x, NoDup (nodes t) -> In (p, c) (edges t) -> In (p, x) (depths d t) -> In (c, x + 1) (depths d t).
Proof.
  induction t as [j ts IH] using tree_rect'. intros d p c x Hn He Hx. rewrite Forall_forall in IH. cbn in Hn. inversion Hn as [|? ? Hj Hn']; subst. cbn in He. apply in_app_or in He.
  assert (Hbr : forall t, In t ts -> NoDup (nodes t)). { intros t Ht. apply in_split in Ht as (a & b & E). subst ts. rewrite flat_map_app in Hn'. apply NoDup_app_remove_l in Hn'. eapply NoDup_app_remove_r; exact Hn'. }
  destruct He as [He|He].
  - apply in_map_iff in He as (t & E & Ht). injection E as <- <-. assert (x = d). { eapply (depths_unique (Node j ts) d j); [exact Hn|exact Hx|left; reflexivity]. } subst x. cbn. right. apply in_flat. exists t. split; [exact Ht|]. destruct t as [k us]. cbn. left. reflexivity.
  - apply in_flat in He as (t & Ht & He). destruct Hx as [E|Hx]; [injection E as -> ->; exfalso; apply Hj; apply in_flat; exists t; split; [exact Ht|]; exact (proj1 (edge_nodes _ _ _ He))|]. cbn. right.
    apply in_flat in Hx as (u & Hu & Hx). assert (u = t).
    { assert (N1 : In p (nodes u)) by (eapply depths_node; eauto). assert (N2 : In p (nodes t)) by exact (proj1 (edge_nodes _ _ _ He)). clear -Ht Hu N1 N2 Hn'. induction ts as [|a l IH]; [destruct Ht|]. cbn in Hn'. destruct Hu as [<-|Hu], Ht as [<-|Ht]; [reflexivity| | |].
      - exfalso. eapply NoDup_app_disjoint; [exact Hn'|exact N1|]. apply in_flat; eauto.
      - exfalso. eapply NoDup_app_disjoint; [exact Hn'|exact N2|]. apply in_flat; eauto.
      - apply IH; auto. eapply NoDup_app_remove_l; eauto. }
    subst u. apply in_flat. exists t. split; [exact Ht|]. eapply (IH t Ht); eauto.
Qed.

Section R.
  Context {X R : Type}.
  Variable subs : list (sub X R).
  Lemma nest_fun i l1 l2 : local_nest subs i l1 -> local_nest subs i l2 -> l1 = l2.
  Proof. intros (a & Ha & <-) (b & Hb & <-). congruence. Qed.
  Lemma lists_edge t p c : represents (local_nest subs) t -> In p (nodes t) -> (lists subs p c <-> In (p, c) (edges t)).
  Proof.
    intros HR Hp. split.
    - intros (s & Hs & Hc). eapply (represents_members _ t HR p (s_nest s) Hp (nest_fun p)); [exists s; auto|exact Hc].
    - intros He. destruct (represents_edge _ t p c HR He) as (l & (s & Hs & <-) & Hc). exists s. auto.
  Qed.
  Lemma reach_trans p d m e c : reach subs p d m -> reach subs m e c -> reach subs p (d + e) c.
  Proof. intros H1 H2. induction H2 as [|e m' c H2 IH Hl]; [replace (d + 0)%nat with d by lia; exact H1|]. replace (d + S e)%nat with (S (d + e)) by lia. econstructor; eauto. Qed.
  (** from the root, members are reached in as many steps as their depth *)
  Lemma reach_depth t : forall i x, represents (local_nest subs) t -> In (i, x) (depths 0 t) -> reach subs (label t) (Z.to_nat x) i.
  Proof.
    induction t as [j ts IH] using tree_rect'. intros i x HR Hin. cbn in Hin. destruct Hin as [E|Hin]; [injection E as <- <-; constructor|]. cbn. rewrite Forall_forall in IH. apply in_flat in Hin as (t & Ht & Hin).
    pose proof (depths_ge _ _ _ _ Hin). apply (depths_shift t _ (-1)) in Hin. cbn in Hin. assert (HRt : represents (local_nest subs) t) by (apply represents_node_inv in HR as [_ H2]; rewrite Forall_forall in H2; auto).
    specialize (IH t Ht i (x + -1) HRt Hin). replace (Z.to_nat x) with (1 + Z.to_nat (x + -1))%nat by lia. eapply reach_trans; [|exact IH]. econstructor; [constructor|]. apply represents_node_inv in HR as [(s & Hs & El) _]. exists s. split; [exact Hs|]. rewrite El. apply in_map. exact Ht.
  Qed.
  (** down from a node of the tree *)
  Lemma reach_in t p d c x : represents (local_nest subs) t -> NoDup (nodes t) -> In (p, x) (depths 0 t) -> reach subs p d c -> In (c, x + Z.of_nat d) (depths 0 t).
  Proof.
    intros HR Hn Hp HC. induction HC as [|d m c HC IH Hl]; [replace (x + Z.of_nat 0) with x by lia; exact Hp|]. apply (lists_edge t m c HR) in Hl; [|eapply depths_node; eauto]. eapply depths_edge in Hl; [|exact Hn|exact IH]. replace (x + Z.of_nat (S d)) with (x + Z.of_nat d + 1) by lia. exact Hl.
  Qed.
  Lemma reach_root t d c : represents (local_nest subs) t -> NoDup (nodes t) -> (reach subs (label t) d c <-> In (c, Z.of_nat d) (depths 0 t)).
  Proof.
    intros HR Hn. split.
    - intros HC. replace (Z.of_nat d) with (0 + Z.of_nat d) by lia. eapply reach_in; eauto. destruct t. cbn. left. reflexivity.
    - intros Hin. apply (reach_depth t _ _ HR) in Hin. rewrite Nat2Z.id in Hin. exact Hin.
  Qed.

  Variable ts : list tree.
  Hypothesis Hlf : local_forest subs ts.
  Lemma forest_nodup : NoDup (flat_map nodes ts).
  Proof. destruct Hlf as [[_ HP] _]. eapply Permutation_NoDup; [symmetry; exact HP|]. apply NoDup_map_inj; [intros x y _ _; apply Nat2Z.inj|apply seq_NoDup]. Qed.
  Lemma forest_tree_nodup t : In t ts -> NoDup (nodes t).
  Proof. intros Ht. pose proof forest_nodup as Hn. apply in_split in Ht as (a & b & E). rewrite E, flat_map_app in Hn. apply NoDup_app_remove_l in Hn. eapply NoDup_app_remove_r; exact Hn. Qed.
  Lemma forest_tree_eq t u i : In t ts -> In u ts -> In i (nodes t) -> In i (nodes u) -> t = u.
  Proof.
    intros Ht Hu N1 N2. pose proof forest_nodup as Hn. clear -Ht Hu N1 N2 Hn. induction ts as [|a l IH]; [destruct Ht|]. cbn in Hn. destruct Hu as [<-|Hu], Ht as [<-|Ht]; [reflexivity| | |].
    - exfalso. eapply NoDup_app_disjoint; [exact Hn|exact N2|]. apply in_flat; eauto.
    - exfalso. eapply NoDup_app_disjoint; [exact Hn|exact N1|]. apply in_flat; eauto.
    - apply IH; auto. eapply NoDup_app_remove_l; eauto.
  Qed.
  Lemma forest_node i s : zget subs i = Some s -> exists t, In t ts /\ In i (nodes t) /\ represents (local_nest subs) t /\ NoDup (nodes t).
  Proof.
    intros Hs. assert (Hi : In i (flat_map nodes ts)). { destruct Hlf as [[_ HP] _]. eapply Permutation_in; [symmetry; exact HP|]. apply in_zs_range. eapply zget_some; eauto. }
    apply in_flat in Hi as (t & Ht & Hi). exists t. split; [exact Ht|]. split; [exact Hi|]. split; [|apply forest_tree_nodup; exact Ht]. destruct Hlf as [[HF _] _]. rewrite Forall_forall in HF. apply HF. exact Ht.
  Qed.
  Lemma forest_get t i : In t ts -> In i (nodes t) -> exists s, zget subs i = Some s.
  Proof. intros Ht Hi. destruct Hlf as [[_ HP] _]. apply zget_in_range. apply in_zs_range. eapply Permutation_in; [exact HP|]. apply in_flat. eauto. Qed.
  Lemma forest_lists p c : lists subs p c <-> In (p, c) (flat_map edges ts).
  Proof.
    split.
    - intros Hl. assert (Hl' := Hl). destruct Hl' as (s & Hs & _). destruct (forest_node p s Hs) as (t & Ht & Hp & HR & _). apply in_flat. exists t. split; [exact Ht|]. apply (lists_edge t p c HR Hp). exact Hl.
    - intros He. apply in_flat in He as (t & Ht & He). destruct Hlf as [[HF _] _]. rewrite Forall_forall in HF. apply (lists_edge t p c (HF t Ht)); [|exact He]. exact (proj1 (edge_nodes _ _ _ He)).
  Qed.
  Lemma forest_head i : head subs i <-> In i (map label ts).
  Proof.
    destruct Hlf as [_ Hr]. split.
    - intros (s & Hs & Hk). apply (Hr i s Hs). exact Hk.
    - intros Hi. assert (Hi' := Hi). apply in_map_iff in Hi' as (t & <- & Ht). destruct (forest_get t (label t) Ht (label_in t)) as [s Hs]. exists s. split; [exact Hs|]. apply (Hr _ s Hs). exact Hi.
  Qed.

  Lemma forest_well_nested : (forall p c, In (p, c) (flat_map edges ts) -> hostz subs c = hostz subs p) -> well_nested subs.
  Proof.
    intros Hhost. constructor.
    - intros p c Hl. apply forest_lists in Hl. apply in_flat in Hl as (t & Ht & He). apply (forest_get t c Ht). eapply edge_nodes; eauto.
    - intros p s Hs. destruct (forest_node p s Hs) as (t & Ht & Hp & HR & Hn). clear Ht. induction t as [i us IH] using tree_rect'. apply represents_node_inv in HR as [H1 H2]. cbn in Hn, Hp. inversion Hn as [|? ? Hni Hn']; subst. rewrite Forall_forall in IH, H2.
      destruct Hp as [<-|Hp].
      + assert (E : s_nest s = map label us) by (eapply nest_fun; [exists s; eauto|exact H1]). rewrite E. clear -Hn'. induction us as [|u us IHu]; cbn in *; [constructor|]. constructor; [|apply IHu; eapply NoDup_app_remove_l; eauto].
        intros Hin. apply in_map_iff in Hin as (v & E & Hv). eapply NoDup_app_disjoint; [exact Hn'|apply label_in|]. apply in_flat. exists v. split; [exact Hv|]. rewrite <- E. apply label_in.
      + apply in_flat in Hp as (u & Hu & Hp). apply (IH u Hu); auto. apply in_split in Hu as (a & b & E). subst us. rewrite flat_map_app in Hn'. apply NoDup_app_remove_l in Hn'. eapply NoDup_app_remove_r; exact Hn'.
    - intros p q c H1 H2. apply forest_lists in H1. apply forest_lists in H2. apply in_flat in H1 as (t & Ht & H1). apply in_flat in H2 as (u & Hu & H2). assert (t = u) by (eapply forest_tree_eq; eauto; eapply edge_nodes; eauto). subst u. eapply parent_unique; eauto. apply forest_tree_nodup; exact Ht.
    - intros p c s u Hl Hs Hu. apply forest_lists in Hl. specialize (Hhost p c Hl). unfold hostz in Hhost. rewrite Hs, Hu in Hhost. exact Hhost.
    - intros c s Hs. destruct (forest_node c s Hs) as (t & Ht & Hc & HR & Hn). destruct Hlf as [_ Hr]. rewrite (Hr c s Hs). split.
      + intros Hin p Hl. apply forest_lists in Hl. apply in_flat in Hl as (u & Hu & Hl). apply in_map_iff in Hin as (v & E & Hv). assert (v = u). { eapply (forest_tree_eq v u c); auto; [rewrite <- E; apply label_in|eapply edge_nodes; eauto]. } subst v.
        rewrite <- E in Hl. eapply root_no_member; [|exact Hl]. apply forest_tree_nodup; exact Hu.
      + intros Hno. assert (Hc' := Hc). apply (Permutation_in _ (nodes_edges t)) in Hc'. destruct Hc' as [<-|Hc']; [apply in_map; exact Ht|]. exfalso. apply in_map_iff in Hc' as ([p c'] & E & He). cbn in E. subst c'. apply (Hno p). apply forest_lists. apply in_flat. eauto.
    - intros p d HC. destruct d as [|d]; [reflexivity|]. exfalso. assert (Hl : exists s, zget subs p = Some s).
      { inversion HC as [|? m ? HC' Hl]; subst. apply forest_lists in Hl. apply in_flat in Hl as (t & Ht & He). apply (forest_get t p Ht). eapply edge_nodes; eauto. }
      destruct Hl as [s Hs]. destruct (forest_node p s Hs) as (t & Ht & Hp & HR & Hn). destruct (depths_in t 0 p Hp) as [x Hx]. assert (H1 := reach_in t p (S d) p x HR Hn Hx HC). assert (E := depths_unique t 0 p _ _ Hn Hx H1). lia.
    - intros i s Hs. destruct (forest_node i s Hs) as (t & Ht & Hi & HR & Hn). exists (label t). split; [apply forest_head; apply in_map; exact Ht|]. destruct (depths_in t 0 i Hi) as [x Hx]. split; [exists (Z.to_nat x); apply reach_depth; assumption|].
      intros h d Hh HC. apply forest_head in Hh. apply in_map_iff in Hh as (u & <- & Hu). f_equal. eapply (forest_tree_eq u t i); auto. destruct Hlf as [[HF _] _]. rewrite Forall_forall in HF. apply (reach_root u d i (HF u Hu)) in HC; [|apply forest_tree_nodup; exact Hu]. eapply depths_node; eauto.
  Qed.
End R.
