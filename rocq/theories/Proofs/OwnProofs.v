(** Which particles belong to a subhalo after the work on a snapshot. *)
From Coq Require Import List ZArith QArith Bool Lia Sorting.Permutation.
From Verif.Model Require Import ListMem Mpi Run Hash Subhalo Tracks Nest UpdateTracks Mask Unbind Merge Work.
From Verif.Spec Require Import Members Forest Nesting NestHistory Masking Unbinding Sinking Ownership.
From Verif.Proofs Require Import ListMemProofs MpiProofs ListExtra MemberProofs TreeProofs NestProofs NestProofs2 NestProofs3 NestProofs4 NestProofs5 LocalizeProofs ForestSteps HistorySteps HistorySteps2 HistoryProofs ReachProofs GlueProofs GlueTree HaloWork MaskProofs MaskFinal UnbindProofs StripProofs RefineProofs DetectProofs MergeProofs MergeFinal WorkProofs.
Import ListNotations.
Local Open Scope nat_scope.

Lemma NoDup_flat {A B} (f : A -> list B) l : NoDup l -> (forall x, In x l -> NoDup (f x)) -> (forall x y b, In x l -> In y l -> In b (f x) -> In b (f y) -> x = y) -> NoDup (flat_map f l).
Proof.
  induction l as [|x l IH]; intros Hn H1 H2; [constructor|]. inversion Hn as [|? ? Hx Hn']; subst. cbn. apply NoDup_app_intro.
  - apply H1. left; reflexivity.
  - apply IH; [exact Hn'|intros y Hy; apply H1; right; exact Hy|]. intros y z b Hy Hz. apply H2; right; assumption.
  - intros b Hb Hb'. apply in_flat_map in Hb' as (y & Hy & Hb'). assert (x = y) by (eapply H2; eauto; [left; reflexivity|right; exact Hy]). subst. contradiction.
Qed.
Lemma NoDup_flat_apart {A B} (f : A -> list B) l x y b : NoDup (flat_map f l) -> In x l -> In y l -> x <> y -> In b (f x) -> ~ In b (f y).
Proof.
  induction l as [|z l IH]; intros Hn Hx Hy Hne Hb Hb'; [destruct Hx|]. cbn in Hn. destruct Hx as [->|Hx], Hy as [->|Hy].
  - congruence.
  - eapply NoDup_app_disjoint; [exact Hn|exact Hb|apply in_flat_map; eauto].
  - eapply NoDup_app_disjoint; [exact Hn|exact Hb'|apply in_flat_map; eauto].
  - apply NoDup_app_remove_l in Hn. eapply IH; eauto.
Qed.
Lemma map_flat_map {A B C} (g : B -> C) (f : A -> list B) l : map g (flat_map f l) = flat_map (fun x => map g (f x)) l.
Proof. induction l as [|x l IH]; [reflexivity|]. cbn. rewrite map_app, IH. reflexivity. Qed.
Lemma NoDup_firstn {A} n (l : list A) : NoDup l -> NoDup (firstn n l).
Proof. intros H. rewrite <- (firstn_skipn n l) in H. eapply NoDup_app_remove_r. exact H. Qed.
Lemma firstn_map' {A B} (f : A -> B) n l : firstn n (map f l) = map f (firstn n l).
Proof. revert l; induction n as [|n IH]; intros [|x l]; cbn; [reflexivity..|]. rewrite IH. reflexivity. Qed.
Lemma short_nodup {A} (l : list A) : length l <= 1 -> NoDup l.
Proof. destruct l as [|x [|y l]]; cbn; intros H; [constructor|constructor; [intros []|constructor]|lia]. Qed.

(** No particle is bound to two resolved subhalos of a host. *)
Definition apart {X R} (subs : list (sub X R)) : Prop :=
  forall i j s u, nth_error subs i = Some s -> nth_error subs j = Some u -> i <> j -> s_host s = s_host u -> s_host s <> (-1)%Z ->
    1 < s_nbound s -> 1 < s_nbound u -> forall id, In id (bound_ids s) -> ~ In id (bound_ids u).

Section Truncate.
  Context {X R : Type}.
  Variables (pmass : Z * X -> Q) (allowed : nat -> nat).
  Hypothesis allowed_ok : forall n, n <= allowed n.
  Lemma truncate_owned (u : sub X R) : s_nbound u <= length (s_parts u) -> s_mass u = fold_right (fun p q => (pmass p + q)%Q) 0%Q (firstn (s_nbound u) (s_parts u)) -> (1 < s_nbound u -> NoDup (part_ids u)) -> owned pmass (truncate allowed u).
  Proof.
    intros HL HM Hn. destruct (truncate_ok allowed allowed_ok u HL) as (n & -> & Hr & Hs & _). split.
    - cbn. rewrite firstn_firstn, Nat.min_l by lia. exact HM.
    - unfold part_ids in *. cbn. rewrite <- firstn_map'. destruct (le_gt_dec (s_nbound u) 1) as [H1|H1]; [|apply NoDup_firstn; auto]. rewrite (Hs H1). apply short_nodup. rewrite firstn_length. lia.
    - cbn. intros H1. rewrite (Hs H1), firstn_length. lia.
  Qed.
  Lemma truncate_bound (u : sub X R) : s_nbound u <= length (s_parts u) -> bound_ids (truncate allowed u) = bound_ids u /\ s_nbound (truncate allowed u) = s_nbound u.
  Proof.
    intros HL. destruct (truncate_ok allowed allowed_ok u HL) as (n & -> & Hr & _). split; [|reflexivity]. unfold bound_ids, part_ids. cbn. rewrite !firstn_map', firstn_firstn, Nat.min_l by lia. reflexivity.
  Qed.
End Truncate.

Section S.
  Context {X R E : Type}.
  Local Notation subs_t := (list (sub X R)).
  Local Notation entry := (nat * E)%type.
  Variables neg pos : E -> bool.
  Variable lt : E -> E -> bool.
  Variable sorter : sort_site -> list entry -> list entry.
  Variable shuffle : list (Z * X) -> list (Z * X).
  Variable energy : list (Z * X) * R -> nat -> list entry -> nat -> E.
  Variable inner : list (Z * X) * R -> list entry -> nat -> E.
  Variable no_energy : E.
  Variable rest_of : list (Z * X) -> nat -> R -> R.
  Variable pmass : Z * X -> Q.
  Variables (min_part : nat) (converged : nat -> nat -> bool) (max_sample : nat) (refine : bool) (allowed : nat -> nat) (snap : Z).
  Variable near : nat * list (Z * X) * R -> nat * list (Z * X) * R -> bool.
  Hypothesis one_sign : forall e, neg e = true -> pos e = false.
  Hypothesis sorter_ok : forall site l, Permutation (sorter site l) l /\ ascending lt snd (sorter site l).
  Hypothesis shuffle_ok : forall l, Permutation (shuffle l) l.
  Hypothesis min_ok : 2 <= min_part.
  Hypothesis converged_ok : forall n, converged n n = true.
  Hypothesis allowed_ok : forall n, n <= allowed n.
  Hypothesis snap_ok : (0 <= snap)%Z.
  Local Notation unbind := (unbind neg pos sorter shuffle energy inner no_energy rest_of pmass min_part converged max_sample refine snap).
  Local Notation unbinding := (unbinding neg pos lt energy inner no_energy min_part converged max_sample refine snap pmass).
  Local Notation stripped := (stripped neg pos lt energy inner no_energy min_part converged max_sample refine snap pmass).
  Local Notation strip_post := (strip_post neg pos lt energy inner no_energy pmass min_part converged max_sample refine snap).
  Local Notation refine_particles := (refine_particles neg pos sorter shuffle energy inner no_energy rest_of pmass min_part converged max_sample refine allowed snap).
  Local Notation refine_ok := (refine_ok neg pos lt sorter shuffle energy inner no_energy rest_of pmass min_part converged max_sample refine allowed snap one_sign sorter_ok shuffle_ok min_ok converged_ok).
  Local Notation owned := (@owned X R pmass).

  (** ** One subhalo *)
  Lemma unbinding_small (s u : sub X R) : unbinding s u -> length (s_parts s) <= 1 -> s_nbound u = length (s_parts s) /\ s_parts u = s_parts s.
  Proof using min_ok.
    intros (_ & HP & _ & _ & HE) Hl. split.
    - destruct HE as [[A _ _ _]|[_ A _ _ _]]; [clear -A Hl min_ok; lia|]. rewrite A. clear -Hl. lia.
    - destruct (s_parts s) as [|x [|y l]] eqn:Es; [apply Permutation_sym, Permutation_nil in HP; exact HP|apply Permutation_sym, Permutation_length_1_inv in HP; exact HP|cbn in Hl; clear -Hl; lia].
  Qed.
  Lemma unbinding_owned (s u : sub X R) : unbinding s u -> NoDup (part_ids s) -> owned (truncate allowed u).
  Proof using allowed_ok.
    intros (_ & HP & HL & HM & _) Hn. apply truncate_owned; [exact allowed_ok|exact HL|exact HM|]. intros _. unfold part_ids in *. eapply Permutation_NoDup; [apply Permutation_map, Permutation_sym, HP|exact Hn].
  Qed.

  (** ** A nest *)
  Section Tree.
    Variables (a b : subs_t).
    Definition core_of (i : Z) : bool := match zget a i with Some s => 1 <? s_nbound s | None => false end.
    Definition core_held (i : Z) : list (Z * X) := if core_of i then held_by a i else [].
    Definition core_bound (i : Z) : list (Z * X) := if core_of i then bound_parts b i else [].
    Definition compact_at (i : Z) : Prop := forall s, zget a i = Some s -> s_nbound s <= 1 -> length (s_parts s) <= 1.

    (* one node: what it held and was given is what it has bound and passes on, orphans only pass on *)
    Lemma node_conserved p s ts : stripped b p s (map label ts) -> zget a p = Some s -> compact_at p ->
      Permutation (core_bound p ++ leftover b p) (core_held p ++ flat_map (leftover b) (map label ts)).
    Proof using min_ok.
      intros (u & H) Hs Hc. unfold core_bound, core_held, core_of. rewrite Hs. destruct (s_nbound s <=? 1) eqn:En; destruct H as [HU HZ].
      - apply Nat.leb_le in En. rewrite (proj2 (Nat.ltb_ge _ _) En). cbn [app]. destruct (unbinding_small _ _ HU (Hc s Hs En)) as [E1 E2]. unfold leftover at 1. rewrite HZ. cbn. rewrite E1.
        rewrite skipn_app, skipn_all, Nat.sub_diag. reflexivity.
      - apply Nat.leb_gt in En. rewrite (proj2 (Nat.ltb_lt _ _) En). unfold bound_parts, leftover at 1, held_by. rewrite HZ, Hs, firstn_skipn. destruct HU as (_ & HP & _). exact HP.
    Qed.
    Lemma tree_conserved t : strip_post t a b -> (forall i, In i (nodes t) -> compact_at i) ->
      Permutation (flat_map core_bound (nodes t) ++ leftover b (label t)) (flat_map core_held (nodes t)).
    Proof using min_ok.
      induction t as [p ts IH] using tree_rect'. intros [HR HS] Hc. rewrite Forall_forall in IH. apply represents_node_inv in HR as [(s & Hs & Es) HRt]. rewrite Forall_forall in HRt. cbn [nodes flat_map label].
      assert (Hsub : Permutation (flat_map core_bound (flat_map nodes ts) ++ flat_map (leftover b) (map label ts)) (flat_map core_held (flat_map nodes ts))).
      { assert (HS' : forall t, In t ts -> strip_post t a b). { intros t Ht. split; [apply HRt; exact Ht|]. intros i si Hi. apply HS. right. apply in_flat. eauto. }
        assert (Hc' : forall t i, In t ts -> In i (nodes t) -> compact_at i). { intros t i Ht Hi. apply Hc. right. apply in_flat. eauto. }
        clear -IH HS' Hc'. induction ts as [|t ts IHl]; [reflexivity|]. cbn. rewrite !flat_map_app. rewrite <- (IHl (fun u Hu => IH u (or_intror Hu)) (fun u Hu => HS' u (or_intror Hu)) (fun u i Hu => Hc' u i (or_intror Hu))).
        rewrite <- (IH t (or_introl eq_refl) (HS' t (or_introl eq_refl)) (fun i => Hc' t i (or_introl eq_refl))). rewrite <- !app_assoc. apply Permutation_app_head. rewrite !app_assoc. apply Permutation_app_tail. apply Permutation_app_comm. }
      assert (HN := HS p s (or_introl eq_refl) Hs). rewrite Es in HN. apply (node_conserved p s ts) in HN; [|exact Hs|apply Hc; left; reflexivity].
      rewrite <- Hsub. rewrite <- app_assoc. rewrite (Permutation_app_comm (flat_map core_bound (flat_map nodes ts)) (leftover b p)). rewrite app_assoc, HN. rewrite <- app_assoc. apply Permutation_app_head. apply Permutation_app_comm.
    Qed.
    (* what a node holds in the end was held by nodes below it, each particle once *)
    Lemma tree_once t : strip_post t a b -> (forall i, In i (nodes t) -> compact_at i) -> NoDup (map fst (flat_map core_held (nodes t))) ->
      forall i w, In i (nodes t) -> core_of i = true -> zget b i = Some w -> NoDup (part_ids w).
    Proof using min_ok.
      induction t as [p ts IH] using tree_rect'. intros [HR HS] Hc Hn i w Hi Hco Hw. rewrite Forall_forall in IH. assert (HR' := HR). apply represents_node_inv in HR as [(s & Hs & Es) HRt]. rewrite Forall_forall in HRt.
      assert (HS' : forall t, In t ts -> strip_post t a b). { intros t Ht. split; [apply HRt; exact Ht|]. intros j si Hj. apply HS. right. apply in_flat. eauto. }
      assert (Hc' : forall t i, In t ts -> In i (nodes t) -> compact_at i). { intros t j Ht Hj. apply Hc. right. apply in_flat. eauto. }
      cbn [nodes flat_map] in Hn. rewrite map_app in Hn. destruct Hi as [<-|Hi].
      - assert (HN := HS p s (or_introl eq_refl) Hs). rewrite Es in HN. destruct HN as (u & HN). unfold core_of in Hco. rewrite Hs in Hco. apply Nat.ltb_lt in Hco. rewrite (proj2 (Nat.leb_gt _ _) Hco) in HN. destruct HN as [(_ & HP & _) HZ]. assert (u = w) by congruence. subst u. cbn [s_parts set_parts] in HP.
        assert (Hsub : exists l, Permutation (flat_map core_held (flat_map nodes ts)) (flat_map (leftover b) (map label ts) ++ l)).
        { clear -HS' Hc' IH min_ok. induction ts as [|t ts IHl]; [exists []; reflexivity|]. destruct IHl as [l Hl]; [intros u Hu; apply IH; right; exact Hu|intros u Hu; apply HS'; right; exact Hu|intros u j Hu; apply Hc'; right; exact Hu|].
          exists (flat_map core_bound (nodes t) ++ l). cbn. rewrite flat_map_app, Hl. rewrite <- (tree_conserved t (HS' t (or_introl eq_refl)) (fun j => Hc' t j (or_introl eq_refl))).
          rewrite (Permutation_app_comm (flat_map core_bound (nodes t))). rewrite <- !app_assoc. apply Permutation_app_head. rewrite !app_assoc. apply Permutation_app_tail. apply Permutation_app_comm. }
        destruct Hsub as [l Hl]. unfold part_ids. eapply Permutation_NoDup; [apply Permutation_map, Permutation_sym, HP|]. rewrite map_app.
        assert (EH : core_held p = s_parts s) by (unfold core_held, core_of, held_by; rewrite Hs, (proj2 (Nat.ltb_lt _ _) Hco); reflexivity). rewrite EH in Hn.
        eapply Permutation_NoDup in Hn; [|apply Permutation_app_head, Permutation_map, Hl]. rewrite map_app, app_assoc in Hn. eapply NoDup_app_remove_r. exact Hn.
      - apply NoDup_app_remove_l in Hn. apply in_flat in Hi as (t & Ht & Hi). apply (IH t Ht (HS' t Ht) (fun j => Hc' t j Ht)) with (i := i); try assumption.
        clear -Hn Ht. induction ts as [|x ts IHl]; [destruct Ht|]. cbn in Hn. rewrite flat_map_app, map_app in Hn. destruct Ht as [->|Ht]; [eapply NoDup_app_remove_r; exact Hn|apply IHl; [eapply NoDup_app_remove_l; exact Hn|exact Ht]].
    Qed.
  End Tree.

  (** ** All subhalos *)
  Definition compact (s : sub X R) : Prop := s_nbound s <= 1 -> length (s_parts s) <= 1.
  Section W.
  Variables (moved : subs_t) (nh : nat) (table : list (list nat)) (subs : subs_t) (ts : list tree) (heads : list (list nat)).
  Hypothesis HN : nested_as moved nh table subs ts.
  Hypothesis Hheads : mapM (heads_of subs) (tl table) = Some heads.
  Hypothesis Hhosts : Forall (fun s => (-1 <= s_host s < Z.of_nat nh)%Z) moved.

  Lemma grouped i s : nth_error subs i = Some s -> i < length moved -> s_host s <> (-1)%Z -> exists h c rest, nth_error table (S h) = Some (c :: rest) /\ In i (c :: rest) /\ s_host s = Z.of_nat h.
  Proof using HN Hhosts.
    intros Hs Hi Hh. destruct HN as (_ & _ & HTL & HTG & HO & _). destruct (nth_error_in_range moved i Hi) as [a Ha]. destruct (HO i a Ha) as (b & Hb & _ & Eh). assert (b = s) by congruence. subst b.
    rewrite Forall_forall in Hhosts. pose proof (Hhosts a (nth_error_In _ _ Ha)) as Hr. destruct (nth_error_in_range table (S (Z.to_nat (s_host a)))) as [g Hg]; [clear -Hr Eh Hh HTL; lia|].
    assert (Hin : In i g). { apply (HTG _ _ Hg). exists a. split; [exact Ha|]. clear -Hr Eh Hh. lia. }
    destruct g as [|c rest]; [destruct Hin|]. exists (Z.to_nat (s_host a)), c, rest. split; [exact Hg|]. split; [exact Hin|]. clear -Hr Eh Hh. lia.
  Qed.
  Lemma fresh_at i s : nth_error subs i = Some s -> length moved <= i -> exists h, s_host s = Z.of_nat h /\ nth_error table (S h) = Some [].
  Proof using HN.
    intros Hs Hi. destruct HN as (_ & _ & _ & _ & _ & HF & _). rewrite Forall_forall in HF. destruct (HF s) as (_ & _ & _ & h & A & B); [|eauto].
    apply (nth_error_In _ (i - length moved)). rewrite nth_skipn. replace (length moved + (i - length moved)) with i by (clear -Hi; lia). exact Hs.
  Qed.
  Lemma same_group i j s u : nth_error subs i = Some s -> nth_error subs j = Some u -> i <> j -> s_host s = s_host u -> s_host s <> (-1)%Z ->
    exists h c rest, nth_error table (S h) = Some (c :: rest) /\ In i (c :: rest) /\ In j (c :: rest).
  Proof using HN Hhosts.
    intros Hs Hu Hne Eh Hh. destruct (Nat.lt_ge_cases i (length moved)) as [Hi|Hi], (Nat.lt_ge_cases j (length moved)) as [Hj|Hj].
    - destruct (grouped i s Hs Hi Hh) as (h & c & rest & A & B & C). destruct (grouped j u Hu Hj) as (h' & c' & rest' & A' & B' & C'); [congruence|]. assert (h' = h) by (clear -C C' Eh; lia). subst h'. rewrite A in A'. injection A' as <- <-. eauto 6.
    - destruct (grouped i s Hs Hi Hh) as (h & c & rest & A & B & C). destruct (fresh_at j u Hu Hj) as (h' & C' & A'). assert (h' = h) by (clear -C C' Eh; lia). subst. congruence.
    - destruct (fresh_at i s Hs Hi) as (h & C & A). destruct (grouped j u Hu Hj) as (h' & c & rest & A' & B & C'); [congruence|]. assert (h' = h) by (clear -C C' Eh; lia). subst. congruence.
    - exfalso. destruct HN as (_ & _ & _ & _ & _ & _ & HND & _). rewrite NoDup_nth_error in HND. apply Hne.
      assert (E1 : nth_error (map s_host (skipn (length moved) subs)) (i - length moved) = Some (s_host s)) by (rewrite nth_error_map, nth_skipn; replace (length moved + (i - length moved)) with i by (clear -Hi; lia); rewrite Hs; reflexivity).
      assert (E2 : nth_error (map s_host (skipn (length moved) subs)) (j - length moved) = Some (s_host u)) by (rewrite nth_error_map, nth_skipn; replace (length moved + (j - length moved)) with j by (clear -Hj; lia); rewrite Hu; reflexivity).
      assert (i - length moved = j - length moved); [|clear -H Hi Hj; lia]. apply HND; [|congruence]. apply nth_error_lt in E1. exact E1.
  Qed.

  Lemma inside_old p c : inside heads subs p c -> (c < Z.of_nat (length moved))%Z.
  Proof using HN Hheads Hhosts.
    destruct (glued_trees _ _ _ _ _ _ HN Hheads) as (g & sizes & Eg & _). intros H1. rewrite <- (g_inside moved nh table subs ts heads HN Hheads g sizes Eg) in H1.
    destruct (listed_group moved nh table subs ts heads HN Hheads Hhosts g sizes Eg p c H1) as (h & c0 & rest & t & Hg & _ & Hc & _). apply in_map_iff in Hc as (i & <- & Hi). destruct (table_member _ _ _ _ _ HN _ _ i Hg Hi) as (_ & _ & _ & Hl). clear -Hl. lia.
  Qed.

  Lemma refine_owned fuel order order2 : length subs <= fuel -> Permutation order (seq 0 nh) -> Permutation order2 (unnested table subs) ->
    Forall compact subs ->
    (forall i s, nth_error subs i = Some s -> NoDup (part_ids s)) ->
    (forall h g i j id, nth_error table (S h) = Some g -> In i (zs g) -> In j (zs g) -> holds subs i id -> holds subs j id -> i = j) ->
    exists out, refine_particles fuel order order2 table heads subs = Done out /\ Forall2 same_place subs out /\ Forall (settled (X := X) (R := R)) out /\ Forall owned out /\ apart out.
  Proof using one_sign sorter_ok shuffle_ok min_ok converged_ok allowed_ok snap_ok HN Hheads Hhosts.
    intros Hf Ho Ho2 Hcomp Honce Hapart. destruct (refine_settled neg pos lt sorter shuffle energy inner no_energy rest_of pmass min_part converged max_sample refine allowed snap one_sign sorter_ok shuffle_ok min_ok converged_ok allowed_ok snap_ok _ _ _ _ _ _ HN Hheads Hhosts fuel order order2 Hf Ho Ho2) as (out & Eout & HP1 & HSet).
    destruct (refine_ok _ _ _ _ _ _ HN Hheads Hhosts fuel order order2 Hf Ho Ho2) as (mid & EQ & HL & HG & HP & HS). rewrite EQ in Eout. injection Eout as <-. exists (map (truncate allowed) mid). split; [exact EQ|]. split; [exact HP1|]. split; [exact HSet|].
    rewrite Forall_forall in Hcomp.
    (* the tree of a group *)
    assert (Htree : forall h c rest, nth_error table (S h) = Some (c :: rest) -> exists t a b, strip_post t a b /\ Permutation (nodes t) (zs (c :: rest)) /\
       (forall i, In i (nodes t) -> exists s w l, zget subs i = Some s /\ zget a i = Some (set_nest l s) /\ zget b i = Some w /\ zget mid i = Some (set_nest (s_nest s) w)) /\
       (forall i, In i (nodes t) -> compact_at a i) /\ NoDup (map fst (flat_map (core_held a) (nodes t)))).
    { intros h c rest Hg. destruct (HG h c rest Hg) as (others & _ & _ & _ & t & a & b & HSP & HPm & HV). exists t, a, b. split; [exact HSP|]. split; [exact HPm|]. split; [exact HV|]. split.
      - intros i Hi s Hs Hb. destruct (HV i Hi) as (s0 & w & l & A & B & _). rewrite B in Hs. injection Hs as <-. cbn in *. pose proof (zget_some _ _ _ A). rewrite zget_nat in A by (clear -H; lia). apply (Hcomp s0 (nth_error_In _ _ A)). exact Hb.
      - rewrite map_flat_map. apply NoDup_flat.
        + eapply Permutation_NoDup; [symmetry; exact HPm|]. apply NoDup_map_inj; [intros x y _ _; apply Nat2Z.inj|]. destruct HN as (_ & _ & _ & HTG & _). apply (HTG _ _ Hg).
        + intros i Hi. destruct (HV i Hi) as (s0 & w & l & A & B & _). unfold core_held. destruct (core_of a i); [|constructor]. unfold held_by. rewrite B. cbn. pose proof (zget_some _ _ _ A). rewrite zget_nat in A by (clear -H; lia). apply (Honce _ _ A).
        + intros i j id Hi Hj Hid Hjd. assert (HH : forall k, In k (nodes t) -> In id (map fst (core_held a k)) -> In k (zs (c :: rest)) /\ holds subs k id).
          { intros k Hk Hkd. split; [eapply Permutation_in; eauto|]. destruct (HV k Hk) as (s0 & w & l & A & B & _). unfold core_held, core_of, held_by in Hkd. rewrite B in Hkd. cbn [s_nbound s_parts set_nest] in Hkd. destruct (Nat.ltb_spec 1 (s_nbound s0)) as [Hb|]; [|destruct Hkd]. exists s0. auto. }
          destruct (HH i Hi Hid) as [A1 A2]. destruct (HH j Hj Hjd) as [B1 B2]. eapply Hapart; eauto. }
    assert (Hof : forall i v, nth_error mid i = Some v -> exists s, nth_error subs i = Some s /\ s_host v = s_host s /\ s_nbound v <= length (s_parts v) /\ s_mass v = fold_right (fun p q => (pmass p + q)%Q) 0%Q (firstn (s_nbound v) (s_parts v)) /\ (1 < s_nbound v -> NoDup (part_ids v)) /\
       (1 < s_nbound v -> i < length moved -> s_host s <> (-1)%Z -> 1 < s_nbound s)).
    { intros i v Hv. destruct (nth_error_in_range subs i) as [s Hs]; [rewrite <- HL; eapply nth_error_lt; eauto|]. exists s. split; [exact Hs|]. destruct (Forall2_nth _ _ _ i s HS Hs) as (v' & Hv' & Hpl). assert (v' = v) by congruence. subst v'. split; [symmetry; apply Hpl|].
      assert (Hd : (length moved <= i \/ s_host s = (-1)%Z) \/ (i < length moved /\ s_host s <> (-1)%Z)) by (clear; destruct (Nat.lt_ge_cases i (length moved)), (Z.eq_dec (s_host s) (-1)); auto).
      destruct Hd as [Hd|[Hi Hh]].
      - destruct (HP i s Hs Hd) as (u & Hu & _ & P1 & P2 & P3 & _). assert (u = v) by congruence. subst u. split; [exact P2|]. split; [exact P3|]. split.
        + intros _. unfold part_ids. eapply Permutation_NoDup; [apply Permutation_map, Permutation_sym, P1|]. apply (Honce i s Hs).
        + intros _ A B. destruct Hd as [Hd|Hd]; [clear -A Hd; lia|contradiction].
      - destruct (grouped i s Hs Hi Hh) as (h & c & rest & Hg & Hin & _). destruct (HG h c rest Hg) as (others & _ & HT & _). destruct (Htree h c rest Hg) as (t & a & b & HSP & HPm & HV & HCa & HNd).
        destruct (HT i s Hin Hs) as (u & HU). destruct (Nat.leb_spec (s_nbound s) 1) as [Hb|Hb]; destruct HU as [HU HZ]; rewrite zget_of_nat, Hv in HZ; injection HZ as ->.
        + destruct (unbinding_small s u HU (Hcomp s (nth_error_In _ _ Hs) Hb)) as [E1 E2]. destruct HU as (_ & _ & P2 & P3 & _). cbn. rewrite E1. split; [rewrite app_length; clear; lia|]. split.
          * rewrite P3, E1, E2, firstn_app, firstn_all, Nat.sub_diag. cbn. rewrite app_nil_r. reflexivity.
          * pose proof (Hcomp s (nth_error_In _ _ Hs) Hb) as Hc. split; intros; clear -Hc H; lia.
        + destruct HU as (_ & P1 & P2 & P3 & _). split; [exact P2|]. split; [exact P3|]. split; [|intros; exact Hb]. intros _. assert (Hit : In (Z.of_nat i) (nodes t)) by (eapply Permutation_in; [symmetry; exact HPm|]; apply in_zs; exact Hin).
          destruct (HV _ Hit) as (s0 & w & l & A & B & C & D). rewrite zget_of_nat in A, D. assert (s0 = s) by congruence. subst s0. assert (u = set_nest (s_nest s) w) by congruence. subst u. change (part_ids (set_nest (s_nest s) w)) with (part_ids w).
          eapply (tree_once a b t HSP HCa HNd (Z.of_nat i) w Hit); [|exact C]. unfold core_of. rewrite B. cbn [s_nbound set_nest]. apply Nat.ltb_lt. exact Hb. }
    split.
    - apply Forall_forall. intros v Hv. apply in_map_iff in Hv as (w & <- & Hw). apply In_nth_error in Hw as [i Hi]. destruct (Hof i w Hi) as (s & _ & _ & A & B & C & _). apply truncate_owned; assumption.
    - intros i j v1 v2 H1 H2 Hne Eh Hh Hb1 Hb2 id Hid1 Hid2. rewrite nth_error_map in H1, H2. destruct (nth_error mid i) as [w1|] eqn:E1; [|discriminate]. destruct (nth_error mid j) as [w2|] eqn:E2; [|discriminate]. cbn in H1, H2. injection H1 as <-. injection H2 as <-.
      destruct (Hof i w1 E1) as (s1 & Hs1 & EH1 & L1 & _ & _ & C1). destruct (Hof j w2 E2) as (s2 & Hs2 & EH2 & L2 & _ & _ & C2).
      destruct (truncate_bound allowed allowed_ok w1 L1) as [B1 N1]. destruct (truncate_bound allowed allowed_ok w2 L2) as [B2 N2]. rewrite B1 in Hid1. rewrite B2 in Hid2. rewrite N1 in Hb1. rewrite N2 in Hb2. change (s_host (truncate allowed w1)) with (s_host w1) in *. change (s_host (truncate allowed w2)) with (s_host w2) in *.
      destruct (same_group i j s1 s2 Hs1 Hs2 Hne) as (h & c & rest & Hg & Hi & Hj); [congruence|congruence|].
      destruct (Htree h c rest Hg) as (t & a & b & HSP & HPm & HV & HCa & HNd).
      assert (Hcb : NoDup (flat_map (fun i => map fst (core_bound a b i)) (nodes t))). { rewrite <- map_flat_map. eapply NoDup_app_remove_r. rewrite <- map_app. eapply Permutation_NoDup; [apply Permutation_map, Permutation_sym, (tree_conserved a b t HSP HCa)|exact HNd]. }
      assert (Hlt : forall k, In k (c :: rest) -> k < length moved). { intros k Hk. destruct (table_member _ _ _ _ _ HN _ _ k Hg Hk) as (? & _ & _ & H). exact H. }
      assert (HB : forall k w sk, In k (c :: rest) -> nth_error mid k = Some w -> nth_error subs k = Some sk -> 1 < s_nbound sk -> In id (bound_ids w) -> In (Z.of_nat k) (nodes t) /\ In id (map fst (core_bound a b (Z.of_nat k)))).
      { intros k w sk Hk Hw Hsk Hbk Hidk. assert (Hit : In (Z.of_nat k) (nodes t)) by (eapply Permutation_in; [symmetry; exact HPm|]; apply in_zs; exact Hk). split; [exact Hit|].
        destruct (HV _ Hit) as (s0 & w0 & l & A & B & C & D). rewrite zget_of_nat in A, D. assert (s0 = sk) by congruence. subst s0. assert (w = set_nest (s_nest sk) w0) by congruence. subst w.
        unfold core_bound, core_of, bound_parts. rewrite B, C. cbn [s_nbound set_nest]. rewrite (proj2 (Nat.ltb_lt _ _) Hbk). rewrite <- firstn_map'. exact Hidk. }
      destruct (HB i w1 s1 Hi E1 Hs1 (C1 Hb1 (Hlt i Hi) ltac:(congruence)) Hid1) as [A1 A2]. destruct (HB j w2 s2 Hj E2 Hs2 (C2 Hb2 (Hlt j Hj) ltac:(congruence)) Hid2) as [A3 A4].
      eapply (NoDup_flat_apart _ _ (Z.of_nat i) (Z.of_nat j) id Hcb A1 A3); [intros EE; apply Nat2Z.inj in EE; contradiction|exact A2|exact A4].
  Qed.
  End W.

  (** ** Merging *)
  Local Notation merging_done := (merging_done neg pos lt energy inner no_energy pmass min_part converged max_sample refine allowed snap near).
  (** [i] was given the particles of another subhalo. *)
  Definition fed_by_merger (n : nat) (out : subs_t) (i : Z) : Prop := exists m d, (m < Z.of_nat n)%Z /\ zget out m = Some d /\ s_sink d = i /\ s_snapsink d = snap /\ s_death d = snap /\ s_nbound d <= 1.
  Lemma owned_same (s u : sub X R) : owned s -> s_parts u = s_parts s -> s_nbound u = s_nbound s -> s_mass u = s_mass s -> owned u.
  Proof using Type. intros [A B C] E1 E2 E3. split; unfold part_ids in *; rewrite ?E1, ?E2, ?E3; assumption. Qed.
  Lemma detected_same sinks i (s u : sub X R) : detected snap sinks i s u -> s_parts u = s_parts s /\ s_nbound u = s_nbound s /\ s_mass u = s_mass s /\ s_host u = s_host s /\ s_death u = s_death s /\ ((s_sink s = (-1)%Z) -> (s_sink u = (-1)%Z) \/ (s_snapsink u = snap /\ exists k, sinks i k)).
  Proof using Type. unfold detected. destruct (Z.eqb_spec (s_sink s) (-1)) as [Es|Es]; [intros [(k & Hk & ->)|[_ ->]]|intros ->]; cbn; repeat (split; [reflexivity|]); intros HH; [right; split; [reflexivity|exists k; exact Hk]|left; exact HH|contradiction]. Qed.
  Lemma merge_owned heads mt n (subs out : subs_t) : (forall p c, inside heads subs p c -> (c < Z.of_nat n)%Z) -> Forall (settled (X := X) (R := R)) subs -> Forall owned subs -> apart subs -> merging_done heads mt subs out ->
    Forall owned out /\
    forall i j s u, nth_error out i = Some s -> nth_error out j = Some u -> i <> j -> s_host s = s_host u -> s_host s <> (-1)%Z -> 1 < s_nbound s -> 1 < s_nbound u ->
      (mt = true -> ~ fed_by_merger n out (Z.of_nat i) /\ ~ fed_by_merger n out (Z.of_nat j)) -> forall id, In id (bound_ids s) -> ~ In id (bound_ids u).
  Proof using min_ok allowed_ok snap_ok.
    intros Hold HS HO HA (marked & L1 & L2 & HD & HM). rewrite Forall_zget in HS, HO.
    assert (Hmk : forall i m, zget marked i = Some m -> exists s, zget subs i = Some s /\ s_parts m = s_parts s /\ s_nbound m = s_nbound s /\ s_host m = s_host s /\ owned m /\ (sinking m -> s_snapsink m = snap /\ (i < Z.of_nat n)%Z)).
    { intros i m Hm. destruct (zget_in_range subs i) as [s Hs]; [rewrite <- L1; eapply zget_some; eauto|]. exists s. split; [exact Hs|]. destruct (HD i s Hs) as (m' & Hm' & Hd). assert (m' = m) by congruence. subst m'.
      destruct (detected_same _ _ _ _ Hd) as (A & B & C & D & F & G). split; [exact A|]. split; [exact B|]. split; [exact D|]. split; [eapply owned_same; [apply (HO i s Hs)| | |]; assumption|].
      intros [K1 K2]. destruct (HS i s Hs) as (T & _). rewrite F in K2. destruct (G (T K2)) as [G1|(G1 & k & d & G2 & _)]; [contradiction|]. split; [exact G1|]. apply above_parent in G2 as [q Hq]. exact (Hold q i Hq). }
    destruct mt.
    - (* what a merged subhalo becomes *)
      assert (Hrem : forall m u, sinking m -> owned m -> remains pmass snap m u -> owned u /\ s_nbound u <= 1 /\ s_death u = snap /\ s_sink u = s_sink m /\ s_snapsink u = s_snapsink m /\ length (s_parts u) <= 1).
      { intros m u _ Om Hr. unfold remains in Hr. destruct (Nat.leb_spec (s_nbound m) 1) as [Hb|Hb]; [subst u|destruct Hr as (p & r & _ & ->)]; cbn.
        - split; [eapply owned_same; [exact Om| | |]; reflexivity|]. split; [exact Hb|]. split; [reflexivity|]. split; [reflexivity|]. split; [reflexivity|]. apply (ow_single _ _ Om Hb).
        - split; [|auto]. split; cbn; [reflexivity|apply short_nodup; cbn; auto|auto]. }
      assert (Hjoin : forall i, (exists k, k <> i /\ joins marked k i) -> fed_by_merger n out i).
      { intros i (k & Hk & HJ). destruct (joins_direct _ _ _ HJ Hk) as (m & s & Hmi & Hm & Hsk & Hb & Es). destruct (HM m s Hm) as (u & v & Hv & [W1 _] & H1 & H2). destruct (Hmk m s Hm) as (_ & _ & _ & _ & _ & Om & Hss).
        destruct (Hrem s u Hsk Om (W1 Hsk)) as (Ou & N1 & D1 & K1 & K2 & P1). destruct (Hss Hsk) as [Hss1 Hss2]. exists m, v. split; [exact Hss2|]. split; [exact Hv|]. destruct (joins_dec marked m) as [Hj|Hj].
        - rewrite (H2 Hj). rewrite K1, K2, D1. auto.
        - destruct (H1 Hj) as (w & HU & ->). change (s_sink (truncate allowed w)) with (s_sink w). change (s_snapsink (truncate allowed w)) with (s_snapsink w). change (s_death (truncate allowed w)) with (s_death w).
          destruct (unbinding_small u w HU P1) as [B1 _]. destruct HU as (_ & _ & B2 & _ & [[F _ _ _]|[_ _ _ F1 F2]]); [clear -F P1 min_ok; lia|]. destruct F2 as [F2 F3]. rewrite F1, F2, F3, D1, K1, K2.
          split; [exact Es|]. split; [auto|]. split; [destruct (Z.eqb_spec snap (-1)); reflexivity|]. destruct (truncate_bound allowed allowed_ok w B2) as [_ ->]. rewrite B1. exact P1. }
      split.
      + apply Forall_zget. intros i v Hv. destruct (zget_in_range marked i) as [m Hm]; [rewrite L1, <- L2; eapply zget_some; eauto|]. destruct (HM i m Hm) as (u & v' & Hv' & [W1 W2] & H1 & H2). assert (v' = v) by congruence. subst v'. destruct (Hmk i m Hm) as (s & _ & _ & _ & _ & Om & _).
        destruct (joins_dec marked i) as [Hj|Hj].
        * rewrite (H2 Hj). destruct (sinking_dec m) as [Hk|Hk]; [apply (Hrem m u Hk Om (W1 Hk))|]. destruct (W2 Hk) as [_ _ W3]. rewrite (W3 Hj). exact Om.
        * destruct (H1 Hj) as (w & HU & ->). eapply unbinding_owned; [exact HU|]. destruct (sinking_dec m) as [Hk|Hk]; [apply (Hrem m u Hk Om (W1 Hk))|]. destruct (W2 Hk) as [(extra & n' & -> & N1 & N2 & _) _ _]. unfold part_ids. cbn. rewrite map_app. apply NoDup_app_intro; [apply (ow_once _ _ Om)|exact N1|]. intros id Ha Hb. exact (N2 id Hb Ha).
      + assert (Hback : forall i v, nth_error out i = Some v -> 1 < s_nbound v -> ~ fed_by_merger n out (Z.of_nat i) -> exists s, nth_error subs i = Some s /\ s_host v = s_host s /\ s_nbound v = s_nbound s /\ bound_ids v = bound_ids s).
        { intros i v Hv Hb Hf. rewrite <- zget_of_nat in Hv. destruct (zget_in_range marked (Z.of_nat i)) as [m Hm]; [rewrite L1, <- L2; eapply zget_some; eauto|]. destruct (HM _ m Hm) as (u & v' & Hv' & [W1 W2] & H1 & H2). assert (v' = v) by congruence. subst v'. destruct (Hmk _ m Hm) as (s & Hs & E1 & E2 & E3 & Om & _).
          destruct (joins_dec marked (Z.of_nat i)) as [Hj|Hj]; [|destruct Hf; apply Hjoin; exact Hj]. rewrite (H2 Hj) in *. destruct (sinking_dec m) as [Hk|Hk]; [destruct (Hrem m u Hk Om (W1 Hk)) as (_ & N & _); clear -N Hb; lia|]. destruct (W2 Hk) as [_ _ W3]. rewrite (W3 Hj) in *.
          rewrite zget_of_nat in Hs. exists s. split; [exact Hs|]. split; [exact E3|]. split; [exact E2|]. unfold bound_ids, part_ids. rewrite E1, E2. reflexivity. }
        intros i j s u Hs Hu Hne Eh Hh B1 B2 HF id I1 I2. destruct (HF eq_refl) as [F1 F2]. destruct (Hback i s Hs B1 F1) as (s0 & A1 & A2 & A3 & A4). destruct (Hback j u Hu B2 F2) as (u0 & A5 & A6 & A7 & A8).
        rewrite A4 in I1. rewrite A8 in I2. refine (HA i j s0 u0 A1 A5 Hne _ _ _ _ id I1 I2); congruence.
    - subst out. split.
      + apply Forall_zget. intros i v Hv. destruct (Hmk i v Hv) as (_ & _ & _ & _ & _ & O & _). exact O.
      + intros i j s u Hs Hu Hne Eh Hh B1 B2 _ id I1 I2. rewrite <- zget_of_nat in Hs, Hu. destruct (Hmk _ _ Hs) as (s0 & A1 & A2 & A3 & A4 & _). destruct (Hmk _ _ Hu) as (u0 & A5 & A6 & A7 & A8 & _). rewrite zget_of_nat in A1, A5.
        unfold bound_ids, part_ids in I1, I2. rewrite A2, A3 in I1. rewrite A6, A7 in I2. refine (HA i j s0 u0 A1 A5 Hne _ _ _ _ id I1 I2); congruence.
  Qed.
End S.
