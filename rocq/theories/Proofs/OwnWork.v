(** Which particles belong to a subhalo after the whole work on a snapshot. *)
From Coq Require Import List ZArith QArith Bool Lia Sorting.Permutation.
From Verif.Model Require Import ListMem Mpi Run Hash Subhalo Tracks Nest UpdateTracks Mask Unbind Merge Work.
From Verif.Spec Require Import Members Forest Nesting NestHistory Masking Unbinding Sinking Ownership.
From Verif.Proofs Require Import ListMemProofs MpiProofs ListExtra MemberProofs NestProofs NestProofs2 LocalizeProofs HistorySteps HistorySteps2 HistoryProofs HaloWork MaskFinal UnbindProofs StripProofs RefineProofs DetectProofs MergeProofs MergeFinal WorkProofs OwnProofs.
From Verif.Props Require Import PropsMerge.
Import ListNotations.
Local Open Scope nat_scope.

Lemma sublist_nodup {A B} (f : A -> B) (l m : list A) : sublist l m -> NoDup (map f m) -> NoDup (map f l).
Proof.
  induction 1 as [|x a b H IH|x a b H IH]; cbn; intros Hn; [constructor|inversion Hn; auto|]. inversion Hn as [|? ? Hx Hn']; subst. constructor; [|auto].
  intros Hi. apply Hx. apply in_map_iff in Hi as (y & <- & Hy). apply in_map. eapply sublist_in; eauto.
Qed.

Section S.
  Context {X R E : Type}.
  Local Notation entry := (nat * E)%type.
  Variables neg pos : E -> bool.
  Variable lt : E -> E -> bool.
  Variable sorter : sort_site -> list entry -> list entry.
  Variable shuffle : list (Z * X) -> list (Z * X).
  Variable energy : list (Z * X) * R -> nat -> list entry -> nat -> E.
  Variable inner : list (Z * X) * R -> list entry -> nat -> E.
  Variable no_energy : E.
  Variable rest_of : list (Z * X) -> nat -> R -> R.
  Variable pmass : Z * X -> Q.
  Variables (min_part : nat) (converged : nat -> nat -> bool) (max_sample : nat) (refine : bool) (allowed : nat -> nat) (snap : Z).
  Variable near : nat * list (Z * X) * R -> nat * list (Z * X) * R -> bool.
  Hypothesis one_sign : forall e, neg e = true -> pos e = false.
  Hypothesis sorter_ok : forall site l, Permutation (sorter site l) l /\ ascending lt snd (sorter site l).
  Hypothesis shuffle_ok : forall l, Permutation (shuffle l) l.
  Hypothesis min_ok : 2 <= min_part.
  Hypothesis converged_ok : forall n, converged n n = true.
  Hypothesis allowed_ok : forall n, n <= allowed n.
  Hypothesis snap_ok : (0 <= snap)%Z.
  Local Notation work := (work neg pos sorter shuffle energy inner no_energy rest_of pmass min_part converged max_sample refine allowed snap near).
  Local Notation owned_refine := (refine_owned neg pos lt sorter shuffle energy inner no_energy rest_of pmass min_part converged max_sample refine allowed snap one_sign sorter_ok shuffle_ok min_ok converged_ok allowed_ok snap_ok).
  Local Notation settled_merge := (merge_settled neg pos lt sorter shuffle energy inner no_energy rest_of pmass min_part converged max_sample refine allowed snap near one_sign sorter_ok shuffle_ok min_ok converged_ok allowed_ok snap_ok).

  Lemma work_owned : forall (H : Type) (before : list (list (sub X R))) (ps : list (@proc X R H)) p merge_trapped oh oh2 os o1 o2 o3 o4 out,
    nest_history (H := H) before -> nest_begun before ps -> In p ps ->
    Permutation oh (seq 0 (length (p_halos p))) -> Permutation oh2 (seq 0 (length (p_halos p))) -> Permutation os (unnested (p_table p) (p_nested p)) ->
    Permutation o1 (seq 0 (length (p_nested p))) -> Permutation o2 (seq 0 (length (p_nested p))) -> Permutation o3 (seq 0 (length (p_halos p))) -> Permutation o4 (seq 0 (length (p_nested p))) ->
    Forall compact (p_nested p) -> Forall (fun s => NoDup (part_ids s)) (p_nested p) ->
    work merge_trapped (length (p_nested p)) oh oh2 os o1 o2 o3 o4 (p_table p) (p_heads p) (p_nested p) = Done out ->
    Forall (owned pmass) out /\
    forall i j s u, nth_error out i = Some s -> nth_error out j = Some u -> i <> j -> s_host s = s_host u -> s_host s <> (-1)%Z -> 1 < s_nbound s -> 1 < s_nbound u ->
      (merge_trapped = true -> ~ fed_by_merger snap (length (p_moved p)) out (Z.of_nat i) /\ ~ fed_by_merger snap (length (p_moved p)) out (Z.of_nat j)) -> forall id, In id (bound_ids s) -> ~ In id (bound_ids u).
  Proof.
    intros H before ps p mt oh oh2 os o1 o2 o3 o4 out HH HB Hp Hoh Hoh2 Hos P1 P2 P3 P4 Hc Hn EW.
    destruct (place_facts H before ps p HH HB Hp (p_nested p)) as (tn & HN & Hh & Hr). { clear. induction (p_nested p); constructor; [split; reflexivity|assumption]. }
    destruct (mask_halos_spec (p_moved p) (length (p_halos p)) (p_table p) (p_nested p) tn (p_heads p) HN Hh (length (p_nested p)) oh (le_n _) Hoh) as (a & Ea & La & Xa & Na & Ma).
    assert (Sa := mask_place H p a Ma). destruct (place_facts H before ps p HH HB Hp a Sa) as (ta & HNa & Hha & _).
    rewrite Forall_forall in Hc, Hn.
    assert (Hmask : forall i s, nth_error a i = Some s -> exists s0, nth_error (p_nested p) i = Some s0 /\ s_nbound s = s_nbound s0 /\ sublist (s_parts s) (s_parts s0) /\ (s_nbound s0 <= 1 -> s = s0)).
    { intros i s Hs. destruct (nth_error_in_range (p_nested p) i) as [s0 Hs0]; [rewrite <- La; eapply nth_error_lt; eauto|]. exists s0. split; [exact Hs0|].
      assert (Hd : (forall h g, nth_error (p_table p) (S h) = Some g -> ~ In i g) \/ exists h g, nth_error (p_table p) (S h) = Some g /\ In i g).
      { destruct (p_table p) as [|g0 tb]; [left; intros h g Hg; discriminate|]. cbn [nth_error]. clear. induction tb as [|g tb IH]; [left; intros [|h] g Hg; discriminate|]. destruct (in_dec Nat.eq_dec i g) as [Hi|Hi]; [right; exists 0, g; auto|].
        destruct IH as [IH|(h & g' & A & B)]; [left; intros [|h] g' Hg; [injection Hg as <-; exact Hi|exact (IH h g' Hg)]|right; exists (S h), g'; auto]. }
      destruct Hd as [Hd|(h & g & Hg & Hi)].
      - rewrite (Na i Hd) in Hs. assert (s = s0) by congruence. subst. split; [reflexivity|]. split; [|auto]. clear. induction (s_parts s0); constructor; assumption.
      - destruct (Xa h g Hg) as [_ _ _ _ X5 X6]. assert (Hz : In (Z.of_nat i) (zs g)) by (apply in_zs; exact Hi). rewrite <- zget_of_nat in Hs, Hs0.
        destruct (X5 _ _ Hz Hs0) as (k & Ek & Hk). rewrite Ek in Hs. injection Hs as <-. split; [reflexivity|]. split; [exact Hk|]. intros Hb. rewrite (X6 _ _ Hz Hs0 Hb) in Ek. congruence. }
    destruct (owned_refine _ _ _ _ _ _ HNa Hha Hr (length (p_nested p)) oh2 os) as (b & Eb & Sb & Tb & Ob & Ab); [lia|exact Hoh2|unfold unnested; rewrite La; exact Hos| | | |].
    { apply Forall_forall. intros s Hs Hb. apply In_nth_error in Hs as [i Hi]. destruct (Hmask i s Hi) as (s0 & A & B & _ & D). assert (s = s0) by (apply D; lia). subst s. apply (Hc s0 (nth_error_In _ _ A) Hb). }
    { intros i s Hi. destruct (Hmask i s Hi) as (s0 & A & _ & D & _). eapply sublist_nodup; [exact D|]. apply (Hn s0 (nth_error_In _ _ A)). }
    { intros h g i j id Hg. destruct (Xa h g Hg) as [_ X2 _ _ _ _]. apply X2. }
    assert (Sab : Forall2 same_place (p_nested p) b) by (eapply F2_trans; [apply same_place_trans|exact Sa|exact Sb]). destruct (place_facts H before ps p HH HB Hp b Sab) as (tb & HNb & Hhb & _).
    assert (Lb := Forall2_length_eq _ _ _ Sab). destruct (settled_merge _ _ _ _ _ _ HNb Hhb Hr mt (length (p_nested p)) o1 o2 o3 o4 Tb) as (out' & Eo & Mo); try (rewrite <- Lb; assumption); [lia|exact P3|].
    unfold Work.work, work_with in EW. unfold Unbind.refine_particles in Eb. rewrite Ea in EW. cbn [rbind] in EW. rewrite Eb in EW. cbn [rbind] in EW. assert (out' = out) by congruence. subst out'.
    eapply merge_owned; try eassumption. intros q c Hq. eapply inside_old; eassumption.
  Qed.
End S.
