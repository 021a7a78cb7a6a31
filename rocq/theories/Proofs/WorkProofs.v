(** The subhalos after unbinding, and the work of a whole snapshot. *)
From Coq Require Import List ZArith QArith Bool Lia Sorting.Permutation.
From Verif.Model Require Import ListMem Mpi Run Hash Subhalo Tracks Nest UpdateTracks Mask Unbind Merge Work.
From Verif.Spec Require Import Members Forest Nesting NestHistory Masking Unbinding Sinking.
From Verif.Proofs Require Import ListMemProofs MpiProofs ListExtra MemberProofs NestProofs NestProofs2 TreeProofs LocalizeProofs ForestSteps HistorySteps HistorySteps2 HistoryProofs GlueTree HaloWork MaskFinal UnbindProofs StripProofs RefineProofs DetectProofs MergeProofs MergeFinal.
Import ListNotations.
Local Open Scope nat_scope.

Lemma heads_same {X R} (a b : list (sub X R)) table : Forall2 same_place a b -> mapM (heads_of b) table = mapM (heads_of a) table.
Proof.
  intros HS. assert (HE : forall g, heads_of b g = heads_of a g).
  { intros g. unfold heads_of. assert (HE : forall j, option_map s_rank (nth_error b j) = option_map s_rank (nth_error a j)).
    { intros j. destruct (nth_error a j) as [x|] eqn:Ea.
      - destruct (Forall2_nth _ _ _ j x HS Ea) as (y & Hb & E & _). rewrite Hb. cbn. apply nesting_fields in E as (_ & E & _). congruence.
      - destruct (nth_error b j) as [y|] eqn:Eb; [|reflexivity]. apply nth_error_lt in Eb. rewrite <- (Forall2_length_eq _ _ _ HS) in Eb. apply nth_error_None in Ea. lia. }
    induction g as [|j g IH]; [reflexivity|]. cbn [mapM]. specialize (HE j). destruct (nth_error b j) as [y|], (nth_error a j) as [x|]; try discriminate; [|reflexivity]. cbn in HE. injection HE as HE.
    destruct (mapM (nth_error b) g) as [u|], (mapM (nth_error a) g) as [v|]; try discriminate; [|reflexivity]. cbn [combine filter snd]. rewrite HE. injection IH as IH. destruct (s_rank x =? 0)%Z; cbn [map fst]; congruence. }
  induction table as [|g l IH]; [reflexivity|]. cbn. rewrite HE, IH. reflexivity.
Qed.
Lemma same_place_trans {X R} (a b c : sub X R) : same_place a b -> same_place b c -> same_place a c.
Proof. intros [A B] [C D]. split; congruence. Qed.
Lemma F2_trans {A} (P : A -> A -> Prop) : (forall a b c, P a b -> P b c -> P a c) -> forall a b c, Forall2 P a b -> Forall2 P b c -> Forall2 P a c.
Proof. intros HP a b c H. revert c. induction H as [|x y l l' Hx H IH]; intros c Hc; inversion Hc; subst; constructor; eauto. Qed.

Lemma nth_combine {A B} (l : list A) (m : list B) i a b : nth_error (combine l m) i = Some (a, b) <-> nth_error l i = Some a /\ nth_error m i = Some b.
Proof.
  revert m i. induction l as [|x l IH]; intros [|y m] [|i]; cbn; try (split; [discriminate|intros [? ?]; discriminate]).
  - split; [intros E; injection E; intros -> ->; auto|intros [E1 E2]; congruence].
  - apply IH.
Qed.
Section J.
  Context {X R : Type}.
  Local Notation subs_t := (list (sub X R)).
  Lemma joins_direct (a : subs_t) k i : joins a k i -> k <> i -> exists m s, m <> i /\ zget a m = Some s /\ sinking s /\ 1 < s_nbound s /\ s_sink s = i.
  Proof.
    induction 1 as [i|k s i Hs H1 H2 HJ IH]; intros Hne; [congruence|]. destruct (Z.eq_dec (s_sink s) i) as [Hi|Hi]; [exists k, s; auto|]. exact (IH Hi).
  Qed.
  Lemma joins_dec (a : subs_t) i : (forall k, joins a k i -> k = i) \/ exists k, k <> i /\ joins a k i.
  Proof.
    set (f := fun ks : Z * sub X R => negb (fst ks =? i)%Z && negb (s_sink (snd ks) =? -1)%Z && (s_death (snd ks) =? -1)%Z && (1 <? s_nbound (snd ks)) && (s_sink (snd ks) =? i)%Z).
    destruct (existsb f (combine (map Z.of_nat (seq 0 (length a))) a)) eqn:EF.
    - right. apply existsb_exists in EF as ([k s] & Hin & Hf). unfold f in Hf. cbn [fst snd] in Hf. rewrite !andb_true_iff, !negb_true_iff, !Z.eqb_neq, !Z.eqb_eq, Nat.ltb_lt in Hf. destruct Hf as ((((A & B) & C) & D) & F).
      exists k. split; [exact A|]. apply (joins_step a k s i); [|split; assumption|exact D|rewrite F; constructor].
      apply In_nth_error in Hin as [j Hj]. apply nth_combine in Hj as [Hj1 Hj2]. rewrite nth_error_map, nth_seq in Hj1. destruct (j <? length a) eqn:Ej; [|discriminate]. injection Hj1 as <-. rewrite zget_of_nat. exact Hj2.
    - left. intros k HJ. destruct (Z.eq_dec k i) as [|Hne]; [assumption|]. destruct (joins_direct _ _ _ HJ Hne) as (m & s & A & B & (C1 & C2) & D & F). exfalso.
      rewrite <- not_true_iff_false in EF. apply EF. apply existsb_exists. exists (m, s). split.
      + pose proof (zget_some _ _ _ B). rewrite zget_nat in B by lia. apply (nth_error_In _ (Z.to_nat m)). apply nth_combine. split; [|exact B]. rewrite nth_error_map, nth_seq, (proj2 (Nat.ltb_lt _ _)) by (eapply nth_error_lt; eauto). cbn. f_equal. lia.
      + unfold f. cbn [fst snd]. rewrite !andb_true_iff, !negb_true_iff, !Z.eqb_neq, !Z.eqb_eq, Nat.ltb_lt. auto.
  Qed.
  Lemma sinking_dec (s : sub X R) : sinking s \/ ~ sinking s.
  Proof. unfold sinking. destruct (Z.eq_dec (s_sink s) (-1)), (Z.eq_dec (s_death s) (-1)); [right|right|left|right]; tauto. Qed.
  Lemma Forall_zget (P : sub X R -> Prop) (l : subs_t) : Forall P l <-> forall i s, zget l i = Some s -> P s.
  Proof.
    rewrite Forall_forall. split.
    - intros H i s Hi. pose proof (zget_some _ _ _ Hi). rewrite zget_nat in Hi by lia. apply H. eapply nth_error_In; eauto.
    - intros H s Hs. apply In_nth_error in Hs as [i Hi]. apply (H (Z.of_nat i)). rewrite zget_of_nat. exact Hi.
  Qed.
End J.

Section S.
  Context {X R E : Type}.
  Local Notation subs_t := (list (sub X R)).
  Local Notation entry := (nat * E)%type.
  Variables neg pos : E -> bool.
  Variable lt : E -> E -> bool.
  Variable sorter : sort_site -> list entry -> list entry.
  Variable shuffle : list (Z * X) -> list (Z * X).
  Variable energy : list (Z * X) * R -> nat -> list entry -> nat -> E.
  Variable inner : list (Z * X) * R -> list entry -> nat -> E.
  Variable no_energy : E.
  Variable rest_of : list (Z * X) -> nat -> R -> R.
  Variable pmass : Z * X -> Q.
  Variables (min_part : nat) (converged : nat -> nat -> bool) (max_sample : nat) (refine : bool) (allowed : nat -> nat) (snap : Z).
  Variable near : nat * list (Z * X) * R -> nat * list (Z * X) * R -> bool.
  Hypothesis one_sign : forall e, neg e = true -> pos e = false.
  Hypothesis sorter_ok : forall site l, Permutation (sorter site l) l /\ ascending lt snd (sorter site l).
  Hypothesis shuffle_ok : forall l, Permutation (shuffle l) l.
  Hypothesis min_ok : 2 <= min_part.
  Hypothesis converged_ok : forall n, converged n n = true.
  Hypothesis allowed_ok : forall n, n <= allowed n.
  Hypothesis snap_ok : (0 <= snap)%Z.
  Local Notation unbind := (unbind neg pos sorter shuffle energy inner no_energy rest_of pmass min_part converged max_sample refine snap).
  Local Notation unbinding := (unbinding neg pos lt energy inner no_energy min_part converged max_sample refine snap pmass).
  Local Notation stripped := (stripped neg pos lt energy inner no_energy min_part converged max_sample refine snap pmass).
  Local Notation refine_particles := (refine_particles neg pos sorter shuffle energy inner no_energy rest_of pmass min_part converged max_sample refine allowed snap).
  Local Notation unbind_total := (unbind_total neg pos lt sorter shuffle energy inner no_energy rest_of pmass min_part converged max_sample refine snap one_sign sorter_ok shuffle_ok min_ok converged_ok).
  Local Notation refine_ok := (refine_ok neg pos lt sorter shuffle energy inner no_energy rest_of pmass min_part converged max_sample refine allowed snap one_sign sorter_ok shuffle_ok min_ok converged_ok).

  (** What is known of every subhalo right after RefineParticles. *)
  Definition settled (v : sub X R) : Prop :=
    (s_death v = -1 -> s_sink v = -1)%Z /\ (1 < s_nbound v -> s_death v = (-1)%Z) /\ s_nbound v <= length (s_parts v).
  Lemma unbinding_settled s u : unbinding s u -> settled u.
  Proof.
    intros (_ & _ & HL & _ & [[_ _ A [B _]]|[_ A _ B _]]); split.
    - intros _. exact B.
    - split; [intros _; exact A|exact HL].
    - intros HD. rewrite HD in B. destruct (Z.eqb_spec (s_death s) (-1)); lia.
    - split; [rewrite A; lia|exact HL].
  Qed.
  Lemma truncate_settled v : settled v -> settled (truncate allowed v).
  Proof.
    intros (A & B & C). destruct (truncate_ok allowed allowed_ok v C) as (n & -> & Hn & _). split; [exact A|]. split; [exact B|]. cbn. rewrite firstn_length. lia.
  Qed.

  Section W.
  Variables (moved : subs_t) (nh : nat) (table : list (list nat)) (subs : subs_t) (ts : list tree) (heads : list (list nat)).
  Hypothesis HN : nested_as moved nh table subs ts.
  Hypothesis Hheads : mapM (heads_of subs) (tl table) = Some heads.
  Hypothesis Hhosts : Forall (fun s => (-1 <= s_host s < Z.of_nat nh)%Z) moved.

  Lemma refine_settled fuel order order2 : length subs <= fuel -> Permutation order (seq 0 nh) -> Permutation order2 (unnested table subs) ->
    exists out, refine_particles fuel order order2 table heads subs = Done out /\ Forall2 same_place subs out /\ Forall settled out.
  Proof.
    intros Hf Ho Ho2. destruct (refine_ok _ _ _ _ _ _ HN Hheads Hhosts fuel order order2 Hf Ho Ho2) as (mid & EQ & HL & HG & HP & HS). exists (map (truncate allowed) mid). split; [exact EQ|].
    assert (HTP : Permutation (concat table) (seq 0 (length moved))) by (eapply (table_perm neg pos); eassumption).
    assert (Hset : Forall settled mid).
    { apply Forall_forall. intros v Hv. apply In_nth_error in Hv as [i Hi]. destruct (nth_error_in_range subs i) as [s Hs]; [rewrite (Forall2_length_eq _ _ _ HS); eapply nth_error_lt; eauto|].
      destruct (Nat.lt_ge_cases i (length moved)) as [Hlt|Hge].
      - assert (Hc : In i (concat table)) by (apply (Permutation_in _ (Permutation_sym HTP)); apply in_seq; lia). apply in_concat in Hc as (g & Hg & Hc). apply In_nth_error in Hg as [[|h] Hg].
        + destruct (table_member _ _ _ _ _ HN _ _ i Hg Hc) as (s' & Hs' & Eh & _). assert (s' = s) by congruence. subst s'. destruct (HP i s Hs) as (u & A & B); [right; lia|]. assert (u = v) by congruence. subst. eapply unbinding_settled; eauto.
        + destruct g as [|c rest]; [destruct Hc|]. destruct (HG h c rest Hg) as (others & _ & HT & _). destruct (HT i s Hc Hs) as (u & HU). 
          destruct (s_nbound s <=? 1); destruct HU as [HU HZ].
          * rewrite zget_of_nat, Hi in HZ. injection HZ as ->. pose proof (unbinding_settled _ _ HU) as (A & B & C). destruct HU as (_ & HPm & _). split; [exact A|]. split; [exact B|].
            cbn. rewrite app_length, <- (Permutation_length HPm). lia.
          * rewrite zget_of_nat, Hi in HZ. injection HZ as ->. eapply unbinding_settled; eauto.
      - destruct (HP i s Hs (or_introl Hge)) as (u & A & B). assert (u = v) by congruence. subst. eapply unbinding_settled; eauto. }
    split.
    - clear -HS. induction HS as [|a b l l' Hab HS IH]; [constructor|]. cbn. constructor; [|exact IH]. exact Hab.
    - clear EQ HL HG HP HS. induction Hset as [|v l Hv Hset IH]; cbn; [constructor|]. constructor; [apply truncate_settled; assumption|exact IH].
  Qed.

  Lemma inside_unique a b c : inside heads subs a c -> inside heads subs b c -> a = b.
  Proof.
    destruct (glued_trees _ _ _ _ _ _ HN Hheads) as (g & sizes & Eg & _). intros H1 H2. rewrite <- (g_inside moved nh table subs ts heads HN Hheads g sizes Eg) in H1, H2. eapply (g_par moved nh table subs ts heads HN Hheads Hhosts g sizes Eg); eassumption.
  Qed.
  Lemma sinks_unique i k k' : sinks_to near heads subs i k -> sinks_to near heads subs i k' -> k = k'.
  Proof.
    intros (d & A & B & C) (d' & A' & B' & C'). destruct (lt_eq_lt_dec d d') as [[H|H]|H]; [exfalso; eapply C'; eauto|subst d'; eapply (above_fun _ inside_unique); eauto|exfalso; eapply C; eauto].
  Qed.
  Variable merge_trapped : bool.
  Definition merging_done (mt : bool) (subs out : subs_t) : Prop := exists marked, length marked = length subs /\ length out = length subs /\
      (forall i s, zget subs i = Some s -> exists u, zget marked i = Some u /\ detected snap (sinks_to near heads subs) i s u) /\
      (if mt then after_merge pmass unbinding (truncate allowed) snap marked out else out = marked).
  Lemma merge_settled fuel o1 o2 o3 o4 : Forall settled subs -> length subs <= fuel -> Permutation o1 (seq 0 (length subs)) -> Permutation o2 (seq 0 (length subs)) -> Permutation o3 (seq 0 nh) -> Permutation o4 (seq 0 (length subs)) ->
    exists out, merge_subhalos near pmass snap unbind (truncate allowed) merge_trapped fuel o1 o2 o3 o4 table heads subs = Done out /\ merging_done merge_trapped subs out.
  Proof.
    intros HS Hf P1 P2 P3 P4. destruct (glued_trees _ _ _ _ _ _ HN Hheads) as (g & sizes & Eg & _). rewrite Forall_forall in HS.
    destruct (merge_ok moved nh table subs ts heads HN Hheads Hhosts g sizes Eg near pmass snap unbind unbinding (truncate allowed)) with (merge_trapped := merge_trapped) (fuel := fuel) (o1 := o1) (o2 := o2) (o3 := o3) (o4 := o4) as (marked & out & EQ & L1 & L2 & HD & HM); try assumption.
    - intros s. apply unbind_total.
    - intros s u HU. apply unbinding_place in HU. destruct HU as [A _]. apply nesting_fields in A. destruct A as (_ & _ & A). congruence.
    - intros l s u. apply unbinding_nest.
    - reflexivity.
    - reflexivity.
    - intros i s Hi Hs HD. apply Hs. pose proof (zget_some _ _ _ Hi). rewrite zget_nat in Hi by lia. destruct (HS s (nth_error_In _ _ Hi)) as (A & _). auto.
    - intros i s Hi Hb. pose proof (zget_some _ _ _ Hi). rewrite zget_nat in Hi by lia. destruct (HS s (nth_error_In _ _ Hi)) as (_ & A & B). split; [auto|]. destruct (s_parts s); [cbn in B; lia|discriminate].
    - exists out. split; [exact EQ|]. exists marked. auto.
  Qed.
  End W.

  Lemma detected_place sinks i s (u : sub X R) : detected snap sinks i s u -> same_place s u.
  Proof. unfold detected. destruct (s_sink s =? -1)%Z; [intros [(k & _ & ->)|[_ ->]]|intros ->]; split; reflexivity. Qed.
  Lemma merged_place a i s (u : sub X R) : merged pmass snap a i s u -> same_place s u.
  Proof.
    intros [A B]. assert (sinking s \/ ~ sinking s) as [H|H].
    { unfold sinking. destruct (Z.eq_dec (s_sink s) (-1)), (Z.eq_dec (s_death s) (-1)); [right|right|left|right]; tauto. }
    - specialize (A H). unfold remains in A. destruct (s_nbound s <=? 1); [subst u|destruct A as (p & r & _ & ->)]; split; reflexivity.
    - destruct (B H) as [(extra & n & -> & _) _ _]. split; reflexivity.
  Qed.
  Lemma merging_place heads mt subs out : merging_done heads mt subs out -> Forall2 same_place subs out.
  Proof.
    intros (marked & L1 & L2 & HD & HM). apply Forall2_of_nth; [congruence|]. intros i a b Ha Hb. rewrite <- zget_of_nat in Ha, Hb. destruct (HD _ _ Ha) as (u & Hu & HDu). apply detected_place in HDu.
    destruct mt; [|subst out; assert (u = b) by congruence; subst; exact HDu].
    destruct (HM _ _ Hu) as (w & v & Hv & HW & H1 & H2). assert (v = b) by congruence. subst v. apply merged_place in HW. eapply same_place_trans; [exact HDu|]. eapply same_place_trans; [exact HW|].
    destruct (joins_dec marked (Z.of_nat i)) as [Hs|Hs]; [rewrite (H2 Hs); split; reflexivity|]. destruct (H1 Hs) as (y & HU & ->). apply unbinding_place in HU. exact HU.
  Qed.
  (** What is known of every subhalo after MergeSubhalos. *)
  Definition settled_after (mt : bool) (v : sub X R) : Prop :=
    (s_death v = -1 -> s_sink v <> -1 -> mt = false /\ s_snapsink v = snap)%Z /\ (1 < s_nbound v -> s_death v = (-1)%Z) /\ s_nbound v <= length (s_parts v).
  Lemma settled_later mt v : settled v -> settled_after mt v.
  Proof. intros (A & B & C). split; [intros D F; destruct (F (A D))|]. auto. Qed.
  Lemma merging_settled heads mt subs out : Forall settled subs -> merging_done heads mt subs out -> Forall (settled_after mt) out.
  Proof.
    intros HS (marked & L1 & L2 & HD & HM). rewrite Forall_zget in HS. apply Forall_zget. intros i v Hv. pose proof (zget_some _ _ _ Hv) as Hr. destruct (zget_in_range subs i) as [s Hs]; [lia|].
    destruct (HS i s Hs) as (A & B & C). destruct (HD i s Hs) as (m & Hm & HDm).
    assert (HMm : settled_after false m).
    { unfold detected in HDm. destruct (Z.eqb_spec (s_sink s) (-1)) as [Es|Es]; [destruct HDm as [(k & _ & ->)|[_ ->]]|subst m]; split; cbn; auto; intros F1 F2; (split; [reflexivity|]); [destruct (F2 Es)|destruct (F2 (A F1))]. }
    destruct mt; [|subst out; assert (m = v) by congruence; subst; exact HMm].
    destruct (HM i m Hm) as (u & v' & Hv' & [W1 W2] & H1 & H2). assert (v' = v) by congruence. subst v'. destruct (joins_dec marked i) as [Hj|Hj].
    - rewrite (H2 Hj). destruct HMm as (D1 & D2 & D3). destruct (sinking_dec m) as [Hk|Hk].
      + specialize (W1 Hk). unfold remains in W1. destruct (Nat.leb_spec (s_nbound m) 1); [subst u|destruct W1 as (x & r & _ & ->)]; split; cbn; try lia; split; try lia. 
      + destruct (W2 Hk) as [_ _ W3]. rewrite (W3 Hj). split; [|split; assumption]. intros F1 F2. destruct Hk. split; assumption.
    - destruct (H1 Hj) as (w & HU & ->). apply settled_later, truncate_settled. eapply unbinding_settled; eauto.
  Qed.
End S.
