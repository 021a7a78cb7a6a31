(** Property C86: the build with inclusive masses. *)
From Coq Require Import List ZArith QArith Bool Lia Sorting.Permutation.
From Verif.Model Require Import ListMem Mpi Run Hash Subhalo Tracks Nest UpdateTracks Mask Unbind Merge Work Variants.
From Verif.Spec Require Import Members Forest Nesting NestHistory Masking Unbinding Sinking Inclusive.
From Verif.Proofs Require Import ListMemProofs MpiProofs ListExtra MemberProofs NestProofs NestProofs2 LocalizeProofs HistorySteps HistorySteps2 HistoryProofs HaloWork MaskFinal UnbindProofs StripProofs RefineProofs DetectProofs MergeProofs MergeFinal WorkProofs InclusiveProofs.
From Verif.Props Require Import PropsNest PropsUnbind PropsMerge.
Import ListNotations.
Local Open Scope nat_scope.

Section Config.
  Context {X R E : Type}.
  Local Notation entry := (nat * E)%type.
  Variables neg pos : E -> bool.
  Variable lt : E -> E -> bool.
  Variable sorter : sort_site -> list entry -> list entry.
  Variable shuffle : list (Z * X) -> list (Z * X).
  Variable energy : list (Z * X) * R -> nat -> list entry -> nat -> E.
  Variable inner : list (Z * X) * R -> list entry -> nat -> E.
  Variable no_energy : E.
  Variable rest_of : list (Z * X) -> nat -> R -> R.
  Variable pmass : Z * X -> Q.
  Variables (min_part : nat) (converged : nat -> nat -> bool) (max_sample : nat) (refine : bool) (allowed : nat -> nat) (snap : Z).
  Variable near : nat * list (Z * X) * R -> nat * list (Z * X) * R -> bool.
  Hypothesis one_sign : forall e, neg e = true -> pos e = false.
  Hypothesis sorter_ok : forall site l, Permutation (sorter site l) l /\ ascending lt snd (sorter site l).
  Hypothesis shuffle_ok : forall l, Permutation (shuffle l) l.
  Hypothesis min_ok : 2 <= min_part.
  Hypothesis converged_ok : forall n, converged n n = true.
  Hypothesis allowed_ok : forall n, n <= allowed n.
  Hypothesis snap_ok : (0 <= snap)%Z.
  Local Notation unbind := (unbind neg pos sorter shuffle energy inner no_energy rest_of pmass min_part converged max_sample refine snap).
  Local Notation unbinding := (unbinding neg pos lt energy inner no_energy min_part converged max_sample refine snap pmass).
  Local Notation unbind_total := (unbind_total neg pos lt sorter shuffle energy inner no_energy rest_of pmass min_part converged max_sample refine snap one_sign sorter_ok shuffle_ok min_ok converged_ok).

  (** The particles of [v] are among those of [s]. *)
  Definition part_of (s v : sub X R) : Prop := exists lost, Permutation (s_parts v ++ lost) (s_parts s).
  Lemma part_of_trans a b c : part_of a b -> part_of b c -> part_of a c.
  Proof. intros [l A] [m B]. exists (m ++ l). rewrite app_assoc, B. exact A. Qed.
  Lemma part_of_refl (a b : sub X R) : s_parts b = s_parts a -> part_of a b.
  Proof. intros H. exists []. rewrite app_nil_r, H. reflexivity. Qed.
  Lemma part_of_unbound s u : unbinding s u -> part_of s (truncate allowed u).
  Proof.
    intros (_ & HP & HL & _). destruct (truncate_ok allowed allowed_ok u HL) as (n & -> & _). exists (skipn n (s_parts u)). cbn. rewrite firstn_skipn. exact HP.
  Qed.
  Lemma nest_kept s u : unbinding s u -> s_nest u = s_nest s.
  Proof. intros HU. apply unbinding_place in HU. destruct HU as [A _]. apply nesting_fields in A. destruct A as (_ & _ & A). congruence. Qed.

  Lemma settled_done s u : unbinding s u -> settled (truncate allowed u).
  Proof using All.
    intros HU. apply (truncate_settled neg pos energy no_energy rest_of min_part converged allowed one_sign min_ok converged_ok allowed_ok).
    exact (unbinding_settled neg pos lt energy inner no_energy rest_of pmass min_part converged max_sample refine allowed snap one_sign min_ok converged_ok allowed_ok snap_ok s u HU).
  Qed.

  (** C86: with inclusive masses the unbinding of a snapshot ends, and what becomes of a subhalo is decided by the subhalo
      alone: not by the other subhalos, nor by the order of the threads. *)
  Theorem C86_alone : forall order (subs : list (sub X R)), Permutation order (seq 0 (length subs)) ->
    exists out, refine_inclusive unbind (truncate allowed) order subs = Done out /\ refined_alone (fun s u => unbind s = Done u /\ unbinding s u) (truncate allowed) subs out.
  Proof using All.
    intros order subs Ho. apply refine_alone; [|exact Ho]. intros s. destruct (unbind_total s) as (s' & A & B). eauto.
  Qed.
  Theorem C86_order : forall o o' (subs : list (sub X R)), Permutation o (seq 0 (length subs)) -> Permutation o' (seq 0 (length subs)) ->
    refine_inclusive unbind (truncate allowed) o subs = refine_inclusive unbind (truncate allowed) o' subs.
  Proof using All.
    intros o o' subs Ho Ho'. destruct (C86_alone o subs Ho) as (a & -> & A). destruct (C86_alone o' subs Ho') as (b & -> & B). f_equal. clear Ho Ho'. revert b B. induction A as [|s v l a (u & [H1 _] & ->) A IH]; intros b B; inversion B as [|? v' ? b' (u' & [H2 _] & ->) B']; subst; [reflexivity|].
    f_equal; [congruence|apply IH; exact B'].
  Qed.

  (** C86: after every history, in every order of the threads, the work on a snapshot with inclusive masses ends: every subhalo
      is unbound by itself; the marks of sinking subhalos are those of C39; a subhalo that sinks is dead and keeps its first
      particle, the others keep what they have, and those into which one sank are unbound again.  No subhalo gets a particle it
      did not have, and tracks, ranks, nests and hosts are kept. *)
  Theorem C86_work : forall (H : Type) (before : list (list (sub X R))) (ps : list (@proc X R H)) p merge_trapped os o1 o2 o3 o4,
    nest_history (H := H) before -> nest_begun before ps -> In p ps ->
    Permutation os (seq 0 (length (p_nested p))) -> Permutation o1 (seq 0 (length (p_nested p))) -> Permutation o2 (seq 0 (length (p_nested p))) -> Permutation o3 (seq 0 (length (p_halos p))) -> Permutation o4 (seq 0 (length (p_nested p))) ->
    exists refined marked out, work_inclusive unbind (truncate allowed) near pmass snap merge_trapped (length (p_nested p)) os o1 o2 o3 o4 (p_table p) (p_heads p) (p_nested p) = Done out /\
      refined_alone unbinding (truncate allowed) (p_nested p) refined /\ length marked = length refined /\
      (forall i s, zget refined i = Some s -> exists u, zget marked i = Some u /\ detected snap (sinks_to near (p_heads p) refined) i s u) /\
      (if merge_trapped then after_merge_alone pmass unbinding (truncate allowed) snap marked out else out = marked) /\
      Forall2 (fun a b => nesting_of a = nesting_of b /\ s_host a = s_host b /\ part_of a b) (p_nested p) out /\
      Forall (fun s => s_death s = (-1)%Z -> s_sink s <> (-1)%Z -> merge_trapped = false /\ s_snapsink s = snap) out /\
      Forall (fun s => 1 < s_nbound s -> s_death s = (-1)%Z) out /\ Forall (fun s => s_nbound s <= length (s_parts s)) out.
  Proof.
    intros H before ps p mt os o1 o2 o3 o4 HH HB Hp Ho P1 P2 P3 P4.
    destruct (refine_alone unbind unbinding (truncate allowed) (fun s => unbind_total s) os (p_nested p) Ho) as (refined & ER & HR).
    assert (HS : Forall2 same_place (p_nested p) refined). { eapply Forall2_impl; [|exact HR]. intros a b (u & HU & ->). apply unbinding_place in HU. exact HU. }
    assert (HT : forall i s, zget refined i = Some s -> settled s).
    { apply Forall_zget. clear ER HS. revert HR. generalize (p_nested p). intros l0 HR. induction HR as [|a b l m (u & HU & ->) HR IH]; [constructor|]. constructor; [|exact IH]. exact (settled_done _ _ HU). }
    destruct (place_facts H before ps p HH HB Hp refined HS) as (tn & HN & Hh & Hr). assert (HL := Forall2_length_eq _ _ _ HS).
    destruct (merge_alone unbind unbinding (truncate allowed) (fun s => unbind_total s) near pmass snap nest_kept) with (moved := p_moved p) (nh := length (p_halos p)) (table := p_table p) (subs := refined) (ts := tn) (heads := p_heads p) (merge_trapped := mt) (fuel := length (p_nested p)) (o1 := o1) (o2 := o2) (o3 := o3) (o4 := o4) as (marked & out & EQ & L1 & L2 & HD & HM); try (rewrite <- HL; assumption); try assumption; try reflexivity.
    - intros l s u. apply unbinding_nest.
    - intros i s Hi Hs Hd. apply Hs. destruct (HT i s Hi) as (A & _). auto.
    - intros i s Hi Hb. destruct (HT i s Hi) as (_ & A & B). split; [auto|]. destruct (s_parts s); [cbn in B; lia|discriminate].
    - lia.
    - exists refined, marked, out. split; [unfold work_inclusive; rewrite ER; exact EQ|]. split; [exact HR|]. split; [exact L1|]. split; [exact HD|]. split; [exact HM|].
      assert (HA : forall i a v, zget (p_nested p) i = Some a -> zget out i = Some v -> same_place a v /\ part_of a v /\ settled_after snap mt v).
      { intros i a v Ha Hv. pose proof (zget_some _ _ _ Ha) as Hri. destruct (zget_in_range refined i) as [s Hs]; [lia|].
        assert (Hsp : same_place a s /\ part_of a s). { rewrite zget_nat in Ha, Hs by lia. destruct (Forall2_nth _ _ _ _ _ HR Ha) as (s' & Hs' & u & HU & Eu). assert (Es : s = truncate allowed u) by congruence. rewrite Es. split; [apply unbinding_place in HU; exact HU|apply part_of_unbound; exact HU]. }
        destruct Hsp as [Sa Pa]. destruct (HT i s Hs) as (A & B & C). destruct (HD i s Hs) as (m & Hm & HDm). assert (Hpm : s_parts m = s_parts s /\ s_nbound m = s_nbound s). { unfold detected in HDm. destruct (s_sink s =? -1)%Z; [destruct HDm as [(k & _ & ->)|[_ ->]]|subst m]; auto. }
        assert (HMm : settled_after snap false m).
        { unfold detected in HDm. destruct (Z.eqb_spec (s_sink s) (-1)) as [Es|Es]; [destruct HDm as [(k & _ & ->)|[_ ->]]|subst m]; split; cbn; auto; intros F1 F2; (split; [reflexivity|]); [destruct (F2 Es)|destruct (F2 (A F1))]. }
        apply detected_place in HDm. assert (Sm : same_place a m) by (eapply same_place_trans; eassumption). assert (Pm : part_of a m) by (eapply part_of_trans; [exact Pa|apply part_of_refl; apply Hpm]).
        destruct mt; [|subst out; assert (m = v) by congruence; subst; auto].
        destruct (HM i m Hm) as (u & v' & Hv' & W1 & W2 & W3 & W4). assert (v' = v) by congruence. subst v'.
        assert (Hu : same_place m u /\ part_of m u /\ settled_after snap true u).
        { destruct HMm as (D1 & D2 & D3). destruct (WorkProofs.sinking_dec m) as [Hk|Hk].
          - specialize (W1 Hk). unfold remains in W1. destruct (Nat.leb_spec (s_nbound m) 1); [subst u|destruct W1 as (x & r & Ex & ->)]; (split; [split; reflexivity|]).
            + split; [apply part_of_refl; reflexivity|]. split; cbn; try lia; split; lia.
            + split; [exists r; rewrite Ex; reflexivity|]. split; cbn; try lia; split; lia.
          - rewrite (W2 Hk). split; [split; reflexivity|]. split; [apply part_of_refl; reflexivity|]. split; [|split; assumption]. intros F1 F2. destruct Hk. split; assumption. }
        destruct Hu as (Su & Pu & Tu). assert (Hrec : receives marked i \/ ~ receives marked i).
        { destruct (joins_dec marked i) as [Hj|(k & Hk & Hj)]; [|left; destruct (joins_direct _ _ _ Hj Hk) as (y & z & _ & Z1 & Z2 & Z3 & Z4); exists y, z; auto].
          destruct (sinking_dec m) as [Hk|Hk]; [destruct (Nat.lt_ge_cases 1 (s_nbound m)) as [Hb|Hb]; [destruct (Z.eq_dec (s_sink m) i) as [He|He]|]|]; [left; exists i, m; auto|right|right|right];
            intros (k & z & Z1 & Z2 & Z3 & Z4); (assert (k = i) by (apply Hj; eapply joins_step; [exact Z1|exact Z2|exact Z3|rewrite Z4; constructor])); subst k; assert (z = m) by congruence; subst z; auto; lia. }
        destruct Hrec as [Hc|Hc].
        - destruct (W3 Hc) as (w & HU & ->). split; [|split].
          + eapply same_place_trans; [exact Sm|]. eapply same_place_trans; [exact Su|]. apply unbinding_place in HU. exact HU.
          + eapply part_of_trans; [exact Pm|]. eapply part_of_trans; [exact Pu|]. apply part_of_unbound. exact HU.
          + apply settled_later. exact (settled_done _ _ HU).
        - rewrite (W4 Hc). split; [eapply same_place_trans; eassumption|]. split; [eapply part_of_trans; eassumption|exact Tu]. }
      assert (HB' : forall v, In v out -> settled_after snap mt v).
      { intros v Hv. apply In_nth_error in Hv as [i Hi]. rewrite <- zget_of_nat in Hi. pose proof (zget_some _ _ _ Hi). destruct (zget_in_range (p_nested p) (Z.of_nat i)) as [a Ha]; [lia|]. apply (HA _ _ _ Ha Hi). }
      split; [|split; [|split]].
      + apply Forall2_of_nth; [congruence|]. intros i a v Ha Hv. rewrite <- zget_of_nat in Ha, Hv. destruct (HA _ _ _ Ha Hv) as ([A1 A2] & A3 & _). auto.
      + apply Forall_forall. intros v Hv. apply HB' in Hv. apply Hv.
      + apply Forall_forall. intros v Hv. apply HB' in Hv. apply Hv.
      + apply Forall_forall. intros v Hv. apply HB' in Hv. apply Hv.
  Qed.
End Config.
Print Assumptions C86_alone.
Print Assumptions C86_order.
Print Assumptions C86_work.

(** Process 0 of the third snapshot, as in C54, but without masking: the central has the particles of the other two as well.
    All three are unbound; then each sinks into the next, which changes nothing but the one that sinks. *)
Definition near_86 (a b : nat * list (Z * Z) * nat) : bool := (fst (fst a) =? 2) && (fst (fst b) =? 4) || (fst (fst a) =? 4) && (fst (fst b) =? 28).
Definition unbind_86 : sub Z nat -> run (sub Z nat) := unbind z_neg z_pos e_sort (@rev (Z * Z)) thirds by_id 0%Z rest_same (fun p => inject_Z (fst p)) 2 (converged_q 1) 0 false 2.
Definition work_86 (mt : bool) (p : @proc Z nat Q) : list (sub Z nat) :=
  done [] (work_inclusive unbind_86 (truncate (allowed_q 3)) near_86 (fun p => inject_Z (fst p)) 2 mt 3 [2; 0; 1] [2; 1; 0] [0; 1; 2] [0] [1; 2; 0] (p_table p) (p_heads p) (p_nested p)).
Example C86_alone_witness : option_map (fun p => (map (fun s => length (s_parts s)) (p_nested p), map (fun o => map seen (done [] (refine_inclusive unbind_86 (truncate (allowed_q 3)) o (p_nested p)))) [[2; 0; 1]; [0; 1; 2]])) (nth_error sim2 0) =
  let l := [(4, [10; 11; 13; 14; 12; 15], -1, -1, -1); (2, [20; 22; 21], -1, -1, -1); (28, map Z.of_nat (seq 10 28), -1, -1, -1)]%Z in Some ([6; 3; 28], [l; l]).
Proof. vm_compute. reflexivity. Qed.
Example C86_witness : nest_history (H := Q) (map p_out sim1) /\ nest_begun (map p_out sim1) sim2 /\
  option_map (fun p => (map seen (work_86 true p), map (fun s => (s_nbound s, s_sink s)) (work_86 false p), map nesting_of (work_86 true p))) (nth_error sim2 0) =
    Some ([(1, [10], 2, 2, 2); (1, [20], 0, 2, 2); (28, map Z.of_nat (seq 10 28), -1, -1, -1)]%Z, [(4, 2%Z); (2, 0%Z); (28, (-1)%Z)], [(0, 0, [1]); (1, 1, []); (2, 0, [])]%Z).
Proof. split; [apply sim_history|]. split; [apply sim2_run|]. vm_compute. reflexivity. Qed.
