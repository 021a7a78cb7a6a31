(** The program, loading: the particle snapshot is ready for queries. *)
From Coq Require Import List ZArith QArith Bool Lia Sorting.Sorted Sorting.Permutation.
From Verif.Model Require Import Run ListMem Mpi Mymath Hash Exchange ParticleExchange HaloExchange Hosts Subhalo Program.
From Verif.Spec Require Import Exchange Query Members Program.
From Verif.Proofs Require Import ListMemProofs MpiProofs ListExtra HashProofs ExchangeProofs ExchangeProofs2 ExchangeProofs3.
Import ListNotations.
Local Open Scope nat_scope.

Lemma each_from_done {A B} (f : nat -> A -> run B) (P : nat -> A -> B -> Prop) l : forall k,
  (forall i x, nth_error l i = Some x -> exists y, f (k + i) x = Done y /\ P (k + i) x y) ->
  exists out, each_from k f l = Done out /\ length out = length l /\
    forall i x y, nth_error l i = Some x -> nth_error out i = Some y -> f (k + i) x = Done y /\ P (k + i) x y.
Proof.
  induction l as [|x l IH]; intros k Hf; cbn [each_from].
  - exists []. split; [reflexivity|]. split; [reflexivity|]. intros [|i] x y Hx; discriminate.
  - destruct (Hf 0 x eq_refl) as (y & Ey & Py). destruct (IH (S k)) as (out & Eo & Lo & Ho).
    { intros i z Hz. destruct (Hf (S i) z Hz) as (y' & Ey' & Py'). exists y'. replace (S k + i) with (k + S i) by lia. auto. }
    rewrite Nat.add_0_r in Ey, Py. rewrite Ey. cbn [rbind]. rewrite Eo. cbn [rbind]. exists (y :: out). split; [reflexivity|]. split; [cbn; lia|].
    intros [|i] a b Ha Hb; cbn in Ha, Hb.
    + injection Ha as <-. injection Hb as <-. rewrite Nat.add_0_r. auto.
    + replace (k + S i) with (S k + i) by lia. apply Ho; assumption.
Qed.
Lemma each_done {A B} (f : nat -> A -> run B) (P : nat -> A -> B -> Prop) l :
  (forall i x, nth_error l i = Some x -> exists y, f i x = Done y /\ P i x y) ->
  exists out, each f l = Done out /\ length out = length l /\
    forall i x y, nth_error l i = Some x -> nth_error out i = Some y -> f i x = Done y /\ P i x y.
Proof. intros Hf. exact (each_from_done f P l 0 Hf). Qed.

Lemma share_pos n W i : 1 <= W -> W <= n -> 1 <= share n W i.
Proof. intros H1 H2. unfold share. assert (1 <= n / W) by (apply Nat.div_le_lower_bound; lia). lia. Qed.

Lemma sorted_of_steps (l : list Z) : (forall i a b, nth_error l i = Some a -> nth_error l (S i) = Some b -> (a <= b)%Z) -> StronglySorted Z.le l.
Proof.
  intros Hl. apply Sorted_StronglySorted; [intros a b c; lia|]. induction l as [|a l IH]; constructor.
  - apply IH. intros i. apply (Hl (S i)).
  - destruct l as [|b l]; constructor. apply (Hl 0); reflexivity.
Qed.
Lemma sorted_nth (l : list Z) i j a b : StronglySorted Z.le l -> i <= j -> nth_error l i = Some a -> nth_error l j = Some b -> (a <= b)%Z.
Proof.
  intros HS. revert i j. induction HS as [|x l HS IH Hx]; intros [|i] [|j] Hij Ha Hb; cbn in *; try discriminate; try lia.
  - injection Ha as ->. injection Hb as ->. lia.
  - injection Ha as ->. rewrite Forall_forall in Hx. apply Hx. eapply nth_error_In; eauto.
  - eapply IH; [|eassumption|eassumption]. lia.
Qed.
Lemma indexed_keys {X} (l : list (Z * X)) : indexed l = part_keys (map fst l).
Proof. unfold indexed, part_keys. rewrite map_length. reflexivity. Qed.
Lemma indexed_ids {X} (l : list (Z * X)) : map fst (indexed l) = map fst l.
Proof. unfold indexed. rewrite <- (map_length fst l). generalize (map fst l) as k. clear. intros k. set (n := 0) at 1. clearbody n. revert n. induction k as [|a k IH]; intros n; [reflexivity|]. cbn. f_equal. apply IH. Qed.
Lemma NoDup_concat_in {A} (ls : list (list A)) l : NoDup (concat ls) -> In l ls -> NoDup l.
Proof.
  induction ls as [|a ls IH]; intros HN Hl; [destruct Hl|]. cbn in HN. destruct Hl as [<-|Hl].
  - eapply NoDup_app_remove_r; exact HN.
  - apply IH; [|exact Hl]. eapply NoDup_app_remove_l; exact HN.
Qed.

Section Load.
  Context {X R S E : Type}.
  Variable g : setup X R S E.
  Hypothesis Hg : sane g.

  (** What loading guarantees. *)
  Record ready_snap (W : nat) (snap : Z) (sps : list (snap_proc X)) (ranges : list Z) : Prop := {
    rs_length : length sps = W;
    rs_located : located ranges (map sp_parts sps);
    rs_unique : NoDup (map fst (concat (map sp_parts sps)));
    rs_tables : Forall (table_ok nothing) sps;
    rs_kind : Forall (fun s => sp_need_hash s = g_need_hash g) sps;
    rs_null : ~ In nothing (map fst (concat (map sp_parts sps)));
    rs_parts : Permutation (concat (map sp_parts sps)) (particles g snap);
    rs_span : exists lo hi, nth_error ranges 0 = Some lo /\ nth_error ranges W = Some hi /\ forall id, within g snap id -> (lo <= id < hi)%Z }.

  Lemma fill_ok snap k (l : list (Z * X)) : NoDup (map fst l) ->
    exists s, fill_hash g snap k l = Done s /\ sp_parts s = l /\ table_ok nothing s /\ sp_need_hash s = g_need_hash g.
  Proof.
    intros HN. unfold fill_hash. destruct (g_need_hash g) eqn:En.
    - eexists. split; [reflexivity|]. split; [reflexivity|]. split; [|reflexivity]. unfold table_ok. cbn. apply (sn_keys _ Hg).
    - destruct (flat_lookup nothing (indexed l) (g_sched_keys g snap k (indexed l)) 0) as (t & r & Et & _); [apply (sn_sched_keys _ Hg)|rewrite indexed_ids; exact HN|].
      rewrite Et. cbn. eexists. split; [reflexivity|]. split; [reflexivity|]. split; [|reflexivity]. unfold table_ok. cbn. eexists. split; [apply (sn_sched_keys _ Hg)|exact Et].
  Qed.

  Lemma load_ok W snap : 1 <= W -> valid_snapshot g W snap ->
    exists sps ranges, load_particles g snap = Done (sps, ranges) /\ ready_snap W snap sps ranges.
  Proof.
    intros HW HV. set (l := g_loaded g snap).
    assert (HL : length l = W) by apply (vs_loaded _ _ _ HV).
    destruct (exchange_correct fst (g_sort_parts g) (fun l => proj1 (sn_parts _ Hg l)) (fun l => proj2 (sn_parts _ Hg l)) l (vs_unique _ _ _ HV)) with (fuel := 1 + (length (concat l) + length l))
      as (new & ranges & Ex & HLn & HP & Hsh & _ & _ & HLr & Hloc); [lia|rewrite HL; apply (vs_enough _ _ _ HV)|lia|].
    unfold load_particles. fold l. rewrite Ex. cbn [rbind fst snd].
    assert (HNn : NoDup (map fst (concat new))). { eapply Permutation_NoDup; [apply Permutation_sym, Permutation_map; exact HP|]. apply (vs_unique _ _ _ HV). }
    destruct (each_done (fill_hash g snap) (fun _ x s => sp_parts s = x /\ table_ok nothing s /\ sp_need_hash s = g_need_hash g) new) as (sps & Es & Ls & Hs).
    { intros i x Hx. apply fill_ok. rewrite concat_map in HNn. eapply NoDup_concat_in; [exact HNn|]. apply in_map. eapply nth_error_In; eauto. }
    rewrite Es. cbn [rbind]. exists sps, ranges. split; [reflexivity|].
    assert (Eparts : map sp_parts sps = new).
    { apply nth_error_ext. intros i. rewrite nth_error_map. destruct (nth_error sps i) as [s|] eqn:E1.
      - destruct (nth_error_in_range new i) as [x Hx]; [apply nth_error_lt in E1; lia|]. destruct (Hs i x s Hx E1) as (_ & <- & _). rewrite Hx. reflexivity.
      - apply nth_error_None in E1. symmetry. apply nth_error_None. lia. }
    assert (Hstep : forall i a b, nth_error ranges i = Some a -> nth_error ranges (Datatypes.S i) = Some b -> (a <= b)%Z).
    { intros i a b Ha Hb. assert (Hi : i < length new) by (apply nth_error_lt in Hb; lia). destruct (nth_error_in_range new i Hi) as [x Hx].
      pose proof (Hsh i x Hx) as Hl. rewrite HL in Hl. pose proof (share_pos (length (concat l)) W i HW (vs_enough _ _ _ HV)) as Hp. destruct x as [|p x]; [cbn in Hl; lia|].
      assert (Hin : In p (concat l)). { eapply Permutation_in; [exact HP|]. apply in_concat. exists (p :: x). split; [eapply nth_error_In; eauto|left; reflexivity]. }
      pose proof (proj1 (Hloc i _ a b p Hx Ha Hb Hin) (or_introl eq_refl)). lia. }
    pose proof (sorted_of_steps ranges Hstep) as Hsorted.
    constructor.
    - lia.
    - rewrite Eparts. split; [lia|]. split; [exact Hsorted|]. intros i y a b p Hy Ha Hb Hin. apply (Hloc i y a b p Hy Ha Hb). eapply Permutation_in; [exact HP|exact Hin].
    - rewrite Eparts. exact HNn.
    - apply Forall_forall. intros s Hi. apply In_nth_error in Hi as [i Hi]. destruct (nth_error_in_range new i) as [x Hx]; [apply nth_error_lt in Hi; lia|]. apply (Hs i x s Hx Hi).
    - apply Forall_forall. intros s Hi. apply In_nth_error in Hi as [i Hi]. destruct (nth_error_in_range new i) as [x Hx]; [apply nth_error_lt in Hi; lia|]. apply (Hs i x s Hx Hi).
    - rewrite Eparts. intros Hin. apply in_map_iff in Hin as (p & Ep & Hp). apply (Permutation_in _ HP) in Hp. pose proof (vs_ids _ _ _ HV p Hp). unfold nothing in Ep. lia.
    - rewrite Eparts. exact HP.
    - destruct (nth_error_in_range ranges 0) as [lo Hlo]; [lia|]. destruct (nth_error_in_range ranges W) as [hi Hhi]; [lia|]. exists lo, hi. split; [exact Hlo|]. split; [exact Hhi|].
      assert (Hall : forall p, In p (particles g snap) -> (lo <= fst p < hi)%Z).
      { intros p Hp. assert (Hp' := Permutation_in _ (Permutation_sym HP) Hp). apply in_concat in Hp' as (y & Hy & Hpy). apply In_nth_error in Hy as [i Hy].
        assert (Hi : i < length new) by (eapply nth_error_lt; eauto). destruct (nth_error_in_range ranges i) as [a Ha]; [lia|]. destruct (nth_error_in_range ranges (Datatypes.S i)) as [b Hb]; [lia|].
        pose proof (proj1 (Hloc i y a b p Hy Ha Hb Hp) Hpy). assert (lo <= a)%Z by (eapply (sorted_nth ranges 0 i); eauto; lia). assert (b <= hi)%Z by (eapply (sorted_nth ranges (Datatypes.S i) W); eauto; lia). lia. }
      intros id (p & q & Hp & Hq & Hid). pose proof (Hall p Hp). pose proof (Hall q Hq). lia.
  Qed.
End Load.
