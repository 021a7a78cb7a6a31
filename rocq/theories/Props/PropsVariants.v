(** Property C85: the build without stripping. *)
From Coq Require Import List ZArith QArith Bool Lia Sorting.Permutation.
From Verif.Model Require Import ListMem Mpi Run Hash Subhalo Tracks Nest UpdateTracks Catalogue Mask Unbind Merge Work Variants Program.
From Verif.Spec Require Import Members Forest Nesting NestHistory Masking Unbinding Sinking Catalogue Program Ownership.
From Verif.Proofs Require Import ListMemProofs MpiProofs ListExtra UnbindProofs StripProofs WorkProofs OwnProofs KeepProofs KeepWork ProgramSteps.
From Verif.Props Require Import PropsApostle PropsNest PropsUnbind PropsMerge PropsProgram PropsOwnership.
Import ListNotations.
Local Open Scope nat_scope.

Section Config.
  Context {X R E : Type}.
  Local Notation entry := (nat * E)%type.
  Variables neg pos : E -> bool.
  Variable lt : E -> E -> bool.
  Variable sorter : sort_site -> list entry -> list entry.
  Variable shuffle : list (Z * X) -> list (Z * X).
  Variable energy : list (Z * X) * R -> nat -> list entry -> nat -> E.
  Variable inner : list (Z * X) * R -> list entry -> nat -> E.
  Variable no_energy : E.
  Variable rest_of : list (Z * X) -> nat -> R -> R.
  Variable pmass : Z * X -> Q.
  Variables (min_part : nat) (converged : nat -> nat -> bool) (max_sample : nat) (refine : bool) (allowed : nat -> nat) (snap : Z).
  Variable near : nat * list (Z * X) * R -> nat * list (Z * X) * R -> bool.
  Hypothesis one_sign : forall e, neg e = true -> pos e = false.
  Hypothesis sorter_ok : forall site l, Permutation (sorter site l) l /\ ascending lt snd (sorter site l).
  Hypothesis shuffle_ok : forall l, Permutation (shuffle l) l.
  Hypothesis min_ok : 2 <= min_part.
  Hypothesis converged_ok : forall n, converged n n = true.
  Hypothesis allowed_ok : forall n, n <= allowed n.
  Hypothesis snap_ok : (0 <= snap)%Z.
  Local Notation unbind_kept := (unbind_of neg pos sorter shuffle energy inner no_energy rest_of pmass min_part converged max_sample refine snap false).
  Local Notation sorter' := (sorter_of neg pos sorter false).
  Local Notation sorter_ok' := (sorter_of_ok neg pos lt sorter one_sign sorter_ok false).
  Local Notation unbind_total := (unbind_total all none lt sorter' shuffle energy inner no_energy rest_of pmass min_part converged max_sample refine snap sign_all sorter_ok' shuffle_ok min_ok converged_ok).
  Local Notation same := (unbind_of_same neg pos lt sorter one_sign sorter_ok false shuffle energy inner no_energy rest_of pmass min_part converged max_sample refine snap).

  Lemma kept_total s : exists s', unbind_kept s = Done s' /\ unbinding all none lt energy inner no_energy min_part converged max_sample refine snap pmass s s'.
  Proof. destruct (unbind_total s) as (s' & A & B). exists s'. split; [rewrite same; exact A|exact B]. Qed.

  (** C85: in a build without stripping, unbinding a subhalo of at least the minimum number of particles, whatever their
      energies, loses none of them: all are bound, the subhalo lives, does not sink and has the mass of all; they are in the
      order of their energies, as found in the only round. *)
  Theorem C85_nothing_stripped : forall s, min_part <= length (s_parts s) -> exists s' parts ev core,
    unbind_kept s = Done s' /\ same_otherwise s s' /\ Permutation (s_parts s') (s_parts s) /\ s_nbound s' = length (s_parts s) /\ s_death s' = (-1)%Z /\ s_sink s' = (-1)%Z /\
    s_mass s' = fold_right (fun p q => (pmass p + q)%Q) 0%Q (s_parts s') /\
    Permutation parts (s_parts s) /\ ((max_sample = 0 \/ length parts <= max_sample) -> parts = s_parts s) /\ length ev = length parts /\
    (forall i, i < length parts -> nth_error ev i = Some (i, energy (parts, s_rest s) 0 (map (fun i => (i, no_energy)) (seq 0 (length parts))) i)) /\
    final_order lt inner max_sample refine (parts, s_rest s) ev [] core /\ Forall2 (fun e p => nth_error parts (fst e) = Some p) core (s_parts s').
  Proof.
    intros s Hs. destruct (kept_total s) as (s' & EU & HO & HP & HL & HM & HF).
    assert (HB : found_bound all none lt energy inner no_energy min_part converged max_sample refine s s').
    { destruct HF as [HF|[[Hw|(parts & k & l & n & a & b & HPp & HR & HC & Ha)] _ _ _ _]]; [exact HF|lia|]. exfalso.
      apply (rounds_all energy no_energy min_part converged converged_ok) in HR. destruct HR as (-> & -> & ->). cbn [fst] in HC. apply cut_all in HC as [_ HC]. apply Permutation_length in HPp. lia. }
    clear HF. destruct HB as [_ HB HA [HS _]]. apply bound_all in HB as (parts & ev & core & A & B & C & D & F & G & K); try assumption. exists s', parts, ev, core. split; [exact EU|]. split; [exact HO|]. split; [exact HP|].
    rewrite (Permutation_length A) in G. split; [exact G|]. split; [exact HA|]. split; [exact HS|]. split; [|auto 10].
    rewrite HM, firstn_all2; [reflexivity|]. rewrite (Permutation_length HP). lia.
  Qed.

  (** C85: below the minimum number, a subhalo is disrupted as with stripping. *)
  Theorem C85_small : forall s, length (s_parts s) < min_part -> exists s', unbind_kept s = Done s' /\ same_otherwise s s' /\ Permutation (s_parts s') (s_parts s) /\
    s_nbound s' = Nat.min 1 (length (s_parts s)) /\ (forall p r, s_parts s = p :: r -> exists p' r', s_parts s' = p' :: r' /\ fst p' = fst p) /\
    s_death s' = (if Z.eqb (s_death s) (-1) then snap else s_death s) /\ s_sink s' = s_sink s /\ s_snapsink s' = s_snapsink s.
  Proof.
    intros s Hs. destruct (kept_total s) as (s' & EU & HO & HP & HL & HM & [[F _ _ _]|[_ F1 F2 F3 [F4 F5]]]); [lia|]. exists s'. auto 10.
  Qed.

  (** C85, C54: the work on a snapshot in a build without stripping, after every history and in every order of the threads:
      it ends as with stripping, and, if the unresolved subhalos had no further particles, every subhalo is left with its
      bound particles only. *)
  Theorem C85_work : forall (H : Type) (before : list (list (sub X R))) (ps : list (@proc X R H)) p merge_trapped oh oh2 os o1 o2 o3 o4,
    nest_history (H := H) before -> nest_begun before ps -> In p ps ->
    Permutation oh (seq 0 (length (p_halos p))) -> Permutation oh2 (seq 0 (length (p_halos p))) -> Permutation os (unnested (p_table p) (p_nested p)) ->
    Permutation o1 (seq 0 (length (p_nested p))) -> Permutation o2 (seq 0 (length (p_nested p))) -> Permutation o3 (seq 0 (length (p_halos p))) -> Permutation o4 (seq 0 (length (p_nested p))) ->
    exists out, work_with unbind_kept (truncate allowed) pmass snap near merge_trapped (length (p_nested p)) oh oh2 os o1 o2 o3 o4 (p_table p) (p_heads p) (p_nested p) = Done out /\
      Forall2 (fun a b => nesting_of a = nesting_of b /\ s_host a = s_host b) (p_nested p) out /\
      Forall (fun s => s_death s = (-1)%Z -> s_sink s <> (-1)%Z -> merge_trapped = false /\ s_snapsink s = snap) out /\
      Forall (fun s => 1 < s_nbound s -> s_death s = (-1)%Z) out /\ Forall (fun s => s_nbound s <= length (s_parts s)) out /\
      (Forall (fun s => s_nbound s <= 1 -> length (s_parts s) <= 1) (p_nested p) -> Forall whole out).
  Proof.
    intros H before ps p mt oh oh2 os o1 o2 o3 o4 HH HB Hp Hoh Hoh2 Hos P1 P2 P3 P4.
    destruct (C54_work all none lt sorter' shuffle energy inner no_energy rest_of pmass min_part converged max_sample refine allowed snap near sign_all sorter_ok' shuffle_ok min_ok converged_ok allowed_ok snap_ok
      H before ps p mt oh oh2 os o1 o2 o3 o4 HH HB Hp Hoh Hoh2 Hos P1 P2 P3 P4) as (out & EW & A & B & C & D).
    exists out. split; [rewrite (work_ext _ _ (truncate allowed) same); exact EW|]. do 4 (split; [assumption|]). intros Hc.
    eapply (work_whole lt sorter' shuffle energy inner no_energy rest_of pmass min_part converged max_sample refine allowed snap near sorter_ok' shuffle_ok min_ok converged_ok allowed_ok snap_ok H before ps p mt oh oh2 os o1 o2 o3 o4 out); try eassumption.
  Qed.
End Config.
Print Assumptions C85_nothing_stripped.
Print Assumptions C85_small.
Print Assumptions C85_work.

(** C85: at the end of a whole run without stripping, on input as in C62, every subhalo lists its bound particles and no
    others, each once, and its mass is theirs. *)
Theorem C85_run : forall (X R S E : Type) (g : setup X R S E) (W n : nat) (d0 : disk X R),
  sane g -> g_inclusive g = false -> g_strip g = false -> let start := g_min_snapshot g in valid_input g W (Datatypes.S n) start -> tidy_input g (Datatypes.S n) start ->
  exists d cat, hbt g W (Datatypes.S n) start d0 = Done (tt, d, cat) /\
    forall s, In s (concat cat) -> s_nbound s = length (s_parts s) /\ NoDup (part_ids s) /\ s_mass s = fold_right (fun p q => (g_pmass g p + q)%Q) 0%Q (s_parts s).
Proof.
  intros X R S E g W n d0 Hg HI Hst start HV HT. destruct (owned_run X R S E g W n d0 Hg HI HV HT) as (d & cat & A & B & _). exists d, cat. split; [exact A|].
  intros s Hs. rewrite Forall_forall in B. destruct (B s Hs) as [[O1 O2 _] O4]. specialize (O4 Hst). unfold whole in O4. split; [exact O4|]. split; [exact O2|]. rewrite O1, O4, firstn_all. reflexivity.
Qed.
Print Assumptions C85_run.

(** The subhalo of C33, of which stripping leaves three particles: all stay, in the order of their energies; with
    refinement the first three are ordered by id. *)
Definition kept_1 max_sample refine := unbind_of z_neg z_pos e_sort (@rev (Z * Z)) loosening by_id 0%Z rest_same (fun p => inject_Z (fst p)) 3 (converged_q 1) max_sample refine 6 false cluster.
Example C85_witness : 3 <= length (s_parts cluster) /\
  map (fun r => match r with Done s => Some (map fst (s_parts s), s_nbound s, s_mass s, s_death s, s_sink s) | _ => None end) [kept_1 0 false; kept_1 3 true] =
  [Some ([7; 4; 1; 6; 3; 5; 2; 8]%Z, 8, 36%Q, (-1)%Z, (-1)%Z); Some ([1; 4; 7; 6; 3; 5; 2; 8]%Z, 8, 36%Q, (-1)%Z, (-1)%Z)].
Proof. split; [vm_compute; lia|]. vm_compute. reflexivity. Qed.
Example C85_small_witness : length (s_parts (set_parts [(4, -20); (5, -1)]%Z cluster)) < 3 /\
  match unbind_of z_neg z_pos e_sort (@rev (Z * Z)) loosening by_id 0%Z rest_same (fun p => inject_Z (fst p)) 3 (converged_q 1) 0 false 6 false (set_parts [(4, -20); (5, -1)]%Z cluster) with
  | Done s => (map fst (s_parts s), s_nbound s, s_death s, s_sink s) = ([4; 5]%Z, 1, 4%Z, 8%Z) | _ => False end.
Proof. split; [cbn; lia|]. vm_compute. reflexivity. Qed.
(** The process of C54: where stripping leaves 4, 2 and 22 bound particles, masking leaves 6, 3 and 19. *)
Example C85_work_witness : nest_history (H := Q) (map p_out sim1) /\ nest_begun (map p_out sim1) sim2 /\
  option_map (fun p => (forallb (fun s => (1 <? s_nbound s) || (length (s_parts s) <=? 1)) (p_nested p),
    match work_with (unbind_of z_neg z_pos e_sort (@rev (Z * Z)) thirds by_id 0%Z rest_same (fun p => inject_Z (fst p)) 2 (converged_q 1) 0 false 2 false) (truncate (allowed_q 3)) (fun p => inject_Z (fst p)) 2 near_1 false 3 [0] [0] (unnested (p_table p) (p_nested p)) [2; 1; 0] [0; 1; 2] [0] [1; 2; 0] (p_table p) (p_heads p) (p_nested p) with
    | Done out => map (fun s => (s_nbound s, length (s_parts s))) out | _ => [] end)) (nth_error sim2 0) = Some (true, [(6, 6); (3, 3); (19, 19)]).
Proof. split; [apply sim_history|]. split; [apply sim2_run|]. vm_compute. reflexivity. Qed.
(** The run of C62: track 0 keeps its unbound particle 3, which no other subhalo gets. *)
Example C85_run_witness : sane (c62_mk false false) /\ valid_input (c62_mk false false) 1 3 0 /\ tidy_input (c62_mk false false) 3 0 /\
  match c62_see (c62_mk false false) 3 with Some l => map (fun x => let '(t, _, _, m, nb, ids, _) := x in (t, m, nb, ids)) l | None => [] end =
    [(0, 4%Q, 4%nat, [0; 1; 2; 3]); (1, 5%Q, 5%nat, [4; 5; 6; 7; 8]); (2, 6%Q, 6%nat, [9; 10; 11; 12; 13; 14])]%Z.
Proof. destruct (c62_m_valid false false) as (A & B & C). split; [exact A|]. split; [exact B|]. split; [exact C|]. vm_compute. reflexivity. Qed.
