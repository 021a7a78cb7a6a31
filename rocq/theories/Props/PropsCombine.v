(** toolbox/combineSubSnap.py after whole runs: C92. *)
From Coq Require Import List ZArith QArith Bool Lia Sorting.Sorted Sorting.Permutation.
From Verif.Model Require Import Run ListMem Mpi Hash Subhalo Catalogue Unbind Program Combine.
From Verif.Spec Require Import Members Nesting Query Unbinding Catalogue Program Combine.
From Verif.Proofs Require Import MpiProofs HashProofs CatalogueProofs RestartProofs RefineProofs ProgramLoop CombineProofs.
From Verif.Props Require Import PropsApostle PropsMembers PropsNest PropsProgram.
Import ListNotations.
Local Open Scope nat_scope.

(** C92: after a whole run on valid input, combineSubSnap.py puts the files of every snapshot whose catalogue is not empty
    together in one file, where row [t] of every dataset belongs to the subhalo with track [t].  It fails if the catalogue is
    empty. *)
Theorem C92_combined : forall (X R S E : Type) (g : setup X R S E) (W n : nat) (d0 : disk X R) (argsort : list (sub X R) -> list nat),
  sane g -> sorts_tracks argsort -> let start := g_min_snapshot g in valid_input g W n start ->
  exists (cat : nat -> list (list (sub X R))) (d : disk X R),
    hbt g W n start d0 = Done (tt, d, cat n) /\ cat 0 = repeat [] W /\
    (forall k, k < n -> sound g W (start + Z.of_nat k) (cat (Datatypes.S k)) /\ evolves g (start + Z.of_nat k) (cat k) (cat (Datatypes.S k))) /\
    (forall k, k < n ->
      (concat (cat (Datatypes.S k)) = [] -> combine_snap argsort d (start + Z.of_nat k) = None) /\
      (concat (cat (Datatypes.S k)) <> [] -> exists out, combine_snap argsort d (start + Z.of_nat k) = Some out /\
        c_snapid out = g_snapid g (start + Z.of_nat k) /\ combines (cat (Datatypes.S k)) out)).
Proof.
  intros X R S E g W n d0 argsort Hg Ha start [V1 V2 V3 V4]. destruct (loop_ok g Hg W V1 n start (repeat [] W) V2 (state_empty W _) V3) as (cs & raw & L1 & L0 & L2 & L3 & L4).
  - intros _ s p Hs. assert (E0 : concat (repeat (@nil (sub X R)) W) = []) by (clear; induction W; [reflexivity|assumption]). rewrite E0 in Hs. destruct Hs.
  - exact V4.
  - destruct (L1 d0) as (d & D1 & D2 & D3). exists cs, d. split; [|split; [exact L2|split]].
    + unfold hbt, program, load. fold start. replace (Z.ltb (start - 1) start) with true by (symmetry; apply Z.ltb_lt; lia). exact D1.
    + intros k Hk. split; apply L4; exact Hk.
    + intros k Hk. destruct (L0 k Hk) as (Lc & Ec). destruct (L4 k Hk) as (_ & HS & _). pose proof (sd_tracks _ _ _ _ HS) as HT.
      assert (EC : concat (cs (Datatypes.S k)) = map (duplicate nothing (g_mbid g)) (concat (raw k))) by (rewrite Ec, concat_map; reflexivity).
      rewrite EC, map_length, map_map in HT.
      destruct (combined_ok argsort Ha nothing (g_mbid g) (g_snapid g) (start + Z.of_nat k) d (raw k)) as [C1 C2].
      * intros C. rewrite C in Lc. cbn in Lc. lia.
      * exact (D2 k Hk).
      * exact HT.
      * rewrite EC. split; [intros Hc; apply C1; destruct (concat (raw k)); [reflexivity|discriminate]|]. intros Hc. rewrite Ec. apply C2. intros C. apply Hc. rewrite C. reflexivity.
Qed.
Print Assumptions C92_combined.

Local Open Scope Z_scope.
(** Sorting of the indices by track. *)
Definition argsort_tracks {X R} (l : list (sub X R)) : list nat := map fst (isort (fun p => s_track (snd p)) (combine (seq 0 (length l)) l)).
Lemma argsort_ok X R : sorts_tracks (@argsort_tracks X R).
Proof.
  intros l. unfold argsort_tracks. destruct (isort_sorts (fun p : nat * sub X R => s_track (snd p)) (combine (seq 0 (length l)) l)) as [HP HS].
  assert (HF : forall p, In p (isort (fun p : nat * sub X R => s_track (snd p)) (combine (seq 0 (length l)) l)) -> nth_error l (fst p) = Some (snd p)).
  { intros [i s] Hp. apply (Permutation_in _ HP) in Hp. clear -Hp. cbn. assert (G : forall a, In (i, s) (combine (seq a (length l)) l) -> (a <= i)%nat /\ nth_error l (i - a) = Some s).
    { clear Hp. induction l as [|x l IH]; intros a Hp; [destruct Hp|]. cbn [length seq combine] in Hp. destruct Hp as [[= <- <-]|Hp]; [split; [lia|rewrite Nat.sub_diag; reflexivity]|].
      destruct (IH (Datatypes.S a) Hp) as [H1 H2]. split; [lia|]. replace (i - a)%nat with (Datatypes.S (i - Datatypes.S a)) by lia. exact H2. }
    destruct (G 0%nat Hp) as [_ G']. rewrite Nat.sub_0_r in G'. exact G'. }
  split.
  - rewrite HP. replace (map fst (combine (seq 0 (length l)) l)) with (seq 0 (length l)); [reflexivity|]. clear. generalize 0%nat. induction l as [|x l IH]; intros a; [reflexivity|]. cbn. f_equal. apply IH.
  - revert HF. clear HP. induction HS as [|p m HS IH HA]; intros HF; cbn; constructor; [apply IH; intros q Hq; apply HF; right; exact Hq|].
    apply Forall_forall. intros j Hj. apply in_map_iff in Hj as (q & <- & Hq). intros s t Es Et. rewrite (HF p (or_introl eq_refl)) in Es. rewrite (HF q (or_intror Hq)) in Et. injection Es as <-. injection Et as <-.
    rewrite Forall_forall in HA. exact (HA q Hq).
Qed.
(** C92: the run of C61 on two processes.  Its third snapshot has subhalos with tracks 0 and 2 in the first file and 1 in the second. *)
Example C92_witness : sane c61 /\ valid_input c61 2 3 0 /\ sorts_tracks (@argsort_tracks Z nat) /\
  match hbt c61 2 3 0 c61_blank with
  | Done (_, d, c) => Some (map (map s_track) c, option_map (fun o => (map s_track (c_subs o), c_ids o, c_nests o)) (combine_snap argsort_tracks d 2))
  | _ => None
  end = Some ([[0; 2]; [1]], Some ([0; 1; 2], [[0; 1; 2; 3]; [1; 2; 3; 4; 5; 6; 7]; [8; 9; 10]], [[]; []; []])).
Proof. split; [exact c61_sane|]. split; [exact c61_valid|]. split; [apply argsort_ok|]. vm_compute. reflexivity. Qed.
