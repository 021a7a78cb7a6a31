(** Model of saving and loading the subhalo catalogue (src/io/subhalo_io.cpp:99-411) and of the main loop around it
    (HBT.cpp:38-95). *)
From Coq Require Import List ZArith Bool.
From Verif.Model Require Import Run ListMem Mpi Mymath Subhalo ParticleExchange.
Import ListNotations.
Local Open Scope nat_scope.

(** src/subhalo.h: SubReaderDepth_t. *)
Inductive depth := SubTable | SubParticles | SrcParticles.

Section Catalogue.
  Context {X R : Type}.
  Variable null : Z.                     (* SpecialConst::NullParticleId *)
  Variable mbid : Z -> R -> R.           (* assignment to the member MostBoundParticleId *)
  Variable snapid : Z -> Z.              (* SnapshotId of a SnapshotIndex, src/snapshot_number.h:56-70 *)
  (** What Particles.resize leaves in the members other than Id (file, subhalo, particle). *)
  Variable junk : nat -> nat -> nat -> X.
  Variable min_snapshot : Z.             (* HBTConfig.MinSnapshotIndex *)
  Local Notation subhalo := (sub X R).

  (** The datasets of SubSnap_nnn.i.hdf5 that are read again (src/io/subhalo_io.cpp:297-396).  An element of
      [f_subs] holds the members inserted in H5T_SubhaloInMem (lines 12-98), that is all except the particle and nest vectors.
      Not modelled: Cosmology, NumberOfNewSubhalos, NumberOfFakeHalos, ParticleProperties, BindingEnergies. *)
  Record sub_file := mksubfile { f_nfiles : Z; f_snapid : Z; f_total : Z; f_nests : list (list Z); f_ids : list (list Z); f_subs : list subhalo }.
  (** SrcSnap_nnn.i.hdf5 (lines 398-408). *)
  Record src_file := mksrcfile { g_snapid : Z; g_ids : list (list Z) }.
  (** The directory SubhaloPath: snapshot index and file number to file (lines 106-117). *)
  Record disk := mkdisk { d_sub : Z -> nat -> option sub_file; d_src : Z -> nat -> option src_file }.

  (** H5Fcreate with H5F_ACC_TRUNC: lines 302 and 400. *)
  Definition put {A} (m : Z -> nat -> option A) (snap : Z) (i : nat) (a : A) : Z -> nat -> option A :=
    fun s j => if Z.eqb s snap && Nat.eqb j i then Some a else m s j.

  (** The members outside the two vectors. *)
  Definition scalars (s : subhalo) : subhalo := set_parts [] (set_nest [] s).
  (** src/io/subhalo_io.cpp:99-105 [DuplicateMostBoundParticleId]. *)
  Definition duplicate (s : subhalo) : subhalo :=
    set_rest (mbid (match s_parts s with p :: _ => fst p | [] => null end) (s_rest s)) s.

  (** Lines 377-390: IdBuffer, and for each subhalo the position of vl[i].p in it. *)
  Fixpoint fill_buffer (subs : list subhalo) (offset : nat) (buffer : list Z) : list nat * list Z :=
    match subs with
    | [] => ([], buffer)
    | s :: r => let '(ps, b) := fill_buffer r (offset + length (s_parts s)) (buffer ++ map fst (s_parts s)) in (offset :: ps, b)
    end.
  (** What HDF5 copies for a variable-length element: [len] entries from position [p]; [None] beyond the buffer. *)
  Definition vl_read (buffer : list Z) (len p : nat) : option (list Z) :=
    if Nat.leb (p + len) (length buffer) then Some (firstn len (skipn p buffer)) else None.

  (** src/io/subhalo_io.cpp:297-411 [WriteFile]: the new disk and the subhalos in memory.
      Simplification: Nbound is not negative; an HDF5 call never fails. *)
  Definition write_file (d : disk) (snap : Z) (i nfiles : nat) (total : nat) (subs : list subhalo) : option (disk * list subhalo) :=
    let '(ps, buffer) := fill_buffer subs 0 [] in
    let subs' := map duplicate subs in
    match mapM (fun sp => vl_read buffer (s_nbound (fst sp)) (snd sp)) (combine subs ps),
          mapM (fun sp => vl_read buffer (length (s_parts (fst sp))) (snd sp)) (combine subs ps) with
    | Some bound, Some all =>
        Some (mkdisk
                (put (d_sub d) snap i (mksubfile (Z.of_nat nfiles) (snapid snap) (Z.of_nat total) (map s_nest subs) bound (map scalars subs')))
                (put (d_src d) snap i (mksrcfile (snapid snap) all)), subs')
    | _, _ => None
    end.

  (** src/io/subhalo_io.cpp:275-296 [Save]: the processes write their files one after another; they are different files, so
      the order does not matter. *)
  Fixpoint save_from (d : disk) (snap : Z) (i nfiles total : nat) (cat : list (list subhalo)) : option (disk * list (list subhalo)) :=
    match cat with
    | [] => Some (d, [])
    | subs :: r => match write_file d snap i nfiles total subs with
                   | None => None
                   | Some (d', subs') => match save_from d' snap (S i) nfiles total r with
                                         | None => None
                                         | Some (d'', r') => Some (d'', subs' :: r')
                                         end
                   end
    end.
  Definition save (d : disk) (snap : Z) (cat : list (list subhalo)) : option (disk * list (list subhalo)) :=
    save_from d snap 0 (length cat) (nsum (map (@length _) cat)) cat.

  (** src/io/subhalo_io.cpp:219-225: particles with the given ids. *)
  Definition blank_particles (f : nat -> X) (ids : list Z) : list (Z * X) := combine ids (map f (seq 0 (length ids))).
  (** Lines 200-245 for each subhalo of the file. *)
  Definition rebuild (i : nat) (jsxn : nat * (subhalo * (list Z * list Z))) : subhalo :=
    let '(j, (s, (ids, nest))) := jsxn in set_nest nest (set_parts (blank_particles (junk i j) ids) s).
  (** src/io/subhalo_io.cpp:174-273 [ReadFile]: the subhalos appended to Subhalos.  [None]: no such file, or a failed assert. *)
  Definition read_file (d : disk) (snap : Z) (dep : depth) (i : nat) : option (list subhalo) :=
    match d_sub d snap i with
    | None => None
    | Some f =>
        if Z.eqb (f_snapid f) (snapid snap) then
          let n := length (f_subs f) in
          if Nat.eqb n 0 then Some [] else
          match (match dep with
                 | SubTable => Some (repeat [] n)
                 | SubParticles => Some (f_ids f)
                 | SrcParticles => match d_src d snap i with Some g => Some (g_ids g) | None => None end
                 end) with
          | None => None
          | Some ids =>
              if Nat.eqb (length ids) n && Nat.eqb (length (f_nests f)) n then
                Some (map (rebuild i) (combine (seq 0 n) (combine (f_subs f) (combine ids (f_nests f)))))
              else None
          end
        else None
    end.

  Inductive load_result := Loaded (cat : list (list subhalo)) | Mismatch | Failed.

  (** src/io/subhalo_io.cpp:142-154: the files of one process, in order. *)
  Definition load_rank (d : disk) (snap : Z) (dep : depth) (W nfiles : Z) (rank : nat) : option (list subhalo) :=
    match assign_tasks (Z.of_nat rank) W nfiles with
    | None => None
    | Some (b, e) =>
        match mapM (read_file d snap dep) (map Z.to_nat (map (fun k => (b + Z.of_nat k)%Z) (seq 0 (Z.to_nat (e - b))))) with
        | Some l => Some (concat l)
        | None => None
        end
    end.
  (** src/io/subhalo_io.cpp:118-173 [Load] on [W] processes.  [Mismatch] is the exception of line 169. *)
  Definition load (d : disk) (snap : Z) (dep : depth) (W : nat) : load_result :=
    if Z.ltb snap min_snapshot then Loaded (repeat [] W) else
    match d_sub d snap 0 with
    | None => Failed
    | Some f0 =>
        match mapM (load_rank d snap dep (Z.of_nat W) (f_nfiles f0)) (seq 0 W) with
        | None => Failed
        | Some cat => if Z.eqb (Z.of_nat (nsum (map (@length _) cat))) (f_total f0) then Loaded cat else Mismatch
        end
    end.

  (** ** The main loop *)
  Variable chunk : nat.
  Variable sort_local : list (Z * X * nat) -> list (Z * X * nat).
  Variable sort_roam : list (Z * (X * nat)) -> list (Z * (X * nat)).
  (** The particle snapshots: published ranges and the share of each process. *)
  Variable ranges : Z -> list Z.
  Variable snaps : Z -> list (snap_proc X).
  (** src/subhalo.cpp:221-231 [AverageCoordinates] followed by src/subhalo.cpp:479-485 [CountParticles]: they read the particles
      and the bound count of one subhalo and write other members of it. *)
  Variable derive : subhalo -> subhalo.
  (** HBT.cpp:69-83: AssignHosts, PrepareCentrals, RefineParticles, MergeSubhalos, UpdateTracks.  [H]: state of the process
      that survives from snapshot to snapshot outside the catalogue (the generator behind random_shuffle,
      src/subhalo_unbind.cpp:302). *)
  Context {H : Type}.
  Variable rest : Z -> H -> list (list subhalo) -> run (H * list (list subhalo)).

  (** src/particle_exchanger.h:234-238 with src/subhalo.cpp:446-477: the particles of one subhalo after the exchange. *)
  Definition refresh_sub (s : subhalo) (new : list (Z * X)) : option subhalo :=
    match sub_kick null new (s_nbound s) with
    | Some (l, nb, _) => Some (derive (set_nbound nb (set_parts l s)))
    | None => None
    end.
  (** src/subhalo.cpp:183-192 [UpdateParticles] with ExchangeSubHalos (lines 24-42). *)
  Definition update_particles (snap : Z) (cat : list (list subhalo)) : run (list (list subhalo)) :=
    rbind (exchange null chunk sort_local sort_roam (ranges snap) (snaps snap) (map (map s_parts) cat))
      (fun new => of_opt (mapM (fun cn => mapM (fun sn => refresh_sub (fst sn) (snd sn)) (combine (fst cn) (snd cn))) (combine cat new))).

  (** HBT.cpp:53-86, one snapshot. *)
  Definition one_snapshot (snap : Z) (st : H * disk * list (list subhalo)) : run (H * disk * list (list subhalo)) :=
    let '(h, d, cat) := st in
    rbind (update_particles snap cat) (fun c1 =>
    rbind (rest snap h c1) (fun hc =>
    match save d snap (snd hc) with
    | Some (d', c2) => Done (fst hc, d', c2)
    | None => Crash
    end)).
  (** HBT.cpp:53: [n] snapshots starting with [snap]. *)
  Fixpoint main_loop (n : nat) (snap : Z) (st : H * disk * list (list subhalo)) : run (H * disk * list (list subhalo)) :=
    match n with
    | O => Done st
    | S n' => rbind (one_snapshot snap st) (main_loop n' (snap + 1))
    end.
  (** HBT.cpp:43-45: a new run from snapshot [start] on [W] processes. *)
  Definition program (W n : nat) (start : Z) (h : H) (d : disk) : run (H * disk * list (list subhalo)) :=
    match load d (start - 1) SrcParticles W with
    | Loaded cat => main_loop n start (h, d, cat)
    | _ => Crash
    end.
End Catalogue.
Arguments sub_file : clear implicits. Arguments disk : clear implicits. Arguments load_result : clear implicits.
