(** What Apostle snapshot files hold and what should be loaded from them, for C69. *)
From Coq Require Import List ZArith Bool String.
From Verif.Model Require Import Gadget ApostleFiles.
From Verif.Model Require FileNames.
Import ListNotations.
Local Open Scope Z_scope.

(** A particle as it is stored, with the number of its group. *)
Record kept (R : Type) := mkkept { k_pos : R * R * R; k_vel : R * R * R; k_id : Z; k_mass : R; k_energy : R; k_group : Z }.
Arguments mkkept {R}. Arguments k_pos {R} _. Arguments k_vel {R} _. Arguments k_id {R} _. Arguments k_mass {R} _. Arguments k_energy {R} _. Arguments k_group {R} _.
(** One file: the particles of each type, and of the header the masses (zero: every particle has its own mass), the scale
    factor, the size of the box and the number of files. *)
Record volume (R : Type) := mkvolume { v_types : list (list (kept R)); v_table : list R; v_time : R; v_box : R; v_files : Z }.
Arguments mkvolume {R}. Arguments v_types {R} _. Arguments v_table {R} _. Arguments v_time {R} _. Arguments v_box {R} _. Arguments v_files {R} _.

Section Layout.
  Context {R : Type}.
  Variable is_zero : R -> bool.
  Variable wrap speed : R -> R -> R.
  Variables periodic dm_only thermal : bool.

  (** Dark matter is type 1. *)
  Definition wanted (t : nat) : bool := negb dm_only || Nat.eqb t 1.
  (** The particles [ps] of type [t] are in the datasets [d].  Velocities and masses have either of two names; datasets with
      the names that are not looked for, or whose values are not needed, may hold anything. *)
  Definition holds_type (table : R) (t : nat) (ps : list (kept R)) (d : datasets R) : Prop :=
    d_Coordinates d = Some (map k_pos ps) /\
    (d_Velocities d = Some (map k_vel ps) \/ d_Velocities d = None /\ d_Velocity d = Some (map k_vel ps)) /\
    d_ParticleIDs d = Some (map k_id ps) /\
    (is_zero table = true -> d_Masses d = Some (map k_mass ps) \/ d_Masses d = None /\ d_Mass d = Some (map k_mass ps)) /\
    (thermal = true -> t = 0%nat -> d_InternalEnergy d = Some (map k_energy ps)) /\
    d_GroupNumber d = Some (map k_group ps).
  (** The file [f] holds [v]. *)
  Definition holds (v : volume R) (f : hdf R) : Prop :=
    List.length (v_types v) = 6%nat /\ List.length (v_table v) = 6%nat /\
    f_NumPart_ThisFile f = map (fun ps => Z.of_nat (List.length ps)) (v_types v) /\
    f_MassTable f = v_table v /\ f_Time f = v_time v /\ f_BoxSize f = v_box v /\ f_NumFilesPerSnapshot f = v_files v /\
    forall t ps table, nth_error (v_types v) t = Some ps -> nth_error (v_table v) t = Some table -> wanted t = true -> ps <> [] ->
      exists d, f_PartType f t = Some d /\ holds_type table t ps d.
  (** The stored ids are of a size that is accepted. *)
  Definition narrow (size : Z) (f : hdf R) : Prop := forall t d, f_PartType f t = Some d -> d_id_size d <= size.
  (** The numbers of the snapshot are in the range of signed integers of this many bytes. *)
  Definition in_range (size z : Z) : Prop := - 2 ^ (8 * size - 1) <= z < 2 ^ (8 * size - 1).
  Definition numbers_fit (size : Z) (v : volume R) : Prop := forall p, In p (List.concat (v_types v)) -> in_range size (k_id p) /\ in_range size (k_group p).

  (** A particle as it should be loaded; [v0]: the first file. *)
  Definition ready (v0 : volume R) (t : nat) (table : R) (p : kept R) : particle R :=
    let each := fun (g : R -> R) (x : R * R * R) => let '(a, b, c) := x in (g a, g b, g c) in
    mkparticle (Some (if periodic then each (wrap (v_box v0)) (k_pos p) else k_pos p)) (Some (each (speed (v_time v0)) (k_vel p))) (Some (k_id p))
      (Some (if is_zero table then k_mass p else table))
      (if thermal && negb dm_only && Nat.eqb t 0 then Some (k_energy p) else None) (if dm_only then None else Some t).
  (** The wanted particles of a file, with the numbers of their groups. *)
  Definition of_volume (v0 v : volume R) : list (Z * particle R) :=
    flat_map (fun e => let '(t, table, ps) := e in if wanted t then map (fun p => (k_group p, ready v0 t table p)) ps else [])
      (combine (combine (seq 0 6) (v_table v)) (v_types v)).
End Layout.

(** The volumes are the files of a snapshot. *)
Definition snapshot_of {R} (v0 : volume R) (vs : list (volume R)) : Prop := v_files v0 = Z.of_nat (List.length vs) /\ Forall (fun v => v_table v = v_table v0) vs.

(** The name of the snapshot is [a ++ b ++ c], where [a] and [b] have four characters ("snap" and "shot" if there is no list of names). *)
Definition named (name_list : list string) (id : Z) (a b c : string) : Prop :=
  String.length a = 4%nat /\ String.length b = 4%nat /\
  match name_list with
  | [] => a = "snap"%string /\ b = "shot"%string /\ c = ("_" ++ FileNames.setw3 (FileNames.decimal id))%string
  | _ => 0 <= id /\ nth_error name_list (Z.to_nat id) = Some (a ++ b ++ c)%string
  end.
(** The files are in the directory of the snapshot, numbered from 0. *)
Definition stored_at {R} (disk : string -> option (hdf R)) (path a b c : string) (files : list (hdf R)) : Prop :=
  forall k, disk (path ++ "/" ++ (a ++ b ++ c) ++ "/" ++ (a ++ c) ++ "." ++ FileNames.decimal (Z.of_nat k) ++ ".hdf5")%string = nth_error files k.
