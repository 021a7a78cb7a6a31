(** The layout of Gadget snapshot files and the particles they hold, for C64. *)
From Coq Require Import List ZArith NArith Bool.
From Verif.Model Require Import Gadget.
From Verif.Spec Require Import Basic.
Import ListNotations.
Local Open Scope Z_scope.

(** Little-endian bytes of an integer, two's complement. *)
Definition bytes_of_int (n : nat) (z : Z) : list N := map (fun k => Z.to_N ((z / 2 ^ (8 * Z.of_nat k)) mod 256)) (seq 0 n).
(** A stored number of [n] bytes. *)
Definition word (n : nat) (b : list N) : Prop := length b = n /\ Forall is_byte b.

(** A particle as it is stored: floating-point numbers are given by their bytes. *)
Record stored_particle := mksp { s_pos : list N * list N * list N; s_vel : list N * list N * list N; s_id : Z; s_mass : list N; s_energy : list N }.

(** One file: the particles of each type, the masses in the header (zero: every particle has its own mass), the numbers of
    particles in the whole snapshot, the other entries of the header, and what follows the blocks that are read. *)
Record content := mkcontent { c_types : list (list stored_particle); c_table : list (list N); c_totals : list Z; c_time : list N; c_redshift : list N;
  c_sfr : Z; c_feedback : Z; c_cooling : Z; c_files : Z; c_box : list N; c_omega_m : list N; c_omega_l : list N; c_hubble : list N; c_fill : list N; c_rest : list N }.

Section Layout.
  Context {R : Type}.
  Variables (real : list N -> R) (is_zero : list N -> bool) (wrap : R -> R) (speed : list N -> R -> R).
  Variables (periodic has_id id_unsigned dm_only thermal : bool).
  (** Byte order of the files, bytes of a floating-point number and of an id. *)
  Variables (swap : bool) (w wi : nat).

  Definition particles_of (c : content) : list stored_particle := concat (c_types c).
  Definition xyz (t : list N * list N * list N) : list (list N) := let '(x, y, z) := t in [x; y; z].
  (** The particles whose masses are in the mass block. *)
  Definition with_mass (c : content) : list stored_particle :=
    concat (map (fun tm => if is_zero (snd tm) then fst tm else []) (combine (c_types c) (c_table c))).
  (** A block is only written if there is something in it. *)
  Definition block (es : list (list N)) : list N := match es with [] => [] | _ => record swap es end.

  Definition encode (c : content) : list N :=
    record swap (map (fun l => bytes_of_int 4 (Z.of_nat (length l))) (c_types c) ++ c_table c ++ [c_time c; c_redshift c] ++
                 [bytes_of_int 4 (c_sfr c); bytes_of_int 4 (c_feedback c)] ++ map (bytes_of_int 4) (c_totals c) ++
                 [bytes_of_int 4 (c_cooling c); bytes_of_int 4 (c_files c)] ++ [c_box c; c_omega_m c; c_omega_l c; c_hubble c] ++ [c_fill c]) ++
    record swap (flat_map (fun p => xyz (s_pos p)) (particles_of c)) ++
    record swap (flat_map (fun p => xyz (s_vel p)) (particles_of c)) ++
    (if has_id then record swap (map (fun p => bytes_of_int wi (s_id p)) (particles_of c)) else []) ++
    block (map s_mass (with_mass c)) ++
    (if thermal then block (map s_energy (nth 0 (c_types c) [])) else []) ++
    c_rest c.

  (** An id that fits its field. *)
  Definition id_fits (z : Z) : Prop :=
    (wi = 4%nat \/ wi = 8%nat) /\
    if Nat.eqb wi 4 && id_unsigned then 0 <= z < 2 ^ 32 else - 2 ^ (8 * Z.of_nat wi - 1) <= z < 2 ^ (8 * Z.of_nat wi - 1).
  Definition valid_particle (p : stored_particle) : Prop :=
    Forall (word w) (xyz (s_pos p)) /\ Forall (word w) (xyz (s_vel p)) /\ word w (s_mass p) /\ word w (s_energy p) /\ (has_id = true -> id_fits (s_id p)).
  Definition fits_int (z : Z) : Prop := 0 <= z < 2 ^ 31.
  (** A file that follows the format: six types, a header of 256 bytes, record lengths within 31 bits, and totals that are
      not zero for types that are present. *)
  Definition valid_content (c : content) : Prop :=
    length (c_types c) = 6%nat /\ Forall (word 8) (c_table c) /\ length (c_table c) = 6%nat /\
    length (c_totals c) = 6%nat /\ Forall (fun z => 0 <= z < 2 ^ 32) (c_totals c) /\
    Forall (word 8) [c_time c; c_redshift c; c_box c; c_omega_m c; c_omega_l c; c_hubble c] /\
    Forall fits_int [c_sfr c; c_feedback c; c_cooling c; c_files c] /\ word 96 (c_fill c) /\
    Forall valid_particle (particles_of c) /\ Z.of_nat (length (particles_of c) * 24) < 2 ^ 31 /\
    Forall2 (fun ps k => ps <> [] -> k <> 0) (c_types c) (c_totals c).
  (** What the reader needs beyond that: internal energies are read without looking whether there are any, and with DM_ONLY
      so are the masses of dark matter. *)
  Definition has_blocks (c : content) : Prop :=
    (thermal = true -> dm_only = false -> nth 0 (c_types c) [] <> []) /\
    (dm_only = true -> is_zero (nth 1 (c_table c) []) = true -> nth 1 (c_totals c) 0 <> 0 -> with_mass c <> []).

  (** The particles of the file as they should be loaded; [time]: scale factor; [first]: number of particles in the
      earlier files. *)
  Definition loaded (time table : list N) (t : nat) (p : stored_particle) (id : Z) : particle R :=
    let three := fun v : list N * list N * list N => let '(x, y, z) := v in (real x, real y, real z) in
    let each := fun (g : R -> R) (v : R * R * R) => let '(x, y, z) := v in (g x, g y, g z) in
    mkparticle (Some (if periodic then each wrap (three (s_pos p)) else three (s_pos p))) (Some (each (speed time) (three (s_vel p)))) (Some id)
      (Some (if is_zero table then real (s_mass p) else real table))
      (if thermal && negb dm_only && Nat.eqb t 0 then Some (real (s_energy p)) else None) (if dm_only then None else Some t).
  (** The particles of the selected types with type and mass in the header. *)
  Definition selected (c : content) : list (nat * list N * stored_particle) :=
    flat_map (fun e => let '(t, table, ps) := e in if dm_only && negb (Nat.eqb t 1) then [] else map (fun p => (t, table, p)) ps)
      (combine (combine (seq 0 6) (c_table c)) (c_types c)).
  (** The particles of all files in order; without id block they are numbered. *)
  Definition all_loaded (time : list N) (cs : list content) : list (particle R) :=
    let l := flat_map selected cs in
    map (fun e => let '(n, (t, table, p)) := e in loaded time table t p (if has_id then s_id p else Z.of_nat n)) (combine (seq 0 (length l)) l).
End Layout.

(** The contents of the snapshot are stored under one of the naming conventions, and no file with a name of a convention
    tried before is there. *)
Definition laid_out (disk : name -> option (list N)) (files : list (list N)) : Prop :=
  (forall i, disk (Snapdir (Z.of_nat i)) = nth_error files i) \/
  (forall i, disk (Snapdir i) = None) /\
  (length files = 1%nat /\ disk Single = nth_error files 0 \/
   disk Single = None /\ (forall i, disk (Plain (Z.of_nat i)) = nth_error files i) \/
   disk Single = None /\ (forall i, disk (Plain i) = None) /\ forall i, disk (Ramses (Z.of_nat i)) = nth_error files i).
