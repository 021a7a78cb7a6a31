(** Model of the communication wrappers in src/mpi_wrapper.h and src/mpi_wrapper.cpp.
    The [W] processes are the elements of a list of local states; a collective MPI call acts on the whole list.
    Point-to-point buffering, datatypes and message transport are not modelled: MPI is assumed to deliver. *)
From Coq Require Import List ZArith Bool Ascii String.
From Verif.Model Require Import ListMem Mymath.
Import ListNotations.
Local Open Scope nat_scope.

(** Apply a partial function to every process; fails if it fails anywhere. *)
Fixpoint mapM {A B} (f : A -> option B) (l : list A) : option (list B) :=
  match l with
  | [] => Some []
  | x :: r => match f x, mapM f r with Some y, Some r' => Some (y :: r') | _, _ => None end
  end.

Section AllToAll.
  Context {A : Type}.

  (** Storage of a buffer; [None] = not written yet. *)
  Definition buffer := list (option A).

  (** Copy the elements of [xs] to consecutive buffer cells from [d]: the inner loops of src/mpi_wrapper.h:169-173
      and 183-187.  [None] = write outside the buffer. *)
  Fixpoint write_seg (b : buffer) (d : nat) (xs : list A) : option buffer :=
    match xs with
    | [] => Some b
    | x :: r => match upd b d (Some x) with Some b' => write_seg b' (S d) r | None => None end
    end.

  (** Read [n] cells from position [d]; [None] when out of bounds or never written. *)
  Fixpoint read_seg (b : buffer) (d n : nat) : option (list A) :=
    match n with
    | O => Some []
    | S n' => match nth_error b d with
              | Some (Some x) => match read_seg b (S d) n' with Some r => Some (x :: r) | None => None end
              | _ => None
              end
    end.

  (** Advance an input iterator by [n] elements; [None] when it runs past the data. *)
  Definition take_iter (n : nat) (it : list A) : option (list A * list A) :=
    if Nat.leb n (List.length it) then Some (firstn n it, skipn n it) else None.

  (** Displacements, src/mpi_wrapper.h:160-161 through [CompileOffsets]. *)
  Definition displacements (counts : list nat) : list nat :=
    map Z.to_nat (fst (compile_offsets (map Z.of_nat counts))).
  Definition total (counts : list nat) : nat := Z.to_nat (snd (compile_offsets (map Z.of_nat counts))).

  (** The variables of one process inside the loop of src/mpi_wrapper.h:149-189. *)
  Record a2a := mka2a {
    a_in : list (list A);      (* InParticleIterator[rank]: what is left to send to each process *)
    a_cnt : list nat;          (* SendParticleCounts *)
    a_rem : list nat;          (* SendParticleRemainder *)
    a_buf : buffer;            (* SendBuffer *)
    a_out : list (list A)      (* what has been stored through OutParticleIterator[rank] *)
  }.

  (** src/mpi_wrapper.h:154-158. *)
  Definition switch_counts (iloop : nat) (st : a2a) : a2a :=
    mka2a (a_in st)
      (map (fun cr => if iloop =? snd cr then fst cr - 1 else fst cr) (combine (a_cnt st) (a_rem st)))
      (a_rem st) (a_buf st) (a_out st).

  (** src/mpi_wrapper.h:164-174, pack: one destination after the other. *)
  Fixpoint pack (b : buffer) (disps cnts : list nat) (its : list (list A)) : option (buffer * list (list A)) :=
    match disps, cnts, its with
    | d :: disps', c :: cnts', it :: its' =>
        match take_iter c it with
        | None => None
        | Some (xs, it') =>
            match write_seg b d xs with
            | None => None
            | Some b' => match pack b' disps' cnts' its' with
                         | Some (b'', its'') => Some (b'', it' :: its'')
                         | None => None
                         end
            end
        end
    | [], [], [] => Some (b, [])
    | _, _, _ => None
    end.
  Definition pack_rank (st : a2a) : option a2a :=
    match pack (a_buf st) (displacements (a_cnt st)) (a_cnt st) (a_in st) with
    | Some (b, its) => Some (mka2a its (a_cnt st) (a_rem st) b (a_out st))
    | None => None
    end.

  (** src/mpi_wrapper.h:176, [MPI_Alltoallv] as seen by receiver [r]: the segment of every sender's buffer. *)
  Definition segment_to (r : nat) (st : a2a) : option (list A) :=
    match nth_error (displacements (a_cnt st)) r, nth_error (a_cnt st) r with
    | Some d, Some c => read_seg (a_buf st) d c
    | _, _ => None
    end.
  Fixpoint write_segs (b : buffer) (disps : list nat) (segs : list (list A)) : option buffer :=
    match disps, segs with
    | d :: disps', s :: segs' =>
        match write_seg b d s with Some b' => write_segs b' disps' segs' | None => None end
    | [], [] => Some b
    | _, _ => None
    end.
  (** src/mpi_wrapper.h:178-188, unpack. *)
  Fixpoint unpack (b : buffer) (disps cnts : list nat) (outs : list (list A)) : option (list (list A)) :=
    match disps, cnts, outs with
    | d :: disps', c :: cnts', o :: outs' =>
        match read_seg b d c, unpack b disps' cnts' outs' with
        | Some xs, Some outs'' => Some ((o ++ xs) :: outs'')
        | _, _ => None
        end
    | [], [], [] => Some []
    | _, _, _ => None
    end.
  Definition receive_rank (sts : list a2a) (r : nat) (st : a2a) : option a2a :=
    match mapM (fun s => nth_error (a_cnt s) r) sts, mapM (segment_to r) sts with
    | Some rcnt, Some segs =>
        let rdisp := displacements rcnt in
        match write_segs (repeat None (total rcnt)) rdisp segs with
        | None => None
        | Some rbuf =>
            match unpack rbuf rdisp rcnt (a_out st) with
            | Some outs => Some (mka2a (a_in st) (a_cnt st) (a_rem st) (a_buf st) outs)
            | None => None
            end
        end
    | _, _ => None
    end.

  (** One pass of the loop src/mpi_wrapper.h:150-189 on all processes. *)
  Definition a2a_round (iloop : nat) (sts : list a2a) : option (list a2a) :=
    match mapM pack_rank (map (switch_counts iloop) sts) with
    | None => None
    | Some sts1 => mapM (fun rs => receive_rank sts1 (fst rs) (snd rs)) (combine (seq 0 (List.length sts1)) sts1)
    end.

  Fixpoint nsum (l : list nat) : nat := match l with [] => 0 | x :: r => x + nsum r end.
  Fixpoint nmax (l : list nat) : nat := match l with [] => 0 | x :: r => Nat.max x (nmax r) end.

  (** src/mpi_wrapper.h:135-136 with exact arithmetic: [ceil(sum/chunksize)]. *)
  Definition loops_of (chunksize : nat) (counts : list nat) : nat := (nsum counts + chunksize - 1) / chunksize.

  (** src/mpi_wrapper.h:124-190 [MyAllToAll]; [chunksize] is 1024*1024 in the code.  [data] lists, per process and
      destination, what the input iterator yields; [counts] is InParticleCount.  The result lists, per process and
      source, what was stored through the output iterator. *)
  Definition my_all_to_all (chunksize : nat) (data : list (list (list A))) (counts : list (list nat)) :
      option (list (list (list A))) :=
    let W := List.length data in
    let nloop := nmax (map (loops_of chunksize) counts) in
    if nloop =? 0 then Some (map (fun _ => repeat [] W) data) else
    let init := map (fun dc => mka2a (fst dc) (map (fun c => c / nloop + 1) (snd dc))
                      (map (fun c => c mod nloop) (snd dc)) (repeat None (chunksize + W)) (repeat [] W))
                    (combine data counts) in
    match for_range 0 nloop a2a_round init with
    | Some sts => Some (map a_out sts)
    | None => None
    end.

  (** ** Broadcast *)

  (** Variables of [MyBcast], src/mpi_wrapper.h:192-229: size of [buffer] (= buffersize), what is left of the
      input of the root, and what every process (root included) has stored. *)
  Record bc := mkbc { b_size : nat; b_in : list A; b_out : list (list A) }.
  Definition bcast_round (nremainder iloop : nat) (st : bc) : option bc :=
    let size := if iloop =? nremainder then b_size st - 1 else b_size st in
    match take_iter size (b_in st) with
    | None => None
    | Some (xs, it) => Some (mkbc size it (map (fun o => o ++ xs) (b_out st)))
    end.
  Definition my_bcast (chunksize W : nat) (input : list A) (count : nat) : option (list (list A)) :=
    let nloop := (count + chunksize - 1) / chunksize in
    if nloop =? 0 then Some (repeat [] W) else
    match for_range 0 nloop (bcast_round (count mod nloop)) (mkbc (count / nloop + 1) input (repeat [] W)) with
    | Some st => Some (b_out st)
    | None => None
    end.
End AllToAll.
Arguments a2a : clear implicits.
Arguments buffer : clear implicits.
Arguments bc : clear implicits.

(** ** Strings *)

(** src/mpi_wrapper.cpp:29-32: every string followed by a newline. *)
Definition newline : ascii := "010"%char.
Fixpoint join_lines (x : list (list ascii)) : list ascii :=
  match x with [] => [] | s :: r => s ++ newline :: join_lines r end.

(** [getline]: characters up to the next newline (dropped) and the rest of the stream; [None] when nothing is left
    (the stream then fails and the loop ends). *)
Fixpoint getline (acc : list ascii) (buf : list ascii) : list ascii * list ascii :=
  match buf with
  | [] => (rev acc, [])
  | c :: r => if Ascii.eqb c newline then (rev acc, r) else getline (c :: acc) r
  end.
(** src/mpi_wrapper.cpp:40-43; [fuel] bounds the number of lines ([None] when exhausted). *)
Fixpoint read_lines (fuel : nat) (buf : list ascii) : option (list (list ascii)) :=
  match buf with
  | [] => Some []
  | _ => match fuel with
         | O => None
         | S fuel' => let '(s, r) := getline [] buf in
                      match read_lines fuel' r with Some l => Some (s :: l) | None => None end
         end
  end.

(** src/mpi_wrapper.cpp:23-45 [SyncVectorString] on [W] processes with the given root: the root keeps its list,
    every other process reads the broadcast buffer ([SyncContainer], src/mpi_wrapper.h:65-81, copies it verbatim). *)
Definition sync_vector_string (root : nat) (xs : list (list (list ascii))) : option (list (list (list ascii))) :=
  match nth_error xs root with
  | None => None
  | Some x =>
      let buf := join_lines x in
      mapM (fun rx => if fst rx =? root then Some (snd rx) else read_lines (S (List.length buf)) buf)
        (combine (seq 0 (List.length xs)) xs)
  end.
