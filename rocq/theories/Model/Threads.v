(** The parallel loops over subhalos and halos (OpenMP) at the level of single reads and writes of shared memory.
    A turn of a loop is a program that reads and writes cells.  All turns may run at the same time: in every step any turn that
    is not over does its next read or write.  What a number of threads does under any schedule clause is among these
    executions: a turn that no thread has begun is one that has made no step yet.  Steps of different threads do not overlap
    (sequential consistency); by the rules of C++ that is so for programs without races, which is what property C87 is about. *)
From Coq Require Import List ZArith QArith Bool.
From Verif.Model Require Import ListMem Mpi Run Subhalo Nest Mask Unbind Merge.
Import ListNotations.
Local Open Scope Z_scope.

Section Machine.
  Context {L V : Type}.
  Variable same : L -> L -> bool.
  (** [Fail]: undefined behaviour, or the bound on a recursion was too small. *)
  Inductive prog (A : Type) : Type :=
  | Ret (a : A) | Get (l : L) (k : V -> prog A) | Put (l : L) (v : V) (k : prog A) | Fail.
  Arguments Ret {A}. Arguments Get {A}. Arguments Put {A}. Arguments Fail {A}.
  Fixpoint pbind {A B} (p : prog A) (f : A -> prog B) : prog B :=
    match p with
    | Ret a => f a
    | Get l k => Get l (fun v => pbind (k v) f)
    | Put l v k => Put l v (pbind k f)
    | Fail => Fail
    end.
  (** Range-for over a list of values, with a local variable. *)
  Fixpoint pfold {A B} (l : list B) (body : B -> A -> prog A) (a : A) : prog A :=
    match l with [] => Ret a | x :: r => pbind (body x a) (pfold r body) end.
  Definition peach {B} (l : list B) (body : B -> prog unit) : prog unit := pfold l (fun x _ => body x) tt.

  (** Shared memory; a cell that does not exist has no value. *)
  Definition store := L -> option V.
  Definition put (s : store) (l : L) (v : V) : store := fun m => if same m l then Some v else s m.
  (** The next read or write of a program. *)
  Definition step1 {A} (p : prog A) (s : store) : option (prog A * store) :=
    match p with
    | Get l k => match s l with Some v => Some (k v, s) | None => None end
    | Put l v k => match s l with Some _ => Some (k, put s l v) | None => None end
    | _ => None
    end.
  (** One step of a parallel loop: of any of its turns. *)
  Inductive step : list (prog unit) * store -> list (prog unit) * store -> Prop :=
  | step_of i ps p s p' s' ps' : nth_error ps i = Some p -> step1 p s = Some (p', s') -> upd ps i p' = Some ps' -> step (ps, s) (ps', s').
  Inductive steps : nat -> list (prog unit) * store -> list (prog unit) * store -> Prop :=
  | steps_none c : steps 0 c c
  | steps_more n a b c : steps n a b -> step b c -> steps (S n) a c.
End Machine.
Arguments Ret {L V A}. Arguments Get {L V A}. Arguments Put {L V A}. Arguments Fail {L V A}.

(** ** Loops that walk through nests: a cell is a subhalo.
    The code reads and writes single fields; here a change of a field is a read of the subhalo followed by a write of the
    subhalo, which can only conflict more often. *)
Section Walks.
  Context {X R : Type}.
  Local Notation code := (@prog Z (sub X R)).
  Definition change (i : Z) (f : sub X R -> sub X R) : code unit := Get i (fun s => Put i (f s) (Ret tt)).
  Definition cells (subs : list (sub X R)) : Z -> option (sub X R) := zget subs.

  (** src/subhalo_tracking.cpp:802-822 [SubhaloMasker_t::Mask]; the set is a variable of the turn. *)
  Fixpoint mask_prog (fuel : nat) (p : Z) (excl : list Z) : code (list Z) :=
    match fuel with
    | O => Fail
    | S f => Get p (fun s => pbind (pfold (s_nest s) (mask_prog f) excl) (fun excl1 =>
             Get p (fun s1 => if (s_nbound s1 <=? 1)%nat then Ret excl1
                              else let (excl2, kept) := mask_parts excl1 (s_parts s1) in Put p (set_parts kept s1) (Ret excl2))))
    end.
  (** src/subhalo_unbind.cpp:432-447 [RecursiveUnbind]. *)
  Fixpoint unbind_prog (unbind : sub X R -> run (sub X R)) (fuel : nat) (p : Z) : code unit :=
    match fuel with
    | O => Fail
    | S f => Get p (fun s => pbind (peach (s_nest s) (fun c => pbind (unbind_prog unbind f c) (fun _ =>
                 Get c (fun sc => if (length (s_parts sc) <? s_nbound sc)%nat then Fail
                                  else change p (fun q => set_parts (s_parts q ++ skipn (s_nbound sc) (s_parts sc)) q))))) (fun _ =>
             Get p (fun s1 => match unbind (if (s_nbound s <=? 1)%nat then set_parts (s_parts s) s1 else s1) with
                              | Done s2 => Put p (if (s_nbound s <=? 1)%nat then set_parts (s_parts s1) s2 else s2) (Ret tt)
                              | _ => Fail
                              end)))
    end.
  (** src/subhalo_tracking.cpp:829-839 and src/subhalo_unbind.cpp:480-491, one halo. *)
  Definition halo_prog (body : Z -> code unit) (group heads : list nat) : code unit :=
    match group, heads with
    | [], _ => Ret tt
    | c :: _, [] => Fail
    | c :: _, _ :: others =>
        Get (Z.of_nat c) (fun s => Put (Z.of_nat c) (set_nest (s_nest s ++ map Z.of_nat others) s)
          (pbind (body (Z.of_nat c)) (fun _ =>
           change (Z.of_nat c) (fun w => set_nest (firstn (length (s_nest s)) (s_nest w ++ repeat 0 (length (s_nest s)))) w))))
    end.
  (** src/subhalo_tracking.cpp:824-841 [MaskSubhalos] and src/subhalo_unbind.cpp:476-492: the turns of the loops. *)
  Definition mask_turns (fuel : nat) (groups heads : list (list nat)) : list (code unit) :=
    map (fun gh => halo_prog (fun c => pbind (mask_prog fuel c []) (fun _ => Ret tt)) (fst gh) (snd gh)) (combine groups heads).
  Definition unbind_turns (unbind : sub X R -> run (sub X R)) (fuel : nat) (groups heads : list (list nat)) : list (code unit) :=
    map (fun gh => halo_prog (unbind_prog unbind fuel) (fst gh) (snd gh)) (combine groups heads).
  (** src/subhalo_unbind.cpp:494-508: loops that treat each subhalo of a list by itself. *)
  Definition own_prog (f : sub X R -> run (sub X R)) (i : nat) : code unit :=
    Get (Z.of_nat i) (fun s => match f s with Done s' => Put (Z.of_nat i) s' (Ret tt) | _ => Fail end).

  (** src/subhalo_merge.cpp:207-210: the subhalos that received something. *)
  Definition merged_prog (f : sub X R -> run (sub X R)) (flags : list bool) (i : nat) : code unit :=
    match nth_error flags i with Some true => own_prog f i | Some false => Ret tt | None => Fail end.

  Variable pmass : Z * X -> Q.
  Variable snap : Z.
  (** src/subhalo_merge.cpp:222-232 [MergeRecursive] with 244-262 [MergeTo]. *)
  Fixpoint merge_prog (fuel : nat) (p : Z) : code unit :=
    match fuel with
    | O => Fail
    | S f => Get p (fun s => pbind (peach (s_nest s) (merge_prog f)) (fun _ =>
             Get p (fun s1 => if trapped s1 && alive s1 then
                                Get (s_sink s1) (fun host => match merge_to pmass s1 host with
                                                             | None => Fail
                                                             | Some (s', host') => Put (s_sink s1) host' (Put p (set_death snap s') (Ret tt))
                                                             end)
                              else Ret tt)))
    end.
  (** src/subhalo_merge.cpp:203-206: the turns of the loop. *)
  Definition merge_turns (fuel : nat) (groups : list (list nat)) : list (code unit) :=
    map (fun g => match g with [] => Ret tt | c :: _ => merge_prog fuel (Z.of_nat c) end) groups.

  (** src/subhalo_tracking.cpp:771-791 [LevelUpDetachedMembers], simplified as in Model/Nest.v. *)
  Fixpoint level_prog (fuel : nat) (p : Z) : code unit :=
    match fuel with
    | O => Fail
    | S f => Get p (fun s => pbind (pfold (s_nest s) (fun c kept =>
                 Get c (fun sc => if negb (s_host sc =? s_host s) || (s_rank sc =? 0) then
                                    pbind (change c (set_rank 0)) (fun _ => pbind (level_prog f c) (fun _ => Ret kept))
                                  else pbind (level_prog f c) (fun _ => Ret (c :: kept)))) []) (fun kept =>
             change p (set_nest (rev kept))))
    end.
  (** src/subhalo_tracking.cpp:765-769: the turns of the last loop of [LevelUpDetachedSubhalos]. *)
  Definition level_turns (fuel : nat) (is_head : list bool) : list (code unit) :=
    map (fun ib => if snd ib : bool then level_prog fuel (Z.of_nat (fst ib)) else Ret tt) (combine (seq 0 (length is_head)) is_head).
  (** src/subhalo_tracking.cpp:690-705 [FillDepthRecursive] and the turns of the loop of [FillDepth]. *)
  Fixpoint depth_prog (fuel : nat) (depth : Z) (p : Z) : code unit :=
    match fuel with
    | O => Fail
    | S f => pbind (change p (set_depth depth)) (fun _ => Get p (fun s => peach (s_nest s) (depth_prog f (depth + 1))))
    end.
  Definition depth_turns (fuel : nat) (groups : list (list nat)) : list (code unit) :=
    map (fun g => match g with [] => Ret tt | c :: _ => depth_prog fuel 0 (Z.of_nat c) end) groups.
End Walks.

(** ** The helpers of merging: a cell is a field. *)
Section Helpers.
  Context {X R : Type}.
  Local Notation body := (nat * list (Z * X) * R)%type.
  Variable near : body -> body -> bool.
  Variable snap : Z.
  (** Subhalos[i]: NestedSubhalos, Nbound, the data used by SinkDistance, SinkTrackId, SnapshotIndexOfSink; Helpers[i]: the core,
      HostTrackId, IsMerged. *)
  Inductive cell := CNest (i : Z) | CBound (i : Z) | CBody (i : Z) | CSink (i : Z) | CSnap (i : Z) | CCore (i : Z) | CHost (i : Z) | CMerged (i : Z).
  Inductive value := VList (l : list Z) | VNat (n : nat) | VBody (b : body) | VInt (z : Z) | VBool (b : bool).
  Definition cell_eqb (a b : cell) : bool :=
    match a, b with
    | CNest i, CNest j | CBound i, CBound j | CBody i, CBody j | CSink i, CSink j | CSnap i, CSnap j | CCore i, CCore j | CHost i, CHost j | CMerged i, CMerged j => i =? j
    | _, _ => false
    end.
  Local Notation code := (@prog cell value unit).
  Definition memory (subs cores : list (sub X R)) (hosts : list Z) (merged : list bool) : cell -> option value := fun c =>
    match c with
    | CNest i => option_map (fun s => VList (s_nest s)) (zget subs i)
    | CBound i => option_map (fun s => VNat (s_nbound s)) (zget subs i)
    | CBody i => option_map (fun s => VBody (core s)) (zget subs i)
    | CSink i => option_map (fun s => VInt (s_sink s)) (zget subs i)
    | CSnap i => option_map (fun s => VInt (s_snapsink s)) (zget subs i)
    | CCore i => option_map (fun s => VBody (core s)) (zget cores i)
    | CHost i => option_map VInt (zget hosts i)
    | CMerged i => option_map VBool (zget merged i)
    end.
  (** src/subhalo_merge.cpp:163-172 [FillHostTrackIds]: the turns of the loop. *)
  Definition host_turn (i : nat) : code :=
    Get (CNest (Z.of_nat i)) (fun v => match v with
                                       | VList l => peach l (fun c => Put (CHost c) (VInt (Z.of_nat i)) (Ret tt))
                                       | _ => Fail
                                       end).
  Definition host_turns (n : nat) : list code := map host_turn (seq 0 n).
  (** src/subhalo_merge.cpp:140-159 [DetectTraps]: the loop up the nests, and the turns of the loop. *)
  Fixpoint walk_up (fuel : nat) (i h : Z) : code :=
    if h <? 0 then Ret tt else
    match fuel with
    | O => Fail
    | S f => Get (CBound h) (fun n =>
             let up := Get (CHost h) (fun u => match u with VInt u => walk_up f i u | _ => Fail end) in
             match n with
             | VNat n => if (1 <? n)%nat then
                 Get (CBody i) (fun b => Get (CCore h) (fun c =>
                 match b, c with
                 | VBody b, VBody c =>
                     if near b c then
                       Put (CSink i) (VInt h) (Put (CSnap i) (VInt snap) (Get (CBound i) (fun m =>
                       match m with
                       | VNat m => if (1 <? m)%nat then Put (CMerged h) (VBool true) (Ret tt) else Ret tt
                       | _ => Fail
                       end)))
                     else up
                 | _, _ => Fail
                 end)) else up
             | _ => Fail
             end)
    end.
  Definition detect_turn (fuel : nat) (i : nat) : code :=
    Get (CSink (Z.of_nat i)) (fun t => match t with
                                       | VInt t => if negb (t =? -1) then Ret tt else
                                           Get (CHost (Z.of_nat i)) (fun h => match h with VInt h => walk_up fuel (Z.of_nat i) h | _ => Fail end)
                                       | _ => Fail
                                       end).
  Definition detect_turns (fuel n : nat) : list code := map (detect_turn fuel) (seq 0 n).
End Helpers.
