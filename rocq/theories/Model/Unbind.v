(** Model of unbinding (src/subhalo_unbind.cpp).
    Energies: any type [E] with the tests E<0 ([neg]), E>0 ([pos]); std::sort with CompEnergy is any function [sorter], for each
    of the three places where it is called.  The potential solver is an oracle [energy].  NO_STRIPPING, INCLUSIVE_MASS and SAVE_BINDING_ENERGY are off. *)
From Coq Require Import List ZArith QArith Qround Bool.
From Verif.Model Require Import ListMem Mpi Run Subhalo Nest Mask.
Import ListNotations.
Local Open Scope nat_scope.

Section Partition.
  Context {E : Type}.
  Variables neg pos : E -> bool.
  Local Notation entry := (nat * E)%type.
  (** src/subhalo_unbind.cpp:29-57: the two nested loops as one machine.  [fwd]: the element at [f] is void (inner loop
      32-42), otherwise the element at [b] is (inner loop 45-55).  Every turn moves one of the two iterators. *)
  Fixpoint part_loop (fuel : nat) (fwd : bool) (tmp : entry) (f b : nat) (l : list entry) : run (list entry * nat) :=
    match fuel with
    | O => Running
    | S n =>
        if fwd then
          match b with
          | O => Crash
          | S b1 =>
              if b1 =? f then rbind (of_opt (upd l f tmp)) (fun l' => Done (l', if neg (snd tmp) then S b1 else b1))
              else match nth_error l b1 with
                   | None => Crash
                   | Some e => if neg (snd e) then rbind (of_opt (upd l f e)) (part_loop n false tmp f b1) else part_loop n true tmp f b1 l
                   end
          end
        else
          let f1 := S f in
          if f1 =? b then rbind (of_opt (upd l b tmp)) (fun l' => Done (l', if neg (snd tmp) then S b else b))
          else match nth_error l f1 with
               | None => Crash
               | Some e => if pos (snd e) then rbind (of_opt (upd l b e)) (part_loop n true tmp f1 b) else part_loop n false tmp f1 b l
               end
    end.
  (** src/subhalo_unbind.cpp:21-58 [PartitionBindingEnergy]. *)
  Definition partition_energy (l : list entry) (len : nat) : run (list entry * nat) :=
    match len with
    | O => Done (l, 0)
    | S len1 =>
        match nth_error l 0 with
        | None => Crash
        | Some e => if len1 =? 0 then Done (l, if neg (snd e) then 1 else 0) else part_loop len true e 0 len l
        end
    end.
End Partition.

(** The two uses of configured reals.  The model below works with any such tests; [converged_q] and [allowed_q] are exact,
    those in floating point are in Model/UnbindFloat.v.
    src/subhalo_unbind.cpp:395: are [nb] particles bound after a turn on [n] enough to stop? *)
Definition converged_q (precision : Q) (n nb : nat) : bool := Qle_bool (inject_Z (Z.of_nat n) * precision) (inject_Z (Z.of_nat nb)).
(** src/subhalo_unbind.cpp:455: how many particles may stay when [nb] are bound; the product is rounded towards zero. *)
Definition allowed_q (relax : Q) (nb : nat) : nat := Z.to_nat (Qfloor (inject_Z (Z.of_nat nb) * relax)).

(** The places where std::sort with CompEnergy is called: src/subhalo_unbind.cpp:382, 405 and 250. *)
Inductive sort_site := SortUnbound | SortBound | SortCore.

Section Unbind.
  Context {X R E : Type}.
  Local Notation subs_t := (list (sub X R)).
  Local Notation entry := (nat * E)%type.
  Variables neg pos : E -> bool.
  (** std::sort with CompEnergy. *)
  Variable sorter : sort_site -> list entry -> list entry.
  Variable shuffle : list (Z * X) -> list (Z * X).
  (** Energy of the [i]-th entry in the [k]-th turn, given the particles (as shuffled), the frame and the entries. *)
  Variable energy : list (Z * X) * R -> nat -> list entry -> nat -> E.
  (** Energy of entry [i] within the core, src/subhalo_unbind.cpp:247. *)
  Variable inner : list (Z * X) * R -> list entry -> nat -> E.
  Variable no_energy : E.
  (** All properties of the subhalo the model does not look into, after unbinding. *)
  Variable rest_of : list (Z * X) -> nat -> R -> R.
  Variable pmass : Z * X -> Q.
  (** MinNumPartOfSub, the test with BoundMassPrecision, MaxSampleSizeOfPotentialEstimate (0: none), RefineMostboundParticle,
      the multiple with SourceSubRelaxFactor, the snapshot. *)
  Variables (min_part : nat) (converged : nat -> nat -> bool) (max_sample : nat) (refine : bool) (allowed : nat -> nat) (snap : Z).

  Definition mass_sum (l : list (Z * X)) : Q := fold_right (fun p q => (pmass p + q)%Q) 0%Q l.
  Definition alive (s : sub X R) : bool := Z.eqb (s_death s) (-1).
  Definition trapped (s : sub X R) : bool := negb (Z.eqb (s_sink s) (-1)).
  Definition die (s : sub X R) : sub X R := if alive s then set_death snap s else s.

  (** src/subhalo_unbind.cpp:306-322 and 327-347: new energies of the first [n] entries. *)
  Definition evaluate (w : list (Z * X) * R) (k n : nat) (l : list entry) : list entry :=
    map (fun ie => if fst ie <? n then (fst (snd ie), energy w k l (fst ie)) else snd ie) (combine (seq 0 (length l)) l).
  (** src/subhalo_unbind.cpp:359-366: the first particle with this id goes to the front. *)
  Fixpoint find_id (id : Z) (l : list (Z * X)) : option nat :=
    match l with [] => None | p :: r => if Z.eqb (fst p) id then Some 0 else option_map S (find_id id r) end.
  Definition to_front (id : Z) (l : list (Z * X)) : list (Z * X) :=
    match find_id id l with
    | None => l
    | Some i => match nth_error l i, nth_error l 0 with
                | Some p, Some q => match upd l i q with Some l1 => match upd l1 0 p with Some l2 => l2 | None => l end | None => l end
                | _, _ => l
                end
    end.
  (** src/subhalo_unbind.cpp:234-262 [RefineBindingEnergyOrder] on the first [n] entries. *)
  Definition refine_order (w : list (Z * X) * R) (n : nat) (l : list entry) : option (list entry) :=
    let core := sorter SortCore (map (fun i => (i, inner w l i)) (seq 0 n)) in
    option_map (fun c => c ++ skipn n l) (mapM (fun ie => nth_error l (fst ie)) core).

  Inductive ending := Disrupted (entries : list entry) | Converged (entries : list entry) (nbound : nat).
  (** src/subhalo_unbind.cpp:300-416, the loop; [k] counts the turns, [corr] is CorrectionLoop, [last] the Nlast of the
      turn before, [nb] Nbound.  Building a tree of no particles (309, 328) is undefined. *)
  Fixpoint unbind_loop (fuel : nat) (w : list (Z * X) * R) (k : nat) (corr : bool) (l : list entry) (last nb : nat) : run ending :=
    match fuel with
    | O => Running
    | S n =>
        if (if corr then last =? nb else nb =? 0) then Crash else
        rbind (partition_energy neg pos (evaluate w k nb l) nb) (fun r =>
        let (l1, nb1) := r in
        if nb1 <? min_part then Done (Disrupted l1)
        else
          let l2 := firstn nb1 l1 ++ sorter SortUnbound (firstn (nb - nb1) (skipn nb1 l1)) ++ skipn nb l1 in
          let corr1 := corr || ((nb - nb1 <? nb1) && ((max_sample =? 0) || (nb - nb1 <? max_sample))) in
          if converged nb nb1 then
            let l3 := sorter SortBound (firstn nb1 l2) ++ skipn nb1 l2 in
            rbind (of_opt (if (0 <? max_sample) && refine && (max_sample <? nb1) then refine_order w max_sample l3 else Some l3))
              (fun l4 => Done (Converged l4 nb1))
          else unbind_loop n w (S k) corr1 l2 nb nb1)
    end.
  (** src/subhalo_unbind.cpp:263-431 [Subhalo_t::Unbind]; [loop] is the loop above, or that of another build (Model/Variants.v). *)
  Definition unbind_by (loop : nat -> list (Z * X) * R -> nat -> bool -> list entry -> nat -> nat -> run ending) (s : sub X R) : run (sub X R) :=
    let s0 := if length (s_parts s) <? min_part then die s else s in
    match s_parts s0 with
    | [] => Done (set_mass 0%Q (set_nbound 0 s0))
    | [p] => Done (set_mass (mass_sum [p]) (set_nbound 1 s0))
    | old :: _ =>
        let n := length (s_parts s0) in
        let parts := if (0 <? max_sample) && (max_sample <? n) then shuffle (s_parts s0) else s_parts s0 in
        let s1 := set_parts parts s0 in
        rbind (loop n (parts, s_rest s1) 0 false (map (fun i => (i, no_energy)) (seq 0 n)) 0 n) (fun e =>
        match e with
        | Disrupted _ =>
            let s2 := set_parts (to_front (fst old) parts) (set_nbound 1 (die s1)) in
            Done (set_rest (rest_of (s_parts s2) 1 (s_rest s2)) (set_mass (mass_sum (firstn 1 (s_parts s2))) s2))
        | Converged l nb =>
            match mapM (fun e => nth_error parts (fst e)) l with
            | None => Crash
            | Some parts' =>
                let s2 := set_death (-1)%Z s1 in
                let s3 := if trapped s2 then set_sink (-1)%Z (-1)%Z s2 else s2 in
                let s4 := set_parts parts' (set_nbound nb s3) in
                Done (set_rest (rest_of parts' nb (s_rest s4)) (set_mass (mass_sum (firstn nb parts')) s4))
            end
        end)
    end.
  Definition unbind : sub X R -> run (sub X R) := unbind_by unbind_loop.

  (** src/subhalo_unbind.cpp:278-291 and 425-430: [Energies] after [Unbind] in a build with SAVE_BINDING_ENERGY; [zero] is 0. *)
  Definition saved_energies (zero : E) (s : sub X R) : run (list E) :=
    match s_parts s with
    | [] => Done []
    | [_] => Done [zero]
    | _ =>
        let n := length (s_parts s) in
        let parts := if (0 <? max_sample) && (max_sample <? n) then shuffle (s_parts s) else s_parts s in
        rbind (unbind_loop n (parts, s_rest s) 0 false (map (fun i => (i, no_energy)) (seq 0 n)) 0 n) (fun e =>
        match e with
        | Disrupted l => Done (map snd (firstn 1 l))
        | Converged l nb => Done (map snd (firstn nb l))
        end)
    end.

  (** src/subhalo_unbind.cpp:417 with 190-214: the particles and energies over which [AverageKinematics] averages; None when [Unbind]
      returns before, so that the old averages stay. *)
  Definition measured (s : sub X R) : run (option (list ((Z * X) * E))) :=
    match s_parts s with
    | old :: _ :: _ =>
        let n := length (s_parts s) in
        let parts := if (0 <? max_sample) && (max_sample <? n) then shuffle (s_parts s) else s_parts s in
        rbind (unbind_loop n (parts, s_rest s) 0 false (map (fun i => (i, no_energy)) (seq 0 n)) 0 n) (fun e =>
        match e with
        | Disrupted l => of_opt (option_map Some (mapM (fun e => option_map (fun p => (p, snd e)) (nth_error (to_front (fst old) parts) (fst e))) (firstn 1 l)))
        | Converged l nb =>
            of_opt (match mapM (fun e => nth_error parts (fst e)) l with
                    | None => None
                    | Some parts' => Some (Some (combine (firstn nb parts') (map snd (firstn nb l))))
                    end)
        end)
    | _ => Done None
    end.

  (** src/subhalo_unbind.cpp:449-458 [TruncateSource]. *)
  Definition truncate (s : sub X R) : sub X R :=
    let want := if s_nbound s <=? 1 then s_nbound s else allowed (s_nbound s) in
    set_parts (firstn (Nat.min want (length (s_parts s))) (s_parts s)) s.
End Unbind.

(** The loops over the subhalos, for any [Unbind] and [TruncateSource]. *)
Section Recursive.
  Context {X R : Type}.
  Local Notation subs_t := (list (sub X R)).
  Variable unbind : sub X R -> run (sub X R).
  Variable truncate : sub X R -> sub X R.

  (** src/subhalo_unbind.cpp:432-447 [RecursiveUnbind]; [fuel] bounds the recursion depth.  [subhalo.Particles.begin()+Nbound]
      past the end is undefined. *)
  Fixpoint recursive_with (fuel : nat) (p : Z) (subs : subs_t) : run subs_t :=
    match fuel with
    | O => Running
    | S f =>
        match zget subs p with
        | None => Crash
        | Some s =>
            let orphan := s_nbound s <=? 1 in
            let backup := s_parts s in
            rbind (run_each (s_nest s)
                     (fun c l => rbind (recursive_with f c l) (fun l1 =>
                        match zget l1 c with
                        | None => Crash
                        | Some sc => if length (s_parts sc) <? s_nbound sc then Crash
                                     else of_opt (zmodify l1 p (fun q => set_parts (s_parts q ++ skipn (s_nbound sc) (s_parts sc)) q))
                        end)) subs) (fun subs1 =>
            match zget subs1 p with
            | None => Crash
            | Some s1 =>
                rbind (unbind (if orphan then set_parts backup s1 else s1)) (fun s2 =>
                of_opt (zmodify subs1 p (fun _ => if orphan then set_parts (s_parts s1) s2 else s2)))
            end)
        end
    end.
  (** [Unbind] of one subhalo in a loop over the subhalos. *)
  Definition unbind_at_with (i : nat) (subs : subs_t) : run subs_t :=
    match nth_error subs i with
    | None => Crash
    | Some s => rbind (unbind s) (fun s' => of_opt (modify subs i (fun _ => s')))
    end.
  (** src/subhalo_unbind.cpp:494-508: the field subhalos and those created in this snapshot, from AllMembers.size() on. *)
  Definition unnested (table : list (list nat)) (subs : subs_t) : list nat :=
    let old := length (concat table) in hd [] table ++ seq old (length subs - old).
  (** src/subhalo_unbind.cpp:460-516 [RefineParticles]: [order] of the halos, [order2] of the subhalos [unnested], which
      the threads treat at the same time. *)
  Definition refine_with (fuel : nat) (order order2 : list nat) (table heads : list (list nat)) (subs : subs_t) : run subs_t :=
    rbind (over_halos (recursive_with fuel) order (tl table) heads subs) (fun subs1 =>
    rbind (run_each order2 unbind_at_with subs1) (fun subs2 => Done (map truncate subs2))).
End Recursive.

(** [RefineParticles] with the [Unbind] and [TruncateSource] above. *)
Definition refine_particles {X R E : Type} (neg pos : E -> bool) sorter shuffle energy inner no_energy rest_of pmass min_part converged max_sample refine allowed snap
    (fuel : nat) (order order2 : list nat) (table heads : list (list nat)) (subs : list (sub X R)) : run (list (sub X R)) :=
  refine_with (unbind neg pos sorter shuffle energy inner no_energy rest_of pmass min_part converged max_sample refine snap) (truncate allowed)
    fuel order order2 table heads subs.
