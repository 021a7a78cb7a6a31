(** Model of the merging of subhalos (src/subhalo_merge.cpp).
    SinkDistance(sat, host)<DeltaCrit is an oracle [near] of the particles, bound counts and coordinates of the two
    subhalos (Model/Sink.v gives the code's).  INCLUSIVE_MASS is off. *)
From Coq Require Import List ZArith QArith Bool.
From Verif.Model Require Import ListMem Mpi Run Subhalo Nest Mask Unbind.
Import ListNotations.
Local Open Scope Z_scope.

Section Merge.
  Context {X R : Type}.
  Local Notation subs_t := (list (sub X R)).
  Definition core (s : sub X R) : nat * list (Z * X) * R := (s_nbound s, s_parts s, s_rest s).
  Variable near : nat * list (Z * X) * R -> nat * list (Z * X) * R -> bool.
  Variable pmass : Z * X -> Q.
  Variable snap : Z.

  (** src/subhalo_merge.cpp:163-172 [FillHostTrackIds]: the HostTrackId of all helpers, -1 at first (line 24); [order] of the
      threads. *)
  Definition fill_hosts (order : list nat) (subs : subs_t) : option (list Z) :=
    for_each order (fun i hosts => match nth_error subs i with
                                   | None => None
                                   | Some s => for_each (s_nest s) (fun c hs => zupd hs c (Z.of_nat i)) hosts
                                   end) (repeat (-1) (length subs)).
  (** src/subhalo_merge.cpp:144-159: the walk up from [h]; [cores] are the subhalos from which the helpers were built. *)
  Fixpoint find_sink (fuel : nat) (hosts : list Z) (cores subs : subs_t) (sat : sub X R) (h : Z) : run (option Z) :=
    if h <? 0 then Done None else
    match fuel with
    | O => Running
    | S f =>
        match zget subs h, zget cores h, zget hosts h with
        | Some host, Some c, Some up => if (1 <? s_nbound host)%nat && near (core sat) (core c) then Done (Some h) else find_sink f hosts cores subs sat up
        | _, _, _ => Crash
        end
    end.
  (** src/subhalo_merge.cpp:140-159, one subhalo; the state is (Subhalos, IsMerged). *)
  Definition detect_one (fuel : nat) (hosts : list Z) (cores : subs_t) (i : nat) (st : subs_t * list bool) : run (subs_t * list bool) :=
    match nth_error (fst st) i, nth_error hosts i with
    | Some s, Some h =>
        if trapped s then Done st else
        rbind (find_sink fuel hosts cores (fst st) s h) (fun r =>
        match r with
        | None => Done st
        | Some k =>
            match modify (fst st) i (set_sink k snap), (if (1 <? s_nbound s)%nat then zupd (snd st) k true else Some (snd st)) with
            | Some subs', Some m => Done (subs', m)
            | _, _ => Crash
            end
        end)
    | _, _ => Crash
    end.
  (** src/subhalo_merge.cpp:136-161 [DetectTraps] with 182-186 [FillHelpers]. *)
  Definition detect_traps (fuel : nat) (order order2 : list nat) (subs : subs_t) : run (subs_t * list bool) :=
    match fill_hosts order subs with
    | None => Crash
    | Some hosts => run_each order2 (detect_one fuel hosts subs) (subs, repeat false (length subs))
    end.

  (** src/subhalo_merge.cpp:250-255: the ids of the set, and the particles of the satellite not in it yet. *)
  Definition new_parts (host sat : list (Z * X)) : list (Z * X) := snd (mask_parts (map fst host) sat).
  (** src/subhalo_merge.cpp:244-262 [MergeTo]; resize(1) of an empty vector would create a particle. *)
  Definition merge_to (sat host : sub X R) : option (sub X R * sub X R) :=
    if (s_nbound sat <=? 1)%nat then Some (sat, host) else
    match s_parts sat with
    | [] => None
    | p :: _ => Some (set_mass (mass_sum pmass [p]) (set_nbound 1 (set_parts [p] sat)),
                      set_nbound (s_nbound host + s_nbound sat) (set_parts (s_parts host ++ new_parts (s_parts host) (s_parts sat)) host))
    end.
  (** src/subhalo_merge.cpp:227-231. *)
  Definition merge_at (p : Z) (subs : subs_t) : run subs_t :=
    match zget subs p with
    | None => Crash
    | Some s =>
        if trapped s && alive s then
          match zget subs (s_sink s) with
          | None => Crash
          | Some host =>
              match merge_to s host with
              | None => Crash
              | Some (s', host') => rbind (of_opt (zupd subs (s_sink s) host')) (fun subs1 => of_opt (zupd subs1 p (set_death snap s')))
              end
          end
        else Done subs
    end.
  (** src/subhalo_merge.cpp:222-232 [MergeRecursive]; [fuel] bounds the recursion depth. *)
  Fixpoint merge_rec (fuel : nat) (p : Z) (subs : subs_t) : run subs_t :=
    match fuel with
    | O => Running
    | S f =>
        match zget subs p with
        | None => Crash
        | Some s => rbind (run_each (s_nest s) (merge_rec f) subs) (merge_at p)
        end
    end.

  Variable unbind : sub X R -> run (sub X R).
  Variable truncate : sub X R -> sub X R.
  Variable merge_trapped : bool.
  (** src/subhalo_merge.cpp:207-214: [order] of the threads in the loop over the subhalos that received something. *)
  Definition unbind_merged (order : list nat) (merged : list bool) (subs : subs_t) : run subs_t :=
    rbind (run_each order (fun i l => match nth_error merged i, nth_error l i with
                                      | Some m, Some s => if m then rbind (unbind s) (fun s' => of_opt (upd l i s')) else Done l
                                      | _, _ => Crash
                                      end) subs)
      (fun subs1 => Done (map (fun sm : sub X R * bool => if snd sm then truncate (fst sm) else fst sm) (combine subs1 merged))).
  (** src/subhalo_merge.cpp:187-220 [MergeSubhalos]; the orders of the four parallel loops. *)
  Definition merge_subhalos (fuel : nat) (o1 o2 o3 o4 : list nat) (table heads : list (list nat)) (subs : subs_t) : run subs_t :=
    match glue (tl table) heads subs with
    | None => Crash
    | Some (glued, sizes) =>
        rbind (detect_traps fuel o1 o2 glued) (fun dm =>
        rbind (if merge_trapped then
                 rbind (run_each o3 (fun h l => match nth_error (tl table) h with
                                                | None => Crash
                                                | Some [] => Done l
                                                | Some (c :: _) => merge_rec fuel (Z.of_nat c) l
                                                end) (fst dm)) (unbind_merged o4 (snd dm))
               else Done (fst dm))
          (fun subs2 => of_opt (unglue (tl table) sizes subs2)))
    end.
End Merge.
