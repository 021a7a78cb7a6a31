(** What the catalogue of a snapshot reports about a subhalo. *)
From Coq Require Import List ZArith QArith.
From Verif.Model Require Import ListMem Subhalo.
Import ListNotations.
Local Open Scope Z_scope.

Section Reporting.
  Context {X R : Type}.
  (** The track [t] is that of the subhalo with local index [i]. *)
  Definition names (subs : list (sub X R)) (i t : Z) : Prop := exists w, zget subs i = Some w /\ t = s_track w.
  (** [o] is the report of the subhalo that was [r] when all subhalos of the process were registered ([reg]); the groups of the
      process have the ids [halo_ids]. *)
  Record reports (snap : Z) (halo_ids : list Z) (reg : list (sub X R)) (r o : sub X R) : Prop := {
    rp_host : if s_host r =? -1 then s_host o = -1 else zget halo_ids (s_host r) = Some (s_host o);
    rp_track : 0 <= s_track r /\ s_track o = s_track r;
    rp_particles : s_parts o = s_parts r /\ s_nbound o = s_nbound r /\ s_mass o = s_mass r /\ s_rest o = s_rest r;
    rp_events : s_birth o = s_birth r /\ s_death o = s_death r /\ s_snapsink o = s_snapsink r;
    rp_sink : if s_snapsink r =? snap then names reg (s_sink r) (s_sink o) else s_sink o = s_sink r;
    rp_isolation : s_snapiso o = if s_rank o =? 0 then snap else s_snapiso r;
    rp_maximum : ((s_lastmax r <= s_mass r)%Q -> s_lastmax o = s_mass r /\ s_snapmax o = snap) /\
                 ((s_mass r < s_lastmax r)%Q -> s_lastmax o = s_lastmax r /\ s_snapmax o = s_snapmax r) }.
End Reporting.
