(** C72: structures sent between processes arrive complete. *)
From Coq Require Import List Arith Bool String Lia.
From Verif.Model Require Import MpiTypes.
From Verif.Spec Require Import MpiTypes.
From Verif.Proofs Require Import ListMemProofs ListExtra MpiTypeProofs.
Import ListNotations.
Local Open Scope string_scope.
Local Open Scope nat_scope.
Notation length := List.length.

(** For every build, every layout of the members and every content: all members but the vectors and the filling arrive as they
    were sent, and the vectors, which own memory of the receiver, are not touched. *)
Theorem C72_structures_arrive : forall b : build,
  arrives b (particle_struct b) (all_but []) (one_of []) /\
  arrives b (halo_struct b) (all_but ["Particles"]) (one_of ["Particles"]) /\
  arrives b (subhalo_struct b) (all_but ["Particles"; "Energies"; "NestedSubhalos"]) (one_of ["Particles"; "Energies"; "NestedSubhalos"]) /\
  arrives b gadget_struct (all_but ["npartTotal"; "fill"]) (one_of ["fill"]) /\
  arrives b apostle_struct (all_but []) (one_of []) /\
  arrives b assignment_struct (all_but []) (one_of []) /\
  arrives b haloinfo_struct (all_but []) (one_of []).
Proof. intros [[|] [|] [|] [|] [|] [|]]; (split; [|split; [|split; [|split; [|split; [|split]]]]]); apply check_arrives; vm_compute; reflexivity. Qed.
Print Assumptions C72_structures_arrive.

(** The datatypes obey MPI's rules on types and on overlap, except those of [ApostleHeader_t] and, without DM_ONLY, of
    [Subhalo_t]. *)
Theorem C72_legal : forall b : build,
  legal b (particle_struct b) /\ legal b (halo_struct b) /\ legal b gadget_struct /\ legal b assignment_struct /\ legal b haloinfo_struct /\ (dm_only b = true -> legal b (subhalo_struct b)).
Proof.
  assert (H : forall b s, legal_check b s = true -> distinct (map a_name (attrs s)) = true -> legal b s) by (intros b s H1 H2; apply check_legal; [exact H1|apply distinct_ok, H2]).
  intros [[|] [|] [|] [|] [|] [|]]; (split; [|split; [|split; [|split; [|split]]]]); try (intros HD; discriminate HD); try intros _; apply H; vm_compute; reflexivity.
Qed.
Print Assumptions C72_legal.

(** The exceptions.  Of the totals in a Gadget header only the first arrives (they are not used by the receivers). *)
Theorem C72_gadget_totals_refuted : exists (b : build) (offs : list nat) extent (src dst dst' : list nat) t o, laid_out b 0 (members gadget_struct) offs extent /\ length src = extent /\ length dst = extent /\
  type_map b (members gadget_struct) offs (attrs gadget_struct) = Some t /\ transfer t src dst = Some dst' /\ In (mkmember Unsigned "npartTotal" type_max, o) (combine (members gadget_struct) offs) /\
  part o 24 dst' <> part o 24 src.
Proof.
  exists (mkbuild false false false false false false), (natural (mkbuild false false false false false false) 0 (members gadget_struct)), 256, (repeat 1 256), (repeat 0 256). do 2 eexists. exists 96.
  split; [vm_compute; repeat split; lia|]. split; [reflexivity|]. split; [reflexivity|]. split; [vm_compute; reflexivity|]. split; [vm_compute; reflexivity|].
  split; [vm_compute; do 6 right; left; reflexivity|]. vm_compute. discriminate.
Qed.
Print Assumptions C72_gadget_totals_refuted.

Definition usual (int8 : bool) : build := mkbuild int8 false false false false false.
(** MboundType, an array of floats, is registered as an array of HBTInt: with HBT_INT8 it extends over the members that follow,
    which are received twice. *)
Theorem C72_subhalo_refuted : exists (b : build) (offs : list nat) extent t, dm_only b = false /\ laid_out b 0 (members (subhalo_struct b)) offs extent /\
  type_map b (members (subhalo_struct b)) offs (attrs (subhalo_struct b)) = Some t /\ ~ separate t /\ ~ typed (subhalo_struct b).
Proof.
  exists (usual true), (natural (usual true) 0 (members (subhalo_struct (usual true)))), 1000. eexists. split; [reflexivity|]. split; [vm_compute; repeat split; lia|]. split; [vm_compute; reflexivity|]. split.
  - intros H. specialize (H 4 5 _ _ 96 eq_refl eq_refl). cbn in H. lia.
  - intros H. destruct (H (mkattr "MboundType" MPI_HBT_INT type_max)) as (m & Hm & Hn & Ht & _); [vm_compute; auto 10|].
    vm_compute in Hm. repeat (destruct Hm as [<-|Hm]; [cbn in Hn, Ht; discriminate|]). exact Hm.
Qed.
Print Assumptions C72_subhalo_refuted.
(** BoxSize is registered twice in the header of Apostle snapshots. *)
Theorem C72_apostle_refuted : exists (b : build) (offs : list nat) extent t, laid_out b 0 (members apostle_struct) offs extent /\
  type_map b (members apostle_struct) offs (attrs apostle_struct) = Some t /\ ~ separate t.
Proof.
  exists (usual false), (natural (usual false) 0 (members apostle_struct)), 136. eexists. split; [vm_compute; repeat split; lia|]. split; [vm_compute; reflexivity|].
  intros H. specialize (H 1 3 _ _ 8 eq_refl eq_refl). cbn in H. lia.
Qed.
Print Assumptions C72_apostle_refuted.

(** The hypotheses can be met: the usual layout of a subhalo with long integers. *)
Example C72_witness : exists offs extent t (dst' : list bool), laid_out (usual true) 0 (members (subhalo_struct (usual true))) offs extent /\
  type_map (usual true) (members (subhalo_struct (usual true))) offs (attrs (subhalo_struct (usual true))) = Some t /\ transfer t (repeat true extent) (repeat false extent) = Some dst' /\
  In true dst' /\ In false dst'.
Proof.
  exists (natural (usual true) 0 (members (subhalo_struct (usual true)))), 400. do 2 eexists. split; [vm_compute; repeat split; lia|]. split; [vm_compute; reflexivity|]. split; [vm_compute; reflexivity|].
  split; [apply (nth_error_In _ 0); reflexivity|apply (nth_error_In _ 399); reflexivity].
Qed.
