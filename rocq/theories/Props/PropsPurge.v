(** C71: the promotion of most bound particles (INCLUSIVE_MASS). *)
From Coq Require Import List ZArith Bool Arith Lia Sorting.Permutation.
From Verif.Model Require Import ListMem Purge.
From Verif.Spec Require Import Purge.
From Verif.Proofs Require Import ListMemProofs ListExtra PurgeProofs.
Import ListNotations.

(** PurgeMostBoundParticles never leaves its arrays; it keeps the particles and the bound count of every subhalo, and subhalos
    that are in no group or not resolved are left as they are. *)
Theorem C71_particles_kept : forall P V (p_id : P -> Z) (p_pos p_vel : P -> V) (groups : list (list nat)) (subs : list (sub P V)), members_ok groups subs ->
  exists subs', purge p_id p_pos p_vel groups subs = Some subs' /\ length subs' = length subs /\
    forall m s, nth_error subs m = Some s -> exists s', nth_error subs' m = Some s' /\ Permutation (u_parts s) (u_parts s') /\ u_nbound s' = u_nbound s /\
      (~ In m (concat groups) \/ (u_nbound s <= 1)%Z -> s' = s).
Proof.
  intros P V p_id p_pos p_vel groups subs H. destruct (purge_ok p_id p_pos p_vel groups subs H) as (subs' & E & L & Out & Hin).
  exists subs'. split; [exact E|]. split; [exact L|]. intros m s Hs. destruct (in_dec Nat.eq_dec m (concat groups)) as [Hm|Hm].
  - apply in_concat in Hm as Hm'. destruct Hm' as (g & Hg & Hmg). apply In_nth_error in Hmg. destruct Hmg as [j Hj]. destruct (Hin g j m s Hg Hj Hs) as (s' & Es & Ho).
    exists s'. split; [exact Es|]. destruct (outcome_perm _ _ _ _ _ _ Ho) as [HP HN]. split; [exact HP|]. split; [exact HN|]. intros [Hc|Hc]; [contradiction|].
    unfold outcome in Ho. destruct (1 <? u_nbound s)%Z eqn:Eb; [lia|exact Ho].
  - exists s. rewrite (Out m Hm), Hs. auto.
Qed.
Print Assumptions C71_particles_kept.

(** The part of the claim that holds: a resolved subhalo whose first particle is in a smaller subhalo of the group is led
    afterwards by its first particle that is in none, if there is one; its centre is that of this particle.  Whatever the first
    particle, the leader is in no smaller subhalo unless all particles are.  Missing: a subhalo whose first particle is in no
    smaller subhalo does not keep it ([C71_most_bound_lost]). *)
Theorem C71_most_bound_partial : forall P V (p_id : P -> Z) (p_pos p_vel : P -> V) (groups : list (list nat)) (subs subs' : list (sub P V)) g j m s s' p0, members_ok groups subs ->
  purge p_id p_pos p_vel groups subs = Some subs' -> In g groups -> nth_error g j = Some m -> nth_error subs m = Some s -> nth_error subs' m = Some s' -> (1 < u_nbound s)%Z -> nth_error (u_parts s) 0 = Some p0 ->
  let mask := masked p_id subs g j in
  (mask (p_id p0) -> forall i p, first_unmasked p_id mask (u_parts s) i p -> led_by p_pos p_vel i p s s') /\
  (forall p, nth_error (u_parts s') 0 = Some p -> mask (p_id p) -> s' = s /\ forall q, In q (u_parts s) -> mask (p_id q)).
Proof.
  intros P V p_id p_pos p_vel groups subs subs' g j m s s' p0 H E Hg Hj Hs Hs' Hb H0 mask. destruct (purge_ok p_id p_pos p_vel groups subs H) as (subs1 & E1 & _ & _ & Hin).
  rewrite E in E1. injection E1 as <-. destruct (Hin g j m s Hg Hj Hs) as (s1 & Es & Ho). rewrite Hs' in Es. injection Es as <-. fold mask in Ho. unfold outcome in Ho.
  apply Z.ltb_lt in Hb as Hb'. rewrite Hb' in Ho. split.
  - intros Hm i p (Hi & Hn & Hf). assert (Hi0 : 0 < i). { destruct i; [|lia]. rewrite H0 in Hi. injection Hi as <-. contradiction. }
    destruct Ho as [[Hall _]|(k & q & (Hk & Hkn & Hq & Hkf) & HL)]; [exfalso; apply Hn, (Hall i p Hi0 Hi)|].
    destruct (Nat.lt_trichotomy i k) as [Hlt|[->|Hlt]].
    + exfalso. apply Hn, (Hkf i p); [lia|exact Hi].
    + rewrite Hi in Hkn. injection Hkn as <-. exact HL.
    + exfalso. apply Hq, (Hf k q Hlt Hkn).
  - intros p Hp Hmp. destruct Ho as [[Hall ->]|(k & q & (Hk & Hkn & Hq & Hkf) & (_ & (_ & Hx & _) & _))].
    + split; [reflexivity|]. intros q Hq. apply In_nth_error in Hq. destruct Hq as [[|n] Hn].
      * rewrite Hn in Hp. injection Hp as <-. exact Hmp.
      * apply (Hall (S n) q); [lia|exact Hn].
    + exfalso. apply Hq. rewrite Hx, Hkn in Hp. injection Hp as <-. exact Hmp.
Qed.
Print Assumptions C71_most_bound_partial.

(** What goes wrong, in every case: if the first particle is in no smaller subhalo it is replaced by the next one that is in
    none either, because the loop only stops at a particle other than the first. *)
Theorem C71_most_bound_lost : forall P V (p_id : P -> Z) (p_pos p_vel : P -> V) (groups : list (list nat)) (subs subs' : list (sub P V)) g j m s s' i p, members_ok groups subs ->
  purge p_id p_pos p_vel groups subs = Some subs' -> In g groups -> nth_error g j = Some m -> nth_error subs m = Some s -> nth_error subs' m = Some s' -> (1 < u_nbound s)%Z ->
  next_unmasked p_id (masked p_id subs g j) (u_parts s) i p -> led_by p_pos p_vel i p s s'.
Proof.
  intros P V p_id p_pos p_vel groups subs subs' g j m s s' i p H E Hg Hj Hs Hs' Hb (Hi0 & Hi & Hn & Hf). destruct (purge_ok p_id p_pos p_vel groups subs H) as (subs1 & E1 & _ & _ & Hin).
  rewrite E in E1. injection E1 as <-. destruct (Hin g j m s Hg Hj Hs) as (s1 & Es & Ho). rewrite Hs' in Es. injection Es as <-. unfold outcome in Ho.
  apply Z.ltb_lt in Hb as Hb'. rewrite Hb' in Ho. destruct Ho as [[Hall _]|(k & q & (Hk & Hkn & Hq & Hkf) & HL)]; [exfalso; apply Hn, (Hall i p Hi0 Hi)|].
  destruct (Nat.lt_trichotomy i k) as [Hlt|[->|Hlt]].
  - exfalso. apply Hn, (Hkf i p); [lia|exact Hi].
  - rewrite Hi in Hkn. injection Hkn as <-. exact HL.
  - exfalso. apply Hq, (Hf k q); [lia|exact Hkn].
Qed.
Print Assumptions C71_most_bound_lost.

(** Particles (id, position): a subhalo 0 with a smaller subhalo 1 in it, and a subhalo 2 alone in its halo. *)
Definition ex_subs : list (sub (Z * Z) Z) :=
  [mksub 4 [(10, 100); (11, 101); (12, 102); (13, 103)] 100 100; mksub 2 [(10, 100); (12, 102)] 100 100; mksub 3 [(20, 200); (21, 201); (22, 202)] 200 200]%Z.
Definition ex_groups : list (list nat) := [[]; [0; 1]; [2]].
Definition ex_purged : option (list (sub (Z * Z) Z)) := purge fst snd snd ex_groups ex_subs.

(** The claim is false: a subhalo alone in its halo loses its most bound particle. *)
Theorem C71_most_bound_refuted : exists (subs subs' : list (sub (Z * Z) Z)) groups g j m s s', members_ok groups subs /\ purge fst snd snd groups subs = Some subs' /\
  In g groups /\ nth_error g j = Some m /\ nth_error subs m = Some s /\ nth_error subs' m = Some s' /\ (forall id, ~ masked fst subs g j id) /\
  nth_error (u_parts s') 0 <> nth_error (u_parts s) 0 /\ u_pos s' <> u_pos s.
Proof.
  exists ex_subs. eexists. exists ex_groups, [2], 0, 2. eexists. eexists. split; [|split; [vm_compute; reflexivity|]].
  { split; [vm_compute; repeat constructor; cbn; lia|]. cbn. intros m Hm. lia. }
  split; [cbn; auto|]. split; [reflexivity|]. split; [reflexivity|]. split; [reflexivity|]. split; [|split; discriminate].
  intros id (k & m & t & Hk & Hm & _). destruct k as [|[|k]]; [lia|discriminate|discriminate].
Qed.
Print Assumptions C71_most_bound_refuted.
(** The new leader can be an unbound particle: the loop does not stop at Nbound. *)
Theorem C71_unbound_leader_refuted : exists (subs subs' : list (sub (Z * Z) Z)) groups m s s' p, members_ok groups subs /\ purge fst snd snd groups subs = Some subs' /\
  nth_error subs m = Some s /\ nth_error subs' m = Some s' /\ nth_error (u_parts s') 0 = Some p /\ ~ In p (firstn (Z.to_nat (u_nbound s)) (u_parts s)).
Proof.
  exists [mksub 2 [(10, 100); (11, 101); (12, 102)]%Z 100%Z 100%Z; mksub 2 [(10, 100); (11, 101)]%Z 100%Z 100%Z]. eexists. exists [[0; 1]], 0. do 3 eexists. split; [|split; [vm_compute; reflexivity|]].
  { split; [cbn; repeat constructor; cbn; lia|]. cbn. intros m Hm. lia. }
  split; [reflexivity|]. split; [reflexivity|]. split; [reflexivity|]. cbn. intros [H|[H|[]]]; discriminate.
Qed.
Print Assumptions C71_unbound_leader_refuted.

(** The hypotheses can be met: subhalo 0 is led by the particle 11, its first one that is not in subhalo 1. *)
Example C71_witness : members_ok ex_groups ex_subs /\
  (exists subs' s s', ex_purged = Some subs' /\ nth_error ex_subs 0 = Some s /\ nth_error subs' 0 = Some s' /\ (1 < u_nbound s)%Z /\ masked fst ex_subs [0; 1] 0 10%Z /\
     first_unmasked fst (masked fst ex_subs [0; 1] 0) (u_parts s) 1 (11, 101)%Z /\ u_parts s' = [(11, 101); (10, 100); (12, 102); (13, 103)]%Z /\ u_pos s' = 101%Z).
Proof.
  split. { split; [vm_compute; repeat constructor; cbn; lia|]. cbn. intros m Hm. lia. }
  eexists. eexists. eexists. split; [vm_compute; reflexivity|]. split; [reflexivity|]. split; [reflexivity|]. split; [cbn; lia|].
  assert (H10 : masked fst ex_subs [0; 1] 0 10%Z). { exists 1, 1. eexists. split; [lia|]. split; [reflexivity|]. split; [reflexivity|]. cbn. split; [lia|auto]. }
  split; [exact H10|]. split; [|split; reflexivity]. split; [reflexivity|]. split.
  - intros (k & m & t & Hk & Hm & Ht & _ & Hi). destruct k as [|[|k]]; [lia| |destruct k; discriminate]. injection Hm as <-. injection Ht as <-. cbn in Hi. lia.
  - intros [|i'] p' Hi Hp; [injection Hp as <-; exact H10|lia].
Qed.
