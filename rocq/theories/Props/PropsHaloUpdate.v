(** Property C59: the update and distribution of halos. *)
From Coq Require Import List ZArith QArith Bool Lia Sorting.Sorted Sorting.Permutation.
From Verif.Model Require Import Run Hash ParticleExchange HaloExchange.
From Verif.Spec Require Import Basic Query HaloUpdate.
From Verif.Proofs Require Import HaloExchangeProofs.
From Verif.Props Require PropsQuery.
Import ListNotations.
Local Open Scope nat_scope.

(** C59: whatever halos the processes loaded, the update ends without fault, and the processes together hold exactly these
    halos, each once, with the snapshot records of its own particles (those missing from the snapshot dropped), averaged over
    these; every halo is on the process whose part of the box contains its average position. *)
Theorem C59_halos_updated_and_distributed : forall (X S : Type) (null : Z), (null < 0)%Z -> forall chunk, 1 <= chunk ->
  forall (sort_local : list (Z * X * nat) -> list (Z * X * nat)),
  (forall l, Permutation (sort_local l) l) -> (forall l, StronglySorted Z.le (map (fun p => fst (fst p)) (sort_local l))) ->
  forall (sort_roam : list (Z * (X * nat)) -> list (Z * (X * nat))),
  (forall l, Permutation (sort_roam l) l) -> (forall l, StronglySorted Z.le (map fst (sort_roam l))) ->
  forall (sort_rank : list (nat * nat) -> list (nat * nat)),
  (forall l, Permutation (sort_rank l) l) -> (forall l, StronglySorted le (map snd (sort_rank l))) ->
  forall (root : nat -> nat -> nat), (forall N d, 1 <= N -> 1 <= d -> 1 <= root N d) -> (forall N, root N 1 = N) ->
  forall box, (0 < box)%Q -> forall (position : S -> Q * Q * Q) (average : list (Z * X) -> S -> S),
  forall ranges snaps (halos : list (list (list (Z * X) * S))),
  let parts := map sp_parts snaps in
  length snaps = length halos -> located ranges parts -> NoDup (map fst (concat parts)) ->
  Forall (table_ok null) snaps -> ~ In null (map fst (concat parts)) ->
  forall lo hi, nth_error ranges 0 = Some lo -> nth_error ranges (length halos) = Some hi ->
  (forall hs h p, In hs halos -> In h hs -> In p (fst h) -> (lo <= fst p < hi)%Z) ->
  exists out, update_halos chunk average (halo_cell root box position) sort_rank null sort_local sort_roam false ranges snaps halos = Done out /\
    length out = length halos /\
    Permutation (concat out) (map (fun h => (present parts (fst h), average (present parts (fst h)) (snd h))) (concat halos)) /\
    forall r l h, nth_error out r = Some l -> In h l -> in_domain box (length halos) (position (snd h)) r.
Proof.
  intros X S null Hn chunk Hc sl H1 H2 sr H3 H4 sk H5 H6 root Hr1 Hr2 box Hb position average ranges snaps halos parts HW HL HU HT Hnn lo hi Hlo Hhi Hids.
  destruct (update_halos_ok null Hn chunk Hc sl H1 H2 sr H3 H4 average (halo_cell root box position) sk H5 H6 ranges snaps halos HW HL HU HT Hnn lo hi Hlo Hhi Hids) as (out & E & Lo & Po & Ho).
  - intros s Hne. apply halo_cell_spec; auto. destruct halos; [congruence|cbn; lia].
  - exists out. split; [exact E|]. split; [exact Lo|]. split; [exact Po|]. intros r l h Hl Hh. rewrite <- (Ho r l h Hl Hh). apply halo_cell_spec; auto.
    apply nth_error_In in Hl. destruct out; [destruct Hl|]. cbn in Lo. lia.
Qed.
Print Assumptions C59_halos_updated_and_distributed.

Local Open Scope Z_scope.
Import PropsQuery.
(** Shells are (HaloId, position); a particle carries its x coordinate.  Two processes share a box of side 200; particle 4 is missing. *)
Definition c59_halos : list (list (list (Z * Z) * (Z * Z))) :=
  [[([(9, 0); (3, 0); (4, 0)], (0, 0)); ([(8, 0)], (1, 0))]; [([], (2, 0)); ([(5, 0); (4, 1)], (3, 0))]].
Definition c59_average (l : list (Z * Z)) (s : Z * Z) : Z * Z :=
  match l with [] => s | _ => (fst s, fold_right Z.add 0 (map snd l) / Z.of_nat (length l)) end.
Definition c59_position (s : Z * Z) : Q * Q * Q := (inject_Z (snd s), 0, 0)%Q.
Example C59_witness :
  (forall hs h p, In hs c59_halos -> In h hs -> In p (fst h) -> 3 <= fst p < 10) /\
  ~ In (-1) (map fst (concat (map sp_parts c17_snaps))) /\
  update_halos 2 c59_average (halo_cell (fun N d => match d with 3%nat => 2%nat | 1%nat => N | _ => 1%nat end) 212 c59_position)
    (isort_by (fun x => Z.of_nat (snd x))) (-1) (isort_by (fun p => fst (fst p))) (isort_by fst) false [3; 6; 10] c17_snaps c59_halos =
  Done [[([], (2, 0)); ([(5, 105)], (3, 105))]; [([(9, 109); (3, 103)], (0, 106)); ([(8, 108)], (1, 108))]].
Proof.
  split; [|split].
  - intros hs h p Hh Hl Hp. cbn in Hh. repeat (destruct Hh as [<-|Hh]; [cbn in Hl; repeat (destruct Hl as [<-|Hl]; [cbn in Hp; repeat (destruct Hp as [<-|Hp]; [cbn; lia|]); destruct Hp|]); destruct Hl|]). destruct Hh.
  - cbn. lia.
  - vm_compute. reflexivity.
Qed.
