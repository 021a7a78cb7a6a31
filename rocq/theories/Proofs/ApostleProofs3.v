(** The loaded group catalogue as a whole. *)
From Coq Require Import List ZArith Bool Lia QArith Sorting.Permutation Sorting.Sorted.
From Verif.Model Require Import ListMem Run Mymath Mpi Apostle.
From Verif.Spec Require Import Basic Comm Apostle.
From Verif.Proofs Require Import ListExtra ListMemProofs ListMemProofs MymathProofs MpiProofs HostProofs LocalizeProofs CatalogueProofs ApostleProofs ApostleProofs2.
Import ListNotations.
Local Open Scope Z_scope.

Lemma tiles_slices {A} (l : list A) ivs : forall lo hi, 0 <= lo -> tiles lo hi ivs ->
  concat (map (fun iv => firstn (Z.to_nat (snd iv - fst iv)) (skipn (Z.to_nat (fst iv)) l)) ivs) = firstn (Z.to_nat (hi - lo)) (skipn (Z.to_nat lo) l) /\ lo <= hi.
Proof.
  induction ivs as [|[a b] r IH]; intros lo hi Hlo Ht; cbn [tiles] in Ht.
  - subst. rewrite Z.sub_diag. split; [reflexivity|lia].
  - destruct Ht as (-> & Hab & Ht). destruct (IH b hi ltac:(lia) Ht) as [E Hle]. split; [|lia]. cbn [map concat fst snd]. rewrite E.
    replace (Z.to_nat (hi - lo)) with (Z.to_nat (b - lo) + Z.to_nat (hi - b))%nat by lia. rewrite <- (firstn_skipn (Z.to_nat (b - lo)) (firstn (Z.to_nat (b - lo) + Z.to_nat (hi - b)) (skipn (Z.to_nat lo) l))).
    rewrite firstn_firstn. replace (Init.Nat.min (Z.to_nat (b - lo)) (Z.to_nat (b - lo) + Z.to_nat (hi - b))) with (Z.to_nat (b - lo)) by lia. f_equal.
    rewrite skipn_firstn_comm. replace (Z.to_nat (b - lo) + Z.to_nat (hi - b) - Z.to_nat (b - lo))%nat with (Z.to_nat (hi - b)) by lia. f_equal. rewrite skipn_skipn. f_equal. lia.
Qed.

Section Load.
  Context {P : Type}.
  Lemma read_ok W (files : list (list (Z * P))) : (0 < W)%nat -> exists reads, mapM (read_files P W files) (seq 0 W) = Some reads /\ length reads = W /\ concat reads = read_file P (concat files).
  Proof.
    intros HW. destruct (assign_tasks_correct W (Z.of_nat (length files)) HW ltac:(lia)) as (ivs & E & Hl & Ht & _).
    exists (map (fun iv => concat (map (read_file P) (firstn (Z.to_nat (snd iv - fst iv)) (skipn (Z.to_nat (fst iv)) files)))) ivs). split; [|split].
    - clear Ht Hl. revert E. generalize (seq 0 W). induction ivs as [|[a b] r IH]; intros [|w ws] E; try discriminate; [reflexivity|]. cbn [map] in E. cbn [mapM map].
      unfold read_files at 1. assert (E1 : assign_tasks (Z.of_nat w) (Z.of_nat W) (Z.of_nat (length files)) = Some (a, b)) by congruence. rewrite E1. rewrite IH by congruence. reflexivity.
    - rewrite map_length. exact Hl.
    - rewrite <- (map_map (fun iv => firstn (Z.to_nat (snd iv - fst iv)) (skipn (Z.to_nat (fst iv)) files)) (fun l => concat (map (read_file P) l))). rewrite concat_map_concat.
      rewrite (proj1 (tiles_slices files ivs 0 _ ltac:(lia) Ht)). rewrite Z.sub_0_r, Nat2Z.id. cbn [Z.to_nat skipn]. rewrite firstn_all. unfold read_file. rewrite concat_map. reflexivity.
  Qed.

  Definition fine_local (read : list (Z * P)) (hs : list (halo P)) : Prop :=
    Permutation (flat hs) (filter (fun x => negb (fst x =? null_group)) read) /\
      Forall (fun h => snd h <> []) hs /\ StronglySorted (fun a b => fst a < fst b) hs /\ forall h, In h hs -> 0 <= fst h < null_group.
  Lemma locals_ok sort_host reads : sorts fst sort_host -> (forall x, In x (concat reads) -> 0 <= fst x <= null_group) ->
    exists all, mapM (local_halos P sort_host) reads = Some all /\ Forall2 fine_local reads all.
  Proof.
    intros HS. induction reads as [|read reads IH]; intros H; [exists []; split; [reflexivity|constructor]|].
    destruct IH as (all & E & HF); [intros x Hx; apply H; cbn; apply in_or_app; right; exact Hx|].
    destruct (local_ok sort_host read HS) as (hs & E1 & H1); [intros x Hx; apply H; cbn; apply in_or_app; left; exact Hx|].
    exists (hs :: all). cbn [mapM]. rewrite E1, E. split; [reflexivity|constructor; assumption].
  Qed.
  Lemma locals_flat reads all : Forall2 fine_local reads all -> Permutation (flat (concat all)) (filter (fun x => negb (fst x =? null_group)) (concat reads)).
  Proof. induction 1 as [|read hs reads all [H _] HF IH]; [reflexivity|]. cbn [concat]. unfold halo in *. rewrite flat_app, filter_app. apply Permutation_app; assumption. Qed.

  Lemma members_host id (l : list (Z * P)) : 0 <= id < null_group -> members id (filter (fun x => negb (fst x =? null_group)) (read_file P l)) = members id l.
  Proof.
    intros Hid. unfold members, read_file. rewrite filter_filter, filter_map_comm. cbn [fst]. rewrite map_map. cbn [snd]. f_equal. apply filter_ext. intros [k p]. unfold Apostle.host_of. generalize dependent null_group. intros g Hid. cbn [fst].
    destruct (Z.ltb_spec k 0); destruct (Z.eqb_spec k id); try lia.
  Qed.
  Lemma read_file_in (l : list (Z * P)) id p : 0 <= id < null_group -> (In (id, p) (filter (fun x => negb (fst x =? null_group)) (read_file P l)) <-> In (id, p) l).
  Proof.
    intros Hid. rewrite filter_In. unfold read_file. rewrite in_map_iff. cbn [fst]. split.
    - intros (([k q] & E & Hin) & _). cbn in E. unfold Apostle.host_of in E. destruct (Z.ltb_spec k 0); injection E as E1 E2; subst; [unfold null_group in *; lia|exact Hin].
    - intros Hin. split; [exists (id, p); split; [cbn; unfold Apostle.host_of; destruct (Z.ltb_spec id 0); [lia|reflexivity]|exact Hin]|]. destruct (Z.eqb_spec id null_group); [lia|reflexivity].
  Qed.

  Lemma nodup_by_owner (T : Z -> Z) n : forall a (f : nat -> list (halo P)), (forall r, NoDup (map fst (f r))) -> (forall r h, In h (f r) -> T (fst h) = Z.of_nat r) -> NoDup (map fst (concat (map f (seq a n)))).
  Proof.
    induction n as [|n IH]; intros a f H1 H2; [constructor|]. cbn [seq map concat]. rewrite map_app. apply NoDup_app_intro.
    - apply H1.
    - apply IH; assumption.
    - intros k Ha Hb. apply in_map_iff in Ha, Hb. destruct Ha as (h & <- & Hh), Hb as (h' & E & Hh'). apply in_concat in Hh'. destruct Hh' as (l & Hl & Hh'). apply in_map_iff in Hl. destruct Hl as (r & <- & Hr). apply in_seq in Hr.
      apply H2 in Hh, Hh'. rewrite E in Hh'. lia.
  Qed.

  Context {X : Type}.
  Variables (average : list P -> X) (position : list X -> Q * Q * Q) (step : Q * Q * Q) (d0 d1 d2 : Z) (chunk : nat).
  Variables (sort_host : list (Z * P) -> list (Z * P)) (sort_info sort_order : list (info X) -> list (info X)) (sort_rank : list (nat * Z) -> list (nat * Z)) (sort_halo : list (halo P) -> list (halo P)).
  Hypotheses (HD0 : 0 < d0) (HD1 : 0 < d1) (HD2 : 0 < d2).
  Hypotheses (S1 : sorts fst sort_host) (S2 : sorts (fun x => fst (snd x)) sort_info) (S3 : sorts (fun x => Z.of_nat (fst x)) sort_order) (S4 : sorts snd sort_rank) (S5 : sorts fst sort_halo).
  Variable W : nat.
  Hypothesis HW : Z.of_nat W = d0 * d1 * d2.
  Hypothesis Hchunk : (1 <= chunk)%nat.

  Lemma load_ok files : (forall x, In x (concat files) -> fst x <= null_group) ->
    exists out, load_groups P X average position step (d0, d1, d2) chunk sort_host sort_info sort_order sort_rank sort_halo W files = Some out /\ length out = W /\ assembled null_group (concat files) out.
  Proof.
    intros Hb. assert (HWp : (0 < W)%nat) by nia. destruct (read_ok W files HWp) as (reads & E1 & L1 & C1).
    destruct (locals_ok sort_host reads S1) as (all & E2 & HF).
    { rewrite C1. unfold read_file. intros x Hx. apply in_map_iff in Hx. destruct Hx as (y & <- & Hy). specialize (Hb y Hy). cbn [fst]. unfold Apostle.host_of. destruct (Z.ltb_spec (fst y) 0); unfold null_group in *; lia. }
    assert (L2 : length all = W) by (rewrite <- L1; symmetry; apply (Forall2_length_eq _ _ _ HF)).
    assert (HA : forall hs, In hs all -> StronglySorted (fun a b => fst a < fst b) hs /\ Forall (fun h => snd h <> []) hs /\ forall h, In h hs -> 0 <= fst h < null_group).
    { clear - HF. induction HF as [|read hs reads all H HF IH]; [intros ? []|]. intros hs' [<-|Hin]; [destruct H as (_ & H1 & H2 & H3); auto|apply IH, Hin]. }
    assert (Hids : forall hs, In hs all -> StronglySorted (fun a b : halo P => fst a < fst b) hs /\ forall h, In h hs -> 0 <= fst h).
    { intros hs Hhs. destruct (HA hs Hhs) as (H1 & _ & H3). split; [exact H1|]. intros h Hh. apply H3, Hh. }
    destruct (target_ok average position step d0 d1 d2 chunk sort_info sort_order HD0 HD1 HD2 S2 S3 W HW Hchunk all L2 Hids) as (T & HT & ET).
    pose proof (exchange_ok average position step d0 d1 d2 chunk sort_info sort_order sort_rank) as EE.
    assert (E3 : exchange_halos P X average position step (d0, d1, d2) chunk sort_info sort_order sort_rank all = Some (map (received sort_rank all T) (seq 0 W))) by (eapply EE; eassumption).
    clear EE. set (recv := received sort_rank all T) in *.
    assert (RP : forall r, Permutation (recv r) (filter (fun h => own T h =? Z.of_nat r) (concat all))) by (intros r; eapply received_perm; eassumption).
    assert (RA : Permutation (concat (map recv (seq 0 W))) (concat all)) by (exact (received_all d0 d1 d2 chunk sort_rank HD0 HD1 HD2 S4 W HW Hchunk all L2 T HT)).
    clearbody recv.
    assert (RF : forall r, Forall (fun h : halo P => snd h <> []) (recv r)).
    { intros r. apply Forall_forall. intros h Hh. apply (Permutation_in _ (RP r)) in Hh. apply filter_In in Hh. destruct Hh as [Hh _]. apply in_concat in Hh. destruct Hh as (hs & Hhs & Hh).
      destruct (HA hs Hhs) as (_ & H2 & _). rewrite Forall_forall in H2. apply H2, Hh. }
    exists (map (fun r => merge_halos P sort_halo (recv r)) (seq 0 W)). unfold load_groups. rewrite E1, E2, E3, map_map. split; [reflexivity|]. split; [rewrite map_length, seq_length; reflexivity|].
    set (out := map (fun r => merge_halos P sort_halo (recv r)) (seq 0 W)).
    assert (FP : Permutation (flat (concat out)) (filter (fun x => negb (fst x =? null_group)) (read_file P (concat files)))).
    { rewrite <- C1. rewrite <- (locals_flat reads all HF). rewrite <- (perm_flat _ _ RA). unfold out. clear - S5 RF. induction (seq 0 W) as [|r l IH]; [reflexivity|]. cbn [map concat]. unfold halo in *. rewrite !flat_app. apply Permutation_app; [|exact IH].
      apply merge_ok; [exact S5|apply RF]. }
    assert (KN : NoDup (map fst (concat out))).
    { apply (nodup_by_owner T).
      - intros r. apply merge_ok; [exact S5|apply RF].
      - intros r h Hh. assert (Hk : In (fst h) (map fst (recv r))) by (apply (merge_ok sort_halo (recv r) S5 (RF r)); apply in_map; exact Hh).
        apply in_map_iff in Hk. destruct Hk as (h' & E & Hk). apply (Permutation_in _ (RP r)) in Hk. apply filter_In in Hk. destruct Hk as [_ Hk]. apply Z.eqb_eq in Hk. unfold own in Hk. rewrite E in Hk. exact Hk. }
    assert (FN : forall id ps, In (id, ps) (concat out) -> ps <> []).
    { intros id ps Hin. unfold out in Hin. apply in_concat in Hin. destruct Hin as (l & Hl & Hin). apply in_map_iff in Hl. destruct Hl as (r & <- & _).
      pose proof (proj1 (proj2 (merge_ok sort_halo (recv r) S5 (RF r)))) as G. rewrite Forall_forall in G. apply (G (id, ps) Hin). }
    assert (RG : forall id p, In (id, p) (flat (concat out)) -> 0 <= id < null_group).
    { intros id p Hin. apply (Permutation_in _ FP) in Hin. apply filter_In in Hin. destruct Hin as [Hin Hn]. unfold read_file in Hin. apply in_map_iff in Hin. destruct Hin as ([k q] & E & Hin). cbn [fst snd] in E. assert (Ek : Apostle.host_of k = id) by congruence. assert (q = p) by congruence. subst q. specialize (Hb (k, p) Hin). cbn [fst] in Hb, Hn. unfold Apostle.host_of in Ek.
      destruct (Z.eqb_spec id null_group) as [En|En]; [discriminate Hn|]. destruct (Z.ltb_spec k 0); [congruence|]. subst k. lia. }
    split; [exact KN|]. split.
    - intros id ps Hin. pose proof (FN id ps Hin) as Hne. assert (Hr : 0 <= id < null_group).
      { destruct ps as [|p ps]; [contradiction|]. apply (RG id p). apply flat_in. exists (p :: ps). split; [exact Hin|left; reflexivity]. }
      split; [exact Hr|]. split; [exact Hne|]. rewrite <- (flat_members (concat out) id ps KN Hin) at 1. rewrite <- (members_host id (concat files) Hr). unfold members. apply Permutation_map, perm_filter, FP.
    - intros id p Hin Hr. apply (read_file_in (concat files) id p Hr) in Hin. apply (Permutation_in _ (Permutation_sym FP)) in Hin. apply flat_in in Hin. destruct Hin as (ps & Hin & _). exists ps. exact Hin.
  Qed.

  (** A group number above [NullGroupId] anywhere stops the program. *)
  Lemma load_large files x : In x (concat files) -> null_group < fst x ->
    load_groups P X average position step (d0, d1, d2) chunk sort_host sort_info sort_order sort_rank sort_halo W files = None.
  Proof.
    clear Hchunk. intros Hin Hx. unfold load_groups. assert (HWp : (0 < W)%nat) by nia. destruct (read_ok W files HWp) as (reads & -> & _ & C1).
    assert (Hin2 : In (fst x, snd x) (concat reads)).
    { rewrite C1. unfold read_file. apply in_map_iff. exists x. split; [|exact Hin]. unfold Apostle.host_of. destruct (Z.ltb_spec (fst x) 0); [unfold null_group in *; lia|reflexivity]. }
    assert (E : mapM (local_halos P sort_host) reads = None); [|rewrite E; reflexivity].
    clear C1. induction reads as [|read reads IH]; [destruct Hin2|]. cbn [mapM]. cbn in Hin2. apply in_app_or in Hin2. destruct Hin2 as [H|H].
    - rewrite (local_large sort_host read _ S1 H Hx). reflexivity.
    - destruct (local_halos P sort_host read); [|reflexivity]. rewrite (IH H). reflexivity.
  Qed.
End Load.
