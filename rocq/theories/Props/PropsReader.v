(** Properties C78 and C79: the Python reader of catalogues. *)
From Coq Require Import String.
From Coq Require Import List ZArith QArith Lia Lqa Bool Permutation Sorted Arith.
From Verif.Model Require Import Mpi Reader.
From Verif.Spec Require Import Reader.
From Verif.Proofs Require Import ReaderProofs.
Import ListNotations.
Local Open Scope Z_scope.

(** Snapshot [snap] is asked for by its number or by a negative number that counts back from the last one. *)
Definition asks (r : reader) (isnap snap : Z) : Prop := 0 <= snap /\ isnap = snap \/ snap <= MaxSnap r /\ isnap = snap - (MaxSnap r + 1).
Lemma asks_is : forall r isnap snap, asks r isnap snap -> the_snapshot r isnap = snap.
Proof. intros r isnap snap [[H ->]|[H ->]]; unfold the_snapshot; match goal with |- context [?a <? 0] => destruct (Z.ltb_spec a 0) end; lia. Qed.

Section Props.
  Context {sub part : Type} (TrackId Birth : sub -> Z) (disk : Z -> option nat -> option (file sub part)).

  (** C78: loading returns the records of all files in order, and the record, the particles and the properties under an index are
      those of the same subhalo. *)
  Theorem C78_load : forall r isnap snap fs, asks r isnap snap -> holds disk snap fs -> nfiles r = length fs -> fs <> [] ->
    let all := concat (map f_subhalos fs) in
    (forall B (field : sub -> B), LoadSubhalos disk r (map field) isnap = Some (map field all)) /\
    load_lists disk r f_nests isnap = Some (concat (map f_nests fs)) /\
    load_lists disk r f_particles isnap = Some (concat (map f_particles fs)) /\
    (forall i, Z.of_nat (length all) <= i -> LoadSubhalo disk r isnap i = Some []) /\
    forall fs1 f fs2 j s, fs = fs1 ++ f :: fs2 -> nth_error (f_subhalos f) j = Some s ->
      let i := Z.of_nat (length (concat (map f_subhalos fs1)) + j) in
      LoadSubhalo disk r isnap i = Some [s] /\
      ((forall g, In g fs -> length (f_particles g) = length (f_subhalos g)) -> LoadParticles disk r isnap i = nth_error (f_particles f) j) /\
      ((forall g, In g fs -> length (f_src g) = length (f_subhalos g)) -> LoadSrcParticles disk r isnap i = nth_error (f_src f) j) /\
      ((forall g, In g fs -> length (f_properties g) = length (f_subhalos g)) -> GetParticleProperties disk r i isnap = nth_error (f_properties f) j).
  Proof using.
    intros r isnap snap fs Ha Hh Hn Hne all. rewrite <- (asks_is _ _ _ Ha) in Hh.
    assert (N0 : nfiles r <> 0%nat) by (destruct fs; [congruence|cbn in Hn; lia]).
    assert (Rg := range_is r N0). rewrite Hn in Rg.
    assert (Same : forall fs1 f fs2 B (get : file sub part -> list B) j, fs = fs1 ++ f :: fs2 ->
       (forall g, In g fs -> length (get g) = length (f_subhalos g)) -> (j < length (f_subhalos f))%nat ->
       nth_error (concat (map get fs)) (length (concat (map f_subhalos fs1)) + j) = nth_error (get f) j).
    { intros fs1 f fs2 B get j E Hg Lj. assert (Lc : length (concat (map get fs1)) = length (concat (map f_subhalos fs1))).
      { assert (Hg1 : forall g, In g fs1 -> length (get g) = length (f_subhalos g)) by (intros; apply Hg; rewrite E; apply in_or_app; auto).
        clear - Hg1. induction fs1 as [|g t IH]; [reflexivity|]. cbn. rewrite !app_length, IH, Hg1; auto; [left; reflexivity|intros; apply Hg1; right; assumption]. }
      rewrite E, map_app, concat_app. cbn [map concat]. rewrite nth_error_app2 by lia. rewrite nth_error_app1.
      - f_equal. lia.
      - rewrite Hg by (rewrite E; apply in_or_app; right; left; reflexivity). lia. }
    assert (At : forall B (get : file sub part -> list B) count i, (forall f, In f fs -> count f = length (get f)) -> 0 <= i ->
       list_at disk r get count isnap i 0 (file_range r) = nth_error (concat (map get fs)) (Z.to_nat i)).
    { intros B get count i Hc Hi. rewrite Rg, (list_at_is sub part disk r isnap fs Hh N0) by (auto; lia). cbn [skipn]. rewrite firstn_all, Z.sub_0_r. reflexivity. }
    split; [|split; [|split; [|split]]].
    - intros B field. unfold LoadSubhalos. rewrite Rg, (load_files_is sub part disk r isnap fs Hh N0) by (reflexivity || lia). cbn [skipn]. rewrite firstn_all.
      unfold all. rewrite concat_map, map_map. reflexivity.
    - unfold load_lists. rewrite Rg, (mapM_open sub part disk r isnap fs Hh N0) by lia. cbn [skipn]. rewrite firstn_all. reflexivity.
    - unfold load_lists. rewrite Rg, (mapM_open sub part disk r isnap fs Hh N0) by lia. cbn [skipn]. rewrite firstn_all. reflexivity.
    - intros i Hi. unfold LoadSubhalo. rewrite Rg, (load_index_is sub part disk r isnap fs Hh N0) by lia. cbn [skipn]. rewrite firstn_all.
      fold all. destruct (nth_error all (Z.to_nat (i - 0))) eqn:E; [|reflexivity].
      assert (Z.to_nat (i - 0) < length all)%nat by (apply nth_error_Some; congruence). lia.
    - intros fs1 f fs2 j s E Es i. assert (Lj : (j < length (f_subhalos f))%nat) by (apply nth_error_Some; congruence).
      assert (Ti : Z.to_nat i = (length (concat (map f_subhalos fs1)) + j)%nat) by (unfold i; lia). split; [|split; [|split]].
      + unfold LoadSubhalo. rewrite Rg, (load_index_is sub part disk r isnap fs Hh N0) by lia. cbn [skipn]. rewrite firstn_all, Z.sub_0_r, Ti.
        rewrite (Same fs1 f fs2 sub f_subhalos j E) by auto. rewrite Es. reflexivity.
      + intros Hg. unfold LoadParticles. rewrite At by (auto || lia). rewrite Ti. apply (Same fs1 f fs2); assumption.
      + intros Hg. unfold LoadSrcParticles. rewrite At by (auto || lia). rewrite Ti. apply (Same fs1 f fs2); assumption.
      + intros Hg. unfold GetParticleProperties. rewrite At by (lia || (intros; symmetry; auto)). rewrite Ti. apply (Same fs1 f fs2); assumption.
  Qed.

  (** C78: a subhalo is found by its track id, in whichever file it is; an unknown track raises. *)
  Theorem C78_get_sub : forall r isnap snap fs, asks r isnap snap -> holds disk snap fs -> nfiles r = length fs -> fs <> [] ->
    let all := concat (map f_subhalos fs) in
    (NoDup (map TrackId all) -> forall s, In s all -> GetSub TrackId disk r (TrackId s) isnap = Some [s]) /\
    (forall t, ~ In t (map TrackId all) -> GetSub TrackId disk r t isnap = None).
  Proof using.
    intros r isnap snap fs Ha Hh Hn Hne all. destruct (C78_load r isnap snap fs Ha Hh Hn Hne) as (Ld & _ & _ & _ & Ix). fold all in Ld.
    assert (N0 : (nfiles r =? 0)%nat = false) by (apply Nat.eqb_neq; destruct fs; [congruence|cbn in Hn; lia]).
    unfold GetSub. rewrite N0, Ld. split.
    - intros Hd s Is. destruct (In_nth_error _ _ Is) as [i Ei].
      assert (Eti : nth_error (map TrackId all) i = Some (TrackId s)) by (rewrite nth_error_map, Ei; reflexivity).
      destruct (flatnonzero_first _ (Z.eqb (TrackId s)) (map TrackId all) 0 (TrackId s) i Eti (Z.eqb_refl _)) as [t Et].
      { intros j y Lj Ej. apply Z.eqb_neq. intros <-. rewrite NoDup_nth_error in Hd. assert (j = i); [|lia]. apply Hd; [apply nth_error_Some; congruence|congruence]. }
      rewrite Et. cbn [Z.add].
      (* the file of position i *)
      assert (F : exists fs1 f fs2 j, fs = fs1 ++ f :: fs2 /\ nth_error (f_subhalos f) j = Some s /\ i = (length (concat (map f_subhalos fs1)) + j)%nat).
      { clear - Ei. unfold all in Ei. clear all. revert i Ei. induction fs as [|f t IH]; intros i Ei; [destruct i; discriminate|]. cbn [map concat] in Ei.
        destruct (le_lt_dec (length (f_subhalos f)) i) as [L|L].
        - rewrite nth_error_app2 in Ei by assumption. destruct (IH _ Ei) as (fs1 & g & fs2 & j & E & Es & Ej). exists (f :: fs1), g, fs2, j.
          split; [rewrite E; reflexivity|]. split; [exact Es|]. cbn [map concat]. rewrite app_length. lia.
        - rewrite nth_error_app1 in Ei by assumption. exists [], f, t, i. auto. }
      destruct F as (fs1 & f & fs2 & j & E & Es & ->). apply (Ix fs1 f fs2 j s E Es).
    - intros t Ht. rewrite flatnonzero_none; [reflexivity|]. intros x Ix'. apply Z.eqb_neq. intros <-. tauto.
  Qed.

  (** C78: a track holds one record per snapshot, from the birth of the subhalo to the last snapshot. *)
  Theorem C78_get_track : forall r t birth (files : Z -> list (file sub part)) (at_snap : Z -> sub) (scale : Z -> Q),
    0 <= birth <= MaxSnap r -> nfiles r <> 0%nat ->
    (forall snap, birth <= snap <= MaxSnap r -> holds disk snap (files snap) /\ length (files snap) = nfiles r /\
       NoDup (map TrackId (concat (map f_subhalos (files snap)))) /\
       In (at_snap snap) (concat (map f_subhalos (files snap))) /\ TrackId (at_snap snap) = t /\
       exists f0 rest, files snap = f0 :: rest /\ dataset "Cosmology/ScaleFactor"%string f0 = Some (scale snap)) ->
    Birth (at_snap (MaxSnap r)) = birth ->
    exists l, GetTrack TrackId Birth disk r t = Some l /\ Z.of_nat (length l) = MaxSnap r - birth + 1 /\
      forall k, (k < length l)%nat -> let snap := birth + Z.of_nat k in nth_error l k = Some (at_snap snap, snap, scale snap).
  Proof using.
    intros r t birth files at_snap scale Hb Hn H Hbirth.
    assert (One : forall isnap snap, birth <= snap <= MaxSnap r -> asks r isnap snap ->
              GetSub TrackId disk r t isnap = Some [at_snap snap] /\ GetScaleFactor disk r isnap = Some (scale snap)).
    { intros isnap snap Hs Ha. destruct (H snap Hs) as (H1 & H2 & H3 & H4 & H5 & f0 & rest & H6 & H7).
      destruct (C78_get_sub r isnap snap (files snap) Ha H1 (eq_sym H2)) as [G _]; [congruence|]. split; [rewrite <- H5; apply G; assumption|].
      unfold GetScaleFactor, open. rewrite (asks_is _ _ _ Ha). destruct (Nat.eqb_spec (nfiles r) 0); [congruence|]. rewrite H1, H6. cbn [nth_error]. rewrite H7. reflexivity. }
    unfold GetTrack. destruct (One (-1) (MaxSnap r)) as [-> _]; [lia|right; lia|]. rewrite Hbirth.
    set (l := map (fun i => let snap := birth + Z.of_nat i in (at_snap snap, snap, scale snap)) (seq 0 (Z.to_nat (MaxSnap r + 1 - birth)))).
    exists l. split; [|split].
    - unfold arange, l. assert (G : forall n k, birth + Z.of_nat (k + n) <= MaxSnap r + 1 ->
        mapM (fun isnap => match GetSub TrackId disk r t isnap, GetScaleFactor disk r isnap with Some [s'], Some a => Some (s', isnap, a) | _, _ => None end)
             (map (fun i => birth + Z.of_nat i) (seq k n)) =
        Some (map (fun i => let snap := birth + Z.of_nat i in (at_snap snap, snap, scale snap)) (seq k n))).
      { intros n. induction n as [|n IH]; intros k L; [reflexivity|]. cbn [seq map mapM].
        destruct (One (birth + Z.of_nat k) (birth + Z.of_nat k)) as [-> ->]; [lia|left; lia|]. rewrite IH by lia. reflexivity. }
      apply G. lia.
    - unfold l. rewrite map_length, seq_length. lia.
    - intros k Hk. unfold l in *. rewrite map_length, seq_length in Hk. rewrite nth_error_map, nth_error_nth' with (d := 0%nat) by (rewrite seq_length; lia).
      rewrite seq_nth by lia. reflexivity.
  Qed.

  (** C78: the reader finds the last snapshot and its number of files. *)
  Theorem C78_init : forall min_snap listed last fs, NoDup listed -> (forall s i, In (s, i) listed <-> disk s (Some i) <> None) ->
    holds disk last fs -> fs <> [] -> (forall s i, disk s (Some i) <> None -> s <= last) ->
    init min_snap [] listed = Some (mkreader min_snap last (length fs)).
  Proof using.
    intros min_snap listed last fs Hd Hl Hh Hne Hm. unfold init. cbn [highest].
    assert (I0 : In (last, 0%nat) listed) by (apply Hl; rewrite Hh; destruct fs; [congruence|discriminate]).
    assert (E : highest (map fst listed) = Some last).
    { assert (B : forall s, In s (map fst listed) -> s <= last).
      { intros s Is. apply in_map_iff in Is. destruct Is as ([s' i] & <- & Is). apply (Hm s' i), Hl, Is. }
      assert (I1 : In last (map fst listed)) by (apply in_map_iff; exists (last, 0%nat); auto).
      destruct (map fst listed) as [|x l]; [destruct I1|]. cbn [highest]. f_equal.
      assert (G : forall l x, (forall s, In s l -> s <= last) -> x <= last -> (x = last \/ In last l) -> fold_left Z.max l x = last).
      { clear. intros l. induction l as [|y l IH]; intros x B Bx O; cbn; [destruct O as [O|[]]; exact O|].
        apply IH; [intros; apply B; right; assumption|specialize (B y (or_introl eq_refl)); lia|]. specialize (B y (or_introl eq_refl)). destruct O as [->|[->|O]]; [left; lia|left; lia|right; exact O]. }
      apply G; [intros; apply B; right; assumption|apply B; left; reflexivity|exact I1]. }
    rewrite E. do 2 f_equal.
    assert (P : Permutation (filter (fun e => fst e =? last) listed) (map (pair last) (seq 0 (length fs)))).
    { apply NoDup_Permutation; [apply NoDup_filter, Hd|apply FinFun.Injective_map_NoDup; [intros a b; congruence|apply seq_NoDup]|].
      intros [s i]. rewrite filter_In, in_map_iff, Hl. cbn [fst]. split.
      - intros [H1 H2]. apply Z.eqb_eq in H2. subst s. exists i. split; [reflexivity|]. apply in_seq. rewrite Hh in H1. apply nth_error_Some in H1. lia.
      - intros (i' & Ei & Ii). injection Ei as <- <-. apply in_seq in Ii. split; [rewrite Hh; apply nth_error_Some; lia|apply Z.eqb_refl]. }
    apply Permutation_length in P. rewrite P, map_length, seq_length. reflexivity.
  Qed.

  (** Findings.  The number of files of the last snapshot is used for all: of a snapshot with more files (written by more processes)
      only the subhalos of the first files are returned, without a message; one with fewer files cannot be read. *)
  Theorem C78_number_of_files_refuted : forall r isnap snap fs, asks r isnap snap -> holds disk snap fs -> (0 < nfiles r)%nat ->
    ((nfiles r <= length fs)%nat -> LoadSubhalos disk r (fun l => l) isnap = Some (concat (map f_subhalos (firstn (nfiles r) fs)))) /\
    ((length fs < nfiles r)%nat -> LoadSubhalos disk r (fun l => l) isnap = None).
  Proof using.
    intros r isnap snap fs Ha Hh Hn. rewrite <- (asks_is _ _ _ Ha) in Hh. unfold LoadSubhalos. rewrite (range_is r) by lia. split; intros H.
    - rewrite (load_files_is sub part disk r isnap fs Hh) by (reflexivity || lia). reflexivity.
    - apply (load_files_short sub part disk r isnap fs Hh); lia.
  Qed.

  (** GetNumberOfSubhalos asks for a dataset that no catalogue has. *)
  Theorem C78_number_of_subhalos_refuted : forall r isnap, nfiles r <> 0%nat ->
    (forall s i f, disk s i = Some f -> map fst (f_one f) = one_element_names) -> GetNumberOfSubhalos disk r isnap = None.
  Proof using.
    intros r isnap Hn Hd. unfold GetNumberOfSubhalos, open. destruct (Nat.eqb_spec (nfiles r) 0); [congruence|].
    destruct (disk (the_snapshot r isnap) (Some 0%nat)) as [f|] eqn:E; [|reflexivity]. specialize (Hd _ _ _ E). unfold dataset.
    destruct (find _ (f_one f)) as [e|] eqn:Ef; [|reflexivity]. apply find_some in Ef. destruct Ef as [I T]. apply String.eqb_eq in T.
    apply (in_map fst) in I. rewrite Hd, <- T in I. exfalso. revert I. unfold one_element_names. cbn [In]. intuition discriminate.
  Qed.

  (** A negative index counts from the end of the first file with subhalos, not of the catalogue. *)
  Theorem C78_negative_index_refuted : forall r isnap snap f fs s, asks r isnap snap -> holds disk snap (f :: fs) -> nfiles r = S (length fs) ->
    f_subhalos f = removelast (f_subhalos f) ++ [s] -> LoadSubhalo disk r isnap (-1) = Some [s].
  Proof using.
    intros r isnap snap f fs s Ha Hh Hn E. rewrite <- (asks_is _ _ _ Ha) in Hh. unfold LoadSubhalo. rewrite (range_is r) by lia. rewrite Hn. cbn [seq load_index].
    rewrite (open_is sub part disk r isnap (f :: fs) Hh) by lia. cbn [nth_error]. assert (L : length (f_subhalos f) = S (length (removelast (f_subhalos f)))) by (rewrite E at 1; rewrite app_length; cbn; lia).
    destruct (Z.eqb_spec (Z.of_nat (length (f_subhalos f))) 0); [lia|]. destruct (Z.ltb_spec (-1) (0 + Z.of_nat (length (f_subhalos f)))); [|lia].
    unfold py_index. cbn [Z.sub Z.add Z.opp Z.ltb Z.compare]. destruct (Z.ltb_spec (Z.of_nat (length (f_subhalos f)) + -1) 0); [lia|].
    replace (Z.to_nat (Z.of_nat (length (f_subhalos f)) + -1)) with (length (removelast (f_subhalos f))) by lia. rewrite E at 1.
    rewrite nth_error_app2, Nat.sub_diag by lia. reflexivity.
  Qed.
End Props.
Print Assumptions C78_load.
Print Assumptions C78_get_sub.
Print Assumptions C78_get_track.
Print Assumptions C78_init.
Print Assumptions C78_number_of_files_refuted.
Print Assumptions C78_number_of_subhalos_refuted.
Print Assumptions C78_negative_index_refuted.

(** Two snapshots of two files; a subhalo is (track id, birth); track 1 is born in snapshot 7 and moves to the other file. *)
Definition two_files (snap : Z) : list (file (Z * Z) unit) :=
  let one := map (fun n => (n, 1 # 2)) one_element_names in
  if snap =? 7 then [mkfile [(0, 6); (1, 7)] [[10; 11]; [12]] [] [] [] one; mkfile [] [] [] [] [] one]
  else [mkfile [(0, 6)] [[10]] [] [] [] one; mkfile [(2, 8); (1, 7)] [[13]; [12; 14]] [] [] [] one].
Definition two_snapshots (snap : Z) (ifile : option nat) : option (file (Z * Z) unit) :=
  match ifile with None => None | Some i => if (snap =? 7) || (snap =? 8) then nth_error (two_files snap) i else None end.
Example C78_witness : let r := mkreader 6 8 2 in
  holds two_snapshots 7 (two_files 7) /\ holds two_snapshots 8 (two_files 8) /\ asks r (-2) 7 /\
  init 6 [] [(7, 0%nat); (8, 1%nat); (7, 1%nat); (8, 0%nat)] = Some r /\
  GetTrack fst snd two_snapshots r 1 = Some [((1, 7), 7, 1 # 2); ((1, 7), 8, 1 # 2)] /\
  LoadParticles two_snapshots r 8 2 = Some [12; 14] /\ LoadSubhalo two_snapshots r (-2) 1 = Some [(1, 7)] /\
  LoadSubhalo two_snapshots r 8 (-1) = Some [(0, 6)].
Proof. split; [|split; [|split; [right; cbn; lia|]]]; [intros [|[|[|i]]]; reflexivity..|]. repeat split; reflexivity. Qed.

(** C79: in the exclusive lists every subhalo with several particles keeps exactly the particles of which it is the smallest holder,
    each once; subhalos with at most one particle are as before.  For every order in which Python lists a set. *)
Theorem C79_exclusive : forall as_list parts, (forall l, Permutation (as_list l) l) ->
  let out := GetExclusiveParticles as_list parts in
  length out = length parts /\
  (forall j p q, nth_error parts j = Some p -> nth_error out j = Some q -> (length p <= 1)%nat -> q = p) /\
  (forall j p q, nth_error parts j = Some p -> nth_error out j = Some q -> (1 < length p)%nat -> NoDup q /\ forall x, In x q <-> smallest_holder parts x j).
Proof.
  intros as_list parts Hl out. unfold out, GetExclusiveParticles. set (L := combine (seq 0 (length parts)) parts). set (T := take_turns as_list (sort_by_size L) []).
  assert (LL : length L = length parts) by (unfold L; rewrite combine_length, seq_length; lia).
  assert (Ft : map fst T = map fst (sort_by_size L)) by apply take_turns_fst.
  assert (Lt : length T = length parts).
  { rewrite <- (map_length fst T), Ft, map_length, <- LL. apply Permutation_length, sort_size_perm. }
  assert (Fs : map fst (sort_by_index T) = seq 0 (length parts)).
  { assert (Ls : length (sort_by_index T) = length parts) by (rewrite <- Lt; apply Permutation_length, sort_index_perm).
    rewrite <- Ls. apply sorted_indices; [apply sort_index_sorted|]. rewrite Ls.
    rewrite (Permutation_map fst (sort_index_perm T)), Ft, (Permutation_map fst (sort_size_perm L)). unfold L.
    assert (X : forall (ps : list (list Z)) k, map fst (combine (seq k (length ps)) ps) = seq k (length ps)) by (induction ps; intros; cbn; [reflexivity|f_equal; auto]).
    rewrite X. reflexivity. }
  assert (Lo : length (map snd (sort_by_index T)) = length parts) by (rewrite map_length, <- (map_length fst), Fs, seq_length; reflexivity).
  assert (Pick : forall j p q, nth_error parts j = Some p -> nth_error (map snd (sort_by_index T)) j = Some q ->
            if (1 <? length p)%nat then NoDup q /\ forall x, In x q <-> smallest_holder parts x j else q = p).
  { intros j p q Ep Eq. assert (Lj : (j < length parts)%nat) by (apply nth_error_Some; congruence).
    assert (In (j, q) T).
    { apply (Permutation_in _ (sort_index_perm T)). rewrite nth_error_map in Eq. destruct (nth_error (sort_by_index T) j) as [[i q']|] eqn:E; [|discriminate].
      cbn in Eq. injection Eq as <-. assert (Ei : nth_error (map fst (sort_by_index T)) j = Some i) by (rewrite nth_error_map, E; reflexivity).
      rewrite Fs, nth_error_nth' with (d := 0%nat) in Ei by (rewrite seq_length; exact Lj). rewrite seq_nth in Ei by exact Lj. injection Ei as <-. exact (nth_error_In _ _ E). }
    destruct (take_turns_is as_list Hl _ _ _ _ H) as (l1 & p' & l2 & El & R).
    assert (S := sort_size_sorted L (combine_sorted parts 0)). assert (Mem : forall i w, In (i, w) (sort_by_size L) <-> nth_error parts i = Some w).
    { intros i w. rewrite <- (Nat.sub_0_r i) at 2. split; intros X.
      - apply (Permutation_in _ (sort_size_perm L)), combine_in in X. apply X.
      - apply (Permutation_in _ (Permutation_sym (sort_size_perm L))), combine_in. split; [lia|exact X]. }
    assert (Ep' : nth_error parts j = Some p') by (apply Mem; rewrite El; apply in_or_app; right; left; reflexivity). rewrite Ep in Ep'. injection Ep' as <-.
    destruct (1 <? length p)%nat eqn:B; [|exact R]. destruct R as [R1 R2]. split; [exact R1|]. apply Nat.ltb_lt in B.
    rewrite El in S.
    assert (Before : forall e, In e l1 -> before e (j, p)).
    { clear - S. induction l1 as [|a l1 IH]; intros e []; cbn in S; apply StronglySorted_inv in S; destruct S as [S F].
      - subst a. rewrite Forall_forall in F. apply F, in_or_app. right. left. reflexivity.
      - apply IH; assumption. }
    assert (After : forall e, In e l2 -> before (j, p) e).
    { clear - S. induction l1 as [|a l1 IH]; cbn in S; apply StronglySorted_inv in S; destruct S as [S F]; [rewrite Forall_forall in F; exact F|apply IH, S]. }
    intros x. rewrite R2. split.
    - intros (X1 & _ & X3). exists p. split; [exact Ep|]. split; [exact B|]. split; [exact X1|]. intros k w Ew Lw Xw. apply Mem in Ew. rewrite El in Ew.
      apply in_app_or in Ew. destruct Ew as [Ew|[Ew|Ew]].
      + elim (X3 (k, w) Ew Lw Xw).
      + injection Ew as <- <-. lia.
      + specialize (After _ Ew). unfold before in After. cbn in After. lia.
    - intros (p0 & E0 & _ & X1 & X2). rewrite Ep in E0. injection E0 as <-. split; [exact X1|]. split; [intros []|]. intros [k w] Ik Lw Xw. cbn [snd] in *.
      specialize (Before _ Ik). unfold before in Before. cbn in Before.
      assert (Ek : nth_error parts k = Some w) by (apply Mem; rewrite El; apply in_or_app; left; exact Ik). specialize (X2 k w Ek Lw Xw). lia. }
  split; [exact Lo|]. split; intros j p q Ep Eq Lp; specialize (Pick j p q Ep Eq).
  - destruct (Nat.ltb_spec 1 (length p)); [lia|exact Pick].
  - destruct (Nat.ltb_spec 1 (length p)); [exact Pick|lia].
Qed.
Print Assumptions C79_exclusive.

(** C79: so the lists of subhalos with several particles share no particle, and no particle of them is lost. *)
Theorem C79_partition : forall as_list parts x, (forall l, Permutation (as_list l) l) ->
  let out := GetExclusiveParticles as_list parts in
  (exists j p, nth_error parts j = Some p /\ (1 < length p)%nat /\ In x p) ->
  exists j, (exists p q, nth_error parts j = Some p /\ (1 < length p)%nat /\ nth_error out j = Some q /\ In x q) /\
    forall k p q, nth_error parts k = Some p -> (1 < length p)%nat -> nth_error out k = Some q -> In x q -> k = j.
Proof.
  intros as_list parts x Hl out (j0 & p0 & E0 & L0 & I0). destruct (C79_exclusive as_list parts Hl) as (Len & _ & Ex). fold out in Len, Ex.
  assert (Uniq : forall j k, smallest_holder parts x j -> smallest_holder parts x k -> j = k).
  { intros j k (p & Ep & Lp & Ip & Mp) (q & Eq & Lq & Iq & Mq). specialize (Mp k q Eq Lq Iq). specialize (Mq j p Ep Lp Ip). lia. }
  assert (Some_ : exists j, smallest_holder parts x j).
  { assert (G : forall n j p, nth_error parts j = Some p -> (1 < length p)%nat -> In x p -> (length p * length parts + j <= n)%nat -> exists j', smallest_holder parts x j').
    { intros n. induction n as [n IH] using lt_wf_ind. intros j p Ep Lp Ip Ln.
      assert (D : (forall k q, nth_error parts k = Some q -> (1 < length q)%nat -> In x q -> (length p < length q)%nat \/ length p = length q /\ (j <= k)%nat) \/
                  exists k q, nth_error parts k = Some q /\ (1 < length q)%nat /\ In x q /\ ((length q < length p)%nat \/ length q = length p /\ (k < j)%nat)).
      { assert (Q : forall l off, (exists k q, nth_error l k = Some q /\ (1 < length q)%nat /\ In x q /\ ((length q < length p)%nat \/ length q = length p /\ (off + k < j)%nat)) \/
                     forall k q, nth_error l k = Some q -> (1 < length q)%nat -> In x q -> (length p < length q)%nat \/ length p = length q /\ (j <= off + k)%nat).
        { clear. intros l. induction l as [|w l IH]; intros off; [right; intros [|k]; discriminate|].
          destruct (IH (S off)) as [(k & q & H1 & H2 & H3 & H4)|R]; [left; exists (S k), q; repeat split; auto; lia|].
          destruct (in_dec Z.eq_dec x w) as [Iw|Nw].
          - destruct (le_lt_dec (length w) 1); [right; intros [|k] q Ek; [injection Ek as <-; lia|intros A B; specialize (R k q Ek A B); lia]|].
            destruct (le_lt_dec (length p) (length w)); [|left; exists 0%nat, w; repeat split; auto; lia].
            destruct (Nat.eq_dec (length p) (length w)); [destruct (le_lt_dec j (off + 0))|].
            + right; intros [|k] q Ek; [injection Ek as <-; lia|intros A B; specialize (R k q Ek A B); lia].
            + left. exists 0%nat, w. repeat split; auto; lia.
            + right; intros [|k] q Ek; [injection Ek as <-; lia|intros A B; specialize (R k q Ek A B); lia].
          - right; intros [|k] q Ek; [injection Ek as <-; tauto|intros A B; specialize (R k q Ek A B); lia]. }
        destruct (Q parts 0%nat) as [(k & q & H1 & H2 & H3 & H4)|R]; [right; exists k, q; auto|left; exact R]. }
      destruct D as [D|(k & q & Ek & Lq & Iq & O)]; [exists j, p; auto|].
      assert (k < length parts)%nat by (apply nth_error_Some; congruence). assert (j < length parts)%nat by (apply nth_error_Some; congruence).
      apply (IH (length q * length parts + k)%nat) with (j := k) (p := q); auto. destruct O as [O|[O O']]; [nia|rewrite O; lia]. }
    exact (G _ j0 p0 E0 L0 I0 (le_n _)). }
  destruct Some_ as [j Hj]. exists j. assert (Hj' := Hj). destruct Hj' as (p & Ep & Lp & Ip & _).
  assert (Lj : (j < length out)%nat) by (rewrite Len; apply nth_error_Some; congruence).
  destruct (nth_error out j) as [q|] eqn:Eq; [|apply nth_error_None in Eq; lia]. split.
  - exists p, q. repeat split; auto. apply (Ex j p q Ep Eq Lp), Hj.
  - intros k p' q' Ep' Lp' Eq' I. apply Uniq; [|exact Hj]. apply (Ex k p' q' Ep' Eq' Lp'), I.
Qed.
Print Assumptions C79_partition.

(** Differences of positions in the box are replaced by their smallest periodic image. *)
Lemma wrap_least : forall box x y, (0 < box -> 0 <= x < box -> 0 <= y < box -> least_image box (x - y) (wrap_difference box x y))%Q.
Proof.
  intros box x y Hb Hx Hy. unfold least_image, wrap_difference.
  set (d := (x - y)%Q). assert (Hd : (- box < d /\ d < box)%Q) by (unfold d; lra). destruct Hd as [Hd1 Hd2].
  assert (Hhalf : (box / 2 == (1 # 2) * box)%Q) by (field). assert (Hmhalf : (- box / 2 == - (1 # 2) * box)%Q) by field.
  set (w := if Qlt_le_dec (if Qlt_le_dec (box / 2) d then (d - box)%Q else d) (- box / 2) then _ else _).
  assert (W : exists k : Z, (w == d + inject_Z k * box)%Q /\ (- (1 # 2) * box <= w /\ w <= (1 # 2) * box)%Q).
  { unfold w. clear w. destruct (Qlt_le_dec (box / 2) d) as [A|A]; rewrite Hhalf in A.
    - destruct (Qlt_le_dec (d - box) (- box / 2)) as [B|B]; rewrite Hmhalf in B; [lra|]. exists (-1)%Z. change (inject_Z (-1)) with (-1)%Q. split; [ring|lra].
    - destruct (Qlt_le_dec d (- box / 2)) as [B|B]; rewrite Hmhalf in B.
      + exists 1%Z. change (inject_Z 1) with 1%Q. split; [ring|lra].
      + exists 0%Z. change (inject_Z 0) with 0%Q. split; [ring|lra]. }
  clearbody w. destruct W as (k0 & E & B1 & B2). split; [exists k0; exact E|]. intros k.
  assert (E2 : (d + inject_Z k * box == w + inject_Z (k - k0) * box)%Q) by (rewrite E; unfold Z.sub; rewrite inject_Z_plus, inject_Z_opp; ring).
  rewrite E2. destruct (Z.eq_dec (k - k0) 0) as [->|N]; [change (inject_Z 0) with 0%Q; ring_simplify; apply Qle_refl|].
  assert (C : (inject_Z (k - k0) <= -1 \/ 1 <= inject_Z (k - k0))%Q).
  { destruct (Z_lt_le_dec (k - k0) 0); [left; change (-1)%Q with (inject_Z (-1))|right; change 1%Q with (inject_Z 1)]; rewrite <- Zle_Qle; lia. }
  set (m := inject_Z (k - k0)) in *. clearbody m. clear - Hb B1 B2 C.
  assert (Z0 : (0 <= m * box * ((2 # 1) * w + m * box))%Q).
  { destruct C as [C|C].
    - setoid_replace (m * box * ((2 # 1) * w + m * box))%Q with ((- m * box) * (- (2 # 1) * w + - m * box))%Q by ring.
      assert (box <= - m * box)%Q by nra. apply Qmult_le_0_compat; lra.
    - assert (box <= m * box)%Q by nra. apply Qmult_le_0_compat; lra. }
  setoid_replace ((w + m * box) * (w + m * box))%Q with (w * w + m * box * ((2 # 1) * w + m * box))%Q by ring. lra.
Qed.

(** C79: the distance of two positions in the box is that of the nearest periodic image. *)
Theorem C79_periodic_distance : forall box x y, (0 < box)%Q -> length x = length y -> Forall (fun a => 0 <= a < box)%Q x -> Forall (fun a => 0 <= a < box)%Q y ->
  (exists ks, length ks = length x /\ PeriodicDistance2 box x y == image_distance2 box x y ks)%Q /\
  (forall ks, length ks = length x -> PeriodicDistance2 box x y <= image_distance2 box x y ks)%Q.
Proof.
  intros box x y Hb. revert y. induction x as [|a x IH]; intros [|b y] L Fx Fy; try discriminate.
  - split; [exists []; split; reflexivity|]. intros ks _. apply Qle_refl.
  - inversion Fx as [|? ? Ha Fx']; subst. inversion Fy as [|? ? Hb' Fy']; subst. destruct (IH y ltac:(cbn in L; lia) Fx' Fy') as [(ks & Lk & Ek) B].
    destruct (wrap_least box a b Hb Ha Hb') as [(k & E) M]. split.
    + exists (k :: ks). split; [cbn; lia|]. cbn [PeriodicDistance2 image_distance2]. rewrite Ek, E. reflexivity.
    + intros [|k' ks'] Lk'; [discriminate|]. cbn [PeriodicDistance2 image_distance2]. apply Qplus_le_compat; [apply M|apply B; cbn in Lk'; lia].
Qed.
Print Assumptions C79_periodic_distance.

Example C79_witness : GetExclusiveParticles (fun l => l) [[1; 2; 3; 4]; [3; 5]; [3]; [5; 3; 6]; [4; 2]] = [[1]; [3; 5]; [3]; [6]; [4; 2]] /\
  (PeriodicDistance2 10 [1; 5; 9] [9; 4; 2] == 14)%Q.
Proof. split; reflexivity. Qed.
