(** C70: file names identify what is in the file. *)
From Coq Require Import List ZArith Bool String Ascii Lia.
From Verif.Model Require Import FileNames.
From Verif.Proofs Require Import FileNameProofs.
Import ListNotations.
Local Open Scope Z_scope.
Notation length := List.length.

(** * C70: no two files of a run share a name *)
(** Catalogue files of different snapshots, processes or kinds have different names, whatever the output directory.  The kinds
    used are "Sub" and "Src". *)
Theorem C70_catalogues : forall (path : string) (index ifile index' ifile' : Z) (kind kind' : string),
  sub_file_name path index ifile kind = sub_file_name path index' ifile' kind' -> index = index' /\ ifile = ifile' /\ kind = kind'.
Proof. intros path a i b j t u H. apply (sub_name_inj path a i t b j u H). Qed.
Print Assumptions C70_catalogues.

(** Snapshot files: for each of the conventions for Gadget, and for Apostle, a name belongs to one snapshot and one file. *)
Theorem C70_gadget : forall (path base : string) (id ifile id' ifile' : Z),
  (gadget_snapdir path base id ifile = gadget_snapdir path base id' ifile' -> id = id' /\ ifile = ifile') /\
  (gadget_single path base id = gadget_single path base id' -> id = id') /\
  (gadget_plain path base id ifile = gadget_plain path base id' ifile' -> id = id' /\ ifile = ifile') /\
  (gadget_ramses path base id ifile = gadget_ramses path base id' ifile' -> id = id' /\ ifile = ifile') /\
  gadget_single path base id <> gadget_plain path base id' ifile'.
Proof.
  intros path base a i b j. split; [|split; [|split; [|split]]]; intros H.
  - unfold gadget_snapdir in H. apply app_inv_l, (app_inv_l "/snapdir_") in H. apply (split_first "/" _ _ _ _ (percent_free _ _ slash) (percent_free _ _ slash)) in H as [E H]. apply percent_inj in E. subst b.
    apply app_inv_l, (app_inv_l "_"), app_inv_l, (app_inv_l "."), decimal_inj in H. split; [reflexivity|exact H].
  - unfold gadget_single in H. apply app_inv_l, (app_inv_l "/"), app_inv_l, (app_inv_l "_"), percent_inj in H. exact H.
  - unfold gadget_plain in H. apply app_inv_l, (app_inv_l "/"), app_inv_l, (app_inv_l "_"), numbered in H as [H1 H2]. apply percent_inj in H1. split; assumption.
  - unfold gadget_ramses in H. apply app_inv_l, (app_inv_l "/") in H. apply (split_first "/" _ _ _ _ (decimal_free _ _ slash) (decimal_free _ _ slash)) in H as [H1 H2]. apply decimal_inj in H1. apply numbered in H2 as [_ H2]. split; assumption.
  - unfold gadget_single, gadget_plain in H. apply app_inv_l, (app_inv_l "/"), app_inv_l, (app_inv_l "_") in H. pose proof (percent_free "." a dot) as F. rewrite H in F. apply free_app in F as [_ F]. cbn in F. tauto.
Qed.
Print Assumptions C70_gadget.

(** Without a list of names the names of Apostle files belong to one snapshot and one file; with a list of different names, none
    of which contains a slash, too. *)
Theorem C70_apostle : forall (path : string) (id ifile id' ifile' : Z) (n n' s : string),
  snapshot_name [] id = Some n -> snapshot_name [] id' = Some n' -> apostle_file_name path n ifile = Some s -> apostle_file_name path n' ifile' = Some s -> id = id' /\ ifile = ifile'.
Proof.
  intros path a i b j n n' s Hn Hn' Hs Hs'. assert (F : forall z m, snapshot_name [] z = Some m -> m = ("snapshot_" ++ setw3 (decimal z))%string) by (intros z m E; unfold snapshot_name in E; congruence).
  apply F in Hn. apply F in Hn'. assert (Fr : forall z, free "/" ("snapshot_" ++ setw3 (decimal z))) by (intros z; apply free_app; split; [cbn; repeat split; discriminate|apply setw3_free, slash]).
  destruct (apostle_inj path n n' i j s) as [E1 E2]; [rewrite Hn; apply Fr|rewrite Hn'; apply Fr|exact Hs|exact Hs'|]. split; [|exact E2]. rewrite Hn, Hn' in E1. apply (app_inv_l "snapshot_"), setw3_inj in E1. exact E1.
Qed.
Print Assumptions C70_apostle.
Theorem C70_apostle_listed : forall (path : string) (names : list string) (id ifile id' ifile' : Z) (n n' s : string),
  names <> [] -> NoDup names -> (forall x, In x names -> ~ In "/"%char (list_ascii_of_string x)) ->
  snapshot_name names id = Some n -> snapshot_name names id' = Some n' -> apostle_file_name path n ifile = Some s -> apostle_file_name path n' ifile' = Some s -> id = id' /\ ifile = ifile'.
Proof.
  intros path names a i b j n n' s Hne ND HF Hn Hn' Hs Hs'. unfold snapshot_name in *. destruct names as [|x l]; [congruence|]. destruct (Z.ltb_spec a 0); [discriminate|]. destruct (Z.ltb_spec b 0); [discriminate|].
  destruct (apostle_inj path n n' i j s) as [E1 E2]; [apply free_in, HF, (nth_error_In _ _ Hn)|apply free_in, HF, (nth_error_In _ _ Hn')|exact Hs|exact Hs'|]. split; [|exact E2]. subst n'.
  rewrite NoDup_nth_error in ND. specialize (ND (Z.to_nat a) (Z.to_nat b)). rewrite Hn, Hn' in ND. assert (Z.to_nat a = Z.to_nat b); [|lia]. apply ND; [apply nth_error_Some; congruence|reflexivity].
Qed.
Print Assumptions C70_apostle_listed.

(** Each snapshot index of the configured range has one id: its own if no ids are listed, else the one listed at its place;
    different snapshots have different ids if the listed ids are different. *)
Theorem C70_ids : forall (min_index max_index : Z) (id_list : list Z), 0 <= min_index -> (id_list <> [] -> max_index = Z.of_nat (length id_list) - 1) -> NoDup id_list ->
  (forall index, min_index <= index <= max_index -> exists id, set_snapshot_index min_index max_index id_list index = Some (index, id) /\
     (id_list = [] -> id = index) /\ (id_list <> [] -> nth_error id_list (Z.to_nat index) = Some id)) /\
  (forall index, ~ min_index <= index <= max_index -> set_snapshot_index min_index max_index id_list index = None) /\
  (forall i j id, set_snapshot_index min_index max_index id_list i = Some (i, id) -> set_snapshot_index min_index max_index id_list j = Some (j, id) -> i = j).
Proof.
  intros lo hi ids Hlo Hl ND. unfold set_snapshot_index. split; [|split].
  - intros k Hk. replace ((lo <=? k) && (k <=? hi))%bool with true by (symmetry; apply andb_true_intro; lia). destruct ids as [|x l]; [exists k; repeat split; congruence|]. specialize (Hl ltac:(discriminate)).
    destruct (Z.ltb_spec k 0); [lia|]. destruct (nth_error (x :: l) (Z.to_nat k)) as [id|] eqn:E; [|apply nth_error_None in E; lia]. exists id. repeat split; congruence.
  - intros k Hk. destruct (Z.leb_spec lo k), (Z.leb_spec k hi); try reflexivity. lia.
  - intros i j id Hi Hj. destruct ((lo <=? i) && (i <=? hi))%bool eqn:Ri; [|discriminate]. destruct ((lo <=? j) && (j <=? hi))%bool eqn:Rj; [|discriminate]. destruct ids as [|x l]; [congruence|].
    destruct (Z.ltb_spec i 0); [discriminate|]. destruct (Z.ltb_spec j 0); [discriminate|]. destruct (nth_error (x :: l) (Z.to_nat i)) as [a|] eqn:Ei; [|discriminate]. destruct (nth_error (x :: l) (Z.to_nat j)) as [b|] eqn:Ej; [|discriminate].
    rewrite NoDup_nth_error in ND. specialize (ND (Z.to_nat i) (Z.to_nat j)). rewrite Ei, Ej in ND. assert (Z.to_nat i = Z.to_nat j); [|lia]. apply ND; [apply nth_error_Some; congruence|congruence].
Qed.
Print Assumptions C70_ids.

(** If names are listed (one for each snapshot, as the configuration demands) but no ids, each snapshot is read under its own name. *)
Theorem C70_listed_names : forall (min_index max_index : Z) (names : list string) (index : Z), 0 <= min_index -> Z.of_nat (length names) = max_index + 1 -> min_index <= index <= max_index ->
  exists id n, set_snapshot_index min_index max_index [] index = Some (index, id) /\ snapshot_name names id = Some n /\ nth_error names (Z.to_nat index) = Some n.
Proof.
  intros lo hi names k Hlo Hl Hk. destruct (nth_error names (Z.to_nat k)) as [n|] eqn:E; [|apply nth_error_None in E; lia]. exists k, n. split; [|split; [|reflexivity]].
  - unfold set_snapshot_index. replace ((lo <=? k) && (k <=? hi))%bool with true by (symmetry; apply andb_true_intro; lia). reflexivity.
  - unfold snapshot_name. destruct names as [|x l]; [cbn in Hl; lia|]. destruct (Z.ltb_spec k 0); [lia|exact E].
Qed.
Print Assumptions C70_listed_names.
(** If ids are listed as well, the name is looked up by the id instead of the index: another snapshot is read, or a name behind
    the end of the list is used. *)
Theorem C70_names_and_ids_refuted : exists (ids : list Z) (names : list string), NoDup ids /\ NoDup names /\ length ids = 3%nat /\ length names = 3%nat /\
  (exists id n, set_snapshot_index 0 2 ids 0 = Some (0, id) /\ snapshot_name names id = Some n /\ nth_error names 0 <> Some n) /\
  (exists id, set_snapshot_index 0 2 ids 2 = Some (2, id) /\ snapshot_name names id = None).
Proof.
  exists [1; 2; 3], ["snapshot_001"; "snapshot_002"; "snapshot_003"]%string. split; [repeat constructor; cbn; intuition lia|]. split; [repeat constructor; cbn; intuition discriminate|]. split; [reflexivity|]. split; [reflexivity|]. split.
  - exists 1, "snapshot_002"%string. split; [reflexivity|]. split; [reflexivity|]. discriminate.
  - exists 3. split; reflexivity.
Qed.
Print Assumptions C70_names_and_ids_refuted.

Example C70_witness :
  sub_file_name "out" 7 12 "Sub" = "out/007/SubSnap_007.12.hdf5"%string /\ sub_file_name "out" 1234 0 "Src" = "out/1234/SrcSnap_1234.0.hdf5"%string /\ sub_file_name "out" (-7) 0 "Src" = "out/0-7/SrcSnap_0-7.0.hdf5"%string /\
  gadget_snapdir "in" "snap" 63 5 = "in/snapdir_063/snap_063.5"%string /\ percent03d (-7) = "-07"%string /\
  snapshot_name [] 12 = Some "snapshot_012"%string /\ apostle_file_name "in" "snapshot_012" 3 = Some "in/snapshot_012/snap_012.3.hdf5"%string /\
  apostle_file_name "in" "snipshot_012_z009p993" 3 = Some "in/snipshot_012_z009p993/snip_012_z009p993.3.hdf5"%string /\
  set_snapshot_index 1 3 [8; 9; 11; 12] 2 = Some (2, 11) /\ set_snapshot_index 1 3 [8; 9; 11; 12] 0 = None.
Proof. repeat split; vm_compute; reflexivity. Qed.
