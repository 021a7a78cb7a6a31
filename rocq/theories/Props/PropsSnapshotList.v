(** toolbox/CreateSnapshotList.py: C93. *)
From Coq Require Import List ZArith Lia Bool String Sorting.Sorted Sorting.Permutation.
From Verif.Model Require Import Mpi SnapshotList.
From Verif.Spec Require Import SnapshotList.
From Verif.Proofs Require Import MpiProofs SnapshotListProofs.
From Verif.Props Require Import PropsApostle.
Import ListNotations.
Local Open Scope nat_scope.

(** C93: if the names of all directories tell a redshift, CreateSnapshotList.py prints for "snap" and "snip", in the order of
    the names, the first of the readable and not empty directories with each redshift; and for "all" a list in order of
    strictly decreasing redshift, with the snapshots of the first list and those snipshots of the second whose redshift no
    snapshot has.  No redshift of a readable directory that is not empty is missing. *)
Theorem C93_lists : forall redshift test_dir sort_names sort_index sort_reverse unique key (snapshots snipshots : list string),
  sorts_index sort_index -> first_indices unique -> (forall l, Permutation (sort_names l) l) -> sorts_reverse key sort_reverse ->
  (forall x, In x snapshots \/ In x snipshots -> redshift x = Some (key x)) ->
  exists snaps snips all,
    create_list redshift test_dir sort_names sort_index sort_reverse unique snapshots snipshots "snap" = Some snaps /\
    create_list redshift test_dir sort_names sort_index sort_reverse unique snapshots snipshots "snip" = Some snips /\
    create_list redshift test_dir sort_names sort_index sort_reverse unique snapshots snipshots "all" = Some all /\
    firsts key (filter test_dir (sort_names snapshots)) snaps /\ firsts key (filter test_dir (sort_names snipshots)) snips /\
    StronglySorted (fun a b => (key b < key a)%Z) all /\
    (forall x, In x all <-> In x snaps \/ (In x snips /\ forall y, In y snaps -> key y <> key x)) /\
    (forall x, In x snapshots \/ In x snipshots -> test_dir x = true -> exists y, In y all /\ key y = key x).
Proof.
  intros redshift test_dir sort_names sort_index sort_reverse unique key a b H1 H2 H3 H4 H5.
  destruct (create_ok redshift sort_index unique H1 H2 key test_dir sort_names sort_reverse H3 H4 a b) as (snaps & snips & all & F1 & F2 & E1 & E2 & E3 & HS & HA); [intros x Hx; apply H5; auto..|].
  exists snaps, snips, all. do 7 (split; [assumption|]).
  assert (G : forall l x src, firsts key (filter test_dir (sort_names src)) l -> In x src -> test_dir x = true -> exists y, In y l /\ key y = key x).
  { intros l x src (_ & _ & HF) Hx Ht. destruct (HF x) as (_ & y & _ & _ & Hk & Hy & _); [|eauto]. apply filter_In. split; [|exact Ht]. exact (Permutation_in _ (Permutation_sym (H3 src)) Hx). }
  intros x [Hx|Hx] Ht.
  - destruct (G snaps x a F1 Hx Ht) as (y & Hy & Hk). exists y. split; [apply HA; left; exact Hy|exact Hk].
  - destruct (G snips x b F2 Hx Ht) as (y & Hy & Hk). destruct (in_dec Z.eq_dec (key y) (map key snaps)) as [Hin|Hout].
    + apply in_map_iff in Hin as (w & Hw & Hw'). exists w. split; [apply HA; left; exact Hw'|congruence].
    + exists y. split; [apply HA; right; split; [exact Hy|]; intros w Hw C; apply Hout; rewrite <- C; apply in_map; exact Hw|exact Hk].
Qed.
Print Assumptions C93_lists.

(** C93: a directory of either kind whose name tells no redshift stops the script, whichever list is asked for. *)
Theorem C93_bad_name : forall redshift test_dir sort_names sort_index sort_reverse unique (snapshots snipshots : list string) kind x,
  (forall l, Permutation (sort_names l) l) -> In x snapshots \/ In x snipshots -> test_dir x = true -> redshift x = None ->
  create_list redshift test_dir sort_names sort_index sort_reverse unique snapshots snipshots kind = None.
Proof.
  intros redshift test_dir sort_names sort_index sort_reverse unique a b kind x HP Hx Ht Hz.
  assert (G : forall l, In x l -> clear_dup redshift sort_index unique (clear_empty test_dir (sort_names l)) = None).
  { intros l Hl. unfold clear_dup. replace (mapM redshift (clear_empty test_dir (sort_names l))) with (@None (list Z)); [reflexivity|]. symmetry.
    assert (Hin : In x (clear_empty test_dir (sort_names l))) by (apply filter_In; split; [exact (Permutation_in _ (Permutation_sym (HP l)) Hl)|exact Ht]).
    revert Hin. generalize (clear_empty test_dir (sort_names l)). clear -Hz. induction l as [|y l IH]; intros Hin; [destruct Hin|]. cbn [mapM]. destruct Hin as [->|Hin]; [rewrite Hz; reflexivity|]. rewrite (IH Hin). destruct (redshift y); reflexivity. }
  unfold create_list. destruct Hx as [Hx|Hx]; rewrite (G _ Hx); [reflexivity|]. destruct (clear_dup redshift sort_index unique (clear_empty test_dir (sort_names a))); reflexivity.
Qed.
Print Assumptions C93_bad_name.

Local Open Scope string_scope.
Local Open Scope Z_scope.
Definition c93_key (s : string) : Z := if String.eqb s "snapshot_0_z9p0" then 9 else if String.eqb s "snapshot_1_z3p5" || String.eqb s "snapshot_2_z3p5" || String.eqb s "snipshot_2_z3p5" then 3 else if String.eqb s "snipshot_1_z5p0" then 5 else 1.
Definition c93_unique (l : list Z) : list nat := filter (fun i => match nth_error l i with Some z => negb (existsb (Z.eqb z) (firstn i l)) | None => false end) (seq 0 (List.length l)).
Lemma c93_unique_ok : first_indices c93_unique.
Proof.
  intros l. unfold c93_unique. split; [apply NoDup_filter, seq_NoDup|]. intros i. rewrite filter_In, in_seq. split.
  - intros [Hi Hf]. destruct (nth_error l i) as [z|] eqn:E; [|discriminate]. exists z. split; [reflexivity|]. intros j Hj C. apply negb_true_iff in Hf.
    assert (C' : existsb (Z.eqb z) (firstn i l) = true); [|congruence]. apply existsb_exists. exists z. split; [|apply Z.eqb_refl]. apply nth_error_In with j. clear -Hj C. revert i j Hj C. induction l as [|a l IH]; intros i j Hj C; [destruct j; discriminate|]. destruct i; [lia|]. destruct j; [exact C|]. cbn in *. apply IH; [lia|exact C].
  - intros (z & Hz & Hn). split; [split; [lia|apply nth_error_Some; congruence]|]. rewrite Hz. apply negb_true_iff. destruct (existsb (Z.eqb z) (firstn i l)) eqn:E; [|reflexivity]. exfalso. apply existsb_exists in E as (w & Hw & Ew). apply Z.eqb_eq in Ew. subst w.
    apply In_nth_error in Hw as [j Hj]. assert (Lj : (j < i)%nat) by (assert (j < List.length (firstn i l))%nat by (apply nth_error_Some; congruence); rewrite firstn_length in *; lia).
    apply (Hn j Lj). clear -Hj Lj. revert i j Hj Lj. induction l as [|a l IH]; intros i j Hj Lj; [rewrite firstn_nil in Hj; destruct j; discriminate|]. destruct i; [lia|]. destruct j; [exact Hj|]. cbn in *. apply (IH i j Hj). lia.
Qed.
Lemma c93_index_ok : sorts_index (isort Z.of_nat).
Proof. intros l. destruct (isort_sorts Z.of_nat l) as [HP HS]. split; [exact HP|]. clear HP. induction HS as [|a m HS IH HF]; constructor; [exact IH|]. eapply Forall_impl; [|exact HF]. cbn. intros. lia. Qed.
Lemma c93_reverse_ok {A} (key : A -> Z) : sorts_reverse key (isort (fun x => - key x)).
Proof.
  intros l. destruct (isort_sorts (fun x => - key x) l) as [HP HS]. split; [exact HP|]. split.
  - clear HP. induction HS as [|a m HS IH HF]; constructor; [exact IH|]. eapply Forall_impl; [|exact HF]. cbn. intros. lia.
  - intros z. clear HP HS. induction l as [|x l IH]; [reflexivity|]. cbn [isort fold_right]. change (fold_right (insert (fun x => - key x)) [] l) with (isort (fun x => - key x) l). cbn [filter]. rewrite <- IH. clear IH.
    generalize (isort (fun x => - key x) l). clear l. intros l. induction l as [|y l IH]; cbn [insert filter]; [reflexivity|]. destruct (Z.leb_spec (- key x) (- key y)) as [H|H]; [reflexivity|]. cbn [filter]. rewrite IH.
    destruct (Z.eqb_spec (key y) z), (Z.eqb_spec (key x) z); try reflexivity. lia.
Qed.
(** C93: five directories; the second snapshot with redshift 3.5 and the snipshot with it are left out, the empty one too. *)
Example C93_witness : sorts_index (isort Z.of_nat) /\ first_indices c93_unique /\ sorts_reverse c93_key (isort (fun x => - c93_key x)) /\
  map (create_list (fun s => Some (c93_key s)) (fun s => negb (String.eqb s "snapshot_3_z1p0")) (fun l => l) (isort Z.of_nat) (isort (fun x => - c93_key x)) c93_unique
         ["snapshot_0_z9p0"; "snapshot_1_z3p5"; "snapshot_2_z3p5"; "snapshot_3_z1p0"] ["snipshot_1_z5p0"; "snipshot_2_z3p5"]) ["snap"; "snip"; "all"; "none"] =
  [Some ["snapshot_0_z9p0"; "snapshot_1_z3p5"]; Some ["snipshot_1_z5p0"; "snipshot_2_z3p5"]; Some ["snapshot_0_z9p0"; "snipshot_1_z5p0"; "snapshot_1_z3p5"]; None].
Proof. split; [exact c93_index_ok|]. split; [exact c93_unique_ok|]. split; [apply c93_reverse_ok|]. vm_compute. reflexivity. Qed.
