(** Building the octree: the cells represent a tree whose leaves are the particles inserted so far. *)
From Coq Require Import List ZArith QArith Bool Lia Lqa Sorting.Permutation.
From Verif.Model Require Import ListMem Run Mymath Tree.
From Verif.Spec Require Import Basic Octree.
From Verif.Proofs Require Import ListMemProofs ListExtra.
Import ListNotations.
Local Open Scope nat_scope.

(** The tree represented by the cells; only the sons 0..7 matter. *)
Inductive ot := OEmpty | OLeaf (i : nat) | OCell (id : Z) (sons : nat -> ot).
Definition set_at (sons : nat -> ot) (k : nat) (t : ot) : nat -> ot := fun j => if j =? k then t else sons j.
Definition root (t : ot) : Z := match t with OEmpty => (-1)%Z | OLeaf i => Z.of_nat i | OCell id _ => id end.
Fixpoint leaves (t : ot) : list nat :=
  match t with OEmpty => [] | OLeaf i => [i] | OCell _ sons => flat_map (fun k => leaves (sons k)) (seq 0 8) end.
Fixpoint cellids (t : ot) : list Z :=
  match t with OEmpty => [] | OLeaf i => [] | OCell id sons => id :: flat_map (fun k => cellids (sons k)) (seq 0 8) end.
Fixpoint full (t : ot) : Prop :=
  match t with OEmpty => True | OLeaf _ => True | OCell _ sons => (exists k, k < 8 /\ sons k <> OEmpty) /\ forall k, k < 8 -> full (sons k) end.

Lemma flat_map_set {A B} (eqb_k : nat) (f g : nat -> list A) (P : B) (l : list nat) e : NoDup l -> In eqb_k l ->
  (forall j, In j l -> j <> eqb_k -> g j = f j) -> Permutation (g eqb_k) (e ++ f eqb_k) -> Permutation (flat_map g l) (e ++ flat_map f l).
Proof.
  intros ND Hin Ho HP. induction l as [|a l IH]; [destruct Hin|]. cbn [flat_map]. apply NoDup_cons_iff in ND as [Hna ND].
  destruct (Nat.eq_dec a eqb_k) as [->|Hne].
  - assert (flat_map g l = flat_map f l) as ->.
    { rewrite !flat_map_concat_map. f_equal. apply map_ext_in. intros j Hj. apply Ho; [right; exact Hj|congruence]. }
    rewrite app_assoc. apply Permutation_app_tail. exact HP.
  - destruct Hin as [->|Hin]; [congruence|]. rewrite (Ho a) by (auto; left; reflexivity).
    rewrite IH; [|auto|auto|intros j Hj; apply Ho; right; exact Hj]. rewrite !app_assoc. apply Permutation_app_tail. apply Permutation_app_comm.
Qed.
Lemma in8 k : k < 8 <-> In k (seq 0 8).
Proof. rewrite in_seq. lia. Qed.
Lemma leaves_set id sons k t e : k < 8 -> Permutation (leaves t) (e ++ leaves (sons k)) ->
  Permutation (leaves (OCell id (set_at sons k t))) (e ++ leaves (OCell id sons)).
Proof.
  intros Hk HP. cbn [leaves]. apply (flat_map_set k _ _ tt); [apply seq_NoDup|apply in8; exact Hk| |].
  - intros j _ Hj. unfold set_at. destruct (Nat.eqb_spec j k); [congruence|reflexivity].
  - unfold set_at. rewrite Nat.eqb_refl. exact HP.
Qed.
Lemma cellids_set id sons k t e : k < 8 -> Permutation (cellids t) (e ++ cellids (sons k)) ->
  Permutation (cellids (OCell id (set_at sons k t))) (e ++ cellids (OCell id sons)).
Proof.
  intros Hk HP. cbn [cellids]. rewrite <- Permutation_middle. constructor. apply (flat_map_set k _ _ tt); [apply seq_NoDup|apply in8; exact Hk| |].
  - intros j _ Hj. unfold set_at. destruct (Nat.eqb_spec j k); [congruence|reflexivity].
  - unfold set_at. rewrite Nat.eqb_refl. exact HP.
Qed.

(** Reading and writing sons. *)
Section Cells.
  Context {W : Type}.
  Variable ps : list vec.
  Local Notation N := (Z.of_nat (length ps)).
  Implicit Types cells : list (cell W).

  Fixpoint rep cells (t : ot) : Prop :=
    match t with
    | OEmpty => True
    | OLeaf i => i < length ps
    | OCell id sons => exists l, zget cells (id - N) = Some (Sons l) /\ length l = 8 /\
                         forall k, k < 8 -> nth_error l k = Some (root (sons k)) /\ rep cells (sons k)
    end.
  Lemma rep_frame cells cells' t : rep cells t -> (forall id, In id (cellids t) -> zget cells' (id - N) = zget cells (id - N)) -> rep cells' t.
  Proof.
    induction t as [|i|id sons IH]; cbn [rep cellids]; auto. intros (l & Hl & H8 & Hs) HF. exists l.
    rewrite HF by (left; reflexivity). split; [exact Hl|]. split; [exact H8|]. intros k Hk. destruct (Hs k Hk) as [Hn Hr]. split; [exact Hn|].
    apply IH; [exact Hr|]. intros j Hj. apply HF. right. apply in_flat_map. exists k. split; [apply in8; exact Hk|exact Hj].
  Qed.
  Lemma rep_bounds cells t id : rep cells t -> In id (cellids t) -> (N <= id < N + Z.of_nat (length cells))%Z.
  Proof.
    induction t as [|i|id' sons IH]; cbn [rep cellids]; [intros _ []|intros _ []|]. intros (l & Hl & H8 & Hs) [->|Hin].
    - apply zget_some in Hl. lia.
    - apply in_flat_map in Hin as (k & Hk & Hin). apply in8 in Hk. apply (IH k); [apply Hs; exact Hk|exact Hin].
  Qed.
  Lemma rep_leaves cells t i : rep cells t -> In i (leaves t) -> i < length ps.
  Proof.
    induction t as [|j|id' sons IH]; cbn [rep leaves]; [intros _ []|intros H [->|[]]; exact H|]. intros (l & Hl & H8 & Hs) Hin.
    apply in_flat_map in Hin as (k & Hk & Hin). apply in8 in Hk. apply (IH k); [apply Hs; exact Hk|exact Hin].
  Qed.
  Lemma get_son_rep cells id sons k : rep cells (OCell id sons) -> k < 8 -> get_son ps cells id k = Some (root (sons k)).
  Proof. intros (l & Hl & H8 & Hs) Hk. unfold get_son. rewrite Hl. apply Hs. exact Hk. Qed.
  Lemma set_son_ok cells node l k v : zget cells (node - N) = Some (Sons l) -> k < length l ->
    exists cells' l', set_son ps cells node k v = Some cells' /\ upd l k v = Some l' /\ length cells' = length cells /\
      zget cells' (node - N) = Some (Sons l') /\ (forall j, j <> (node - N)%Z -> zget cells' j = zget cells j).
  Proof.
    intros Hl Hk. unfold set_son. rewrite Hl. destruct (upd_some l k v Hk) as (l' & Hu). rewrite Hu.
    destruct (zupd_some cells (node - N)%Z (Sons l') (zget_some _ _ _ Hl)) as (cells' & Hz). exists cells', l'. rewrite Hz.
    split; [reflexivity|]. split; [reflexivity|]. split; [apply (zupd_length _ _ _ _ Hz)|]. split.
    - rewrite (zget_zupd _ _ _ _ _ Hz), Z.eqb_refl. reflexivity.
    - intros j Hj. rewrite (zget_zupd _ _ _ _ _ Hz). apply Z.eqb_neq in Hj. rewrite Hj. reflexivity.
  Qed.
  Lemma zget_append cells j : (j < Z.of_nat (length cells))%Z -> zget (append_cell cells) j = zget cells j.
  Proof.
    intros Hj. unfold append_cell, zget. destruct (Z.ltb_spec j 0); [reflexivity|]. apply nth_error_app1. lia.
  Qed.
  Lemma zget_appended cells : zget (append_cell cells) (Z.of_nat (length cells)) = Some (Sons (repeat (-1)%Z 8)).
  Proof. unfold append_cell. rewrite zget_nat by lia. rewrite Nat2Z.id, nth_error_app2, Nat.sub_diag by lia. reflexivity. Qed.
  Lemma length_append cells : length (append_cell cells) = S (length cells).
  Proof. unfold append_cell. rewrite app_length. cbn. lia. Qed.

  Lemma reassemble cells node l sons k t : zget cells (node - N) = Some (Sons l) -> length l = 8 -> k < 8 ->
    (forall j, j < 8 -> nth_error l j = Some (root (set_at sons k t j))) ->
    rep cells t -> (forall j, j < 8 -> j <> k -> rep cells (sons j)) -> rep cells (OCell node (set_at sons k t)).
  Proof.
    intros Hl H8 Hk Hn Ht Ho. cbn [rep]. exists l. split; [exact Hl|]. split; [exact H8|]. intros j Hj. split; [apply Hn; exact Hj|].
    unfold set_at. destruct (Nat.eqb_spec j k); [exact Ht|apply Ho; assumption].
  Qed.
  Lemma upd_sons (sons : nat -> ot) (l l' : list Z) k t : (forall j, j < 8 -> nth_error l j = Some (root (sons j))) -> upd l k (root t) = Some l' ->
    forall j, j < 8 -> nth_error l' j = Some (root (set_at sons k t j)).
  Proof.
    intros Hn Hu j Hj. rewrite (upd_nth _ _ _ j _ Hu). unfold set_at. destruct (Nat.eqb_spec j k); [reflexivity|apply Hn; exact Hj].
  Qed.
  Definition wf cells t : Prop := rep cells t /\ NoDup (cellids t).
  Definition new_ids cells cells' : list Z := map (fun c => Z.of_nat (length ps + c)) (seq (length cells) (length cells' - length cells)).
  Definition grown cells cells' i t t' : Prop :=
    wf cells' t' /\ Permutation (leaves t') (i :: leaves t) /\ Permutation (cellids t') (new_ids cells cells' ++ cellids t) /\
    length cells <= length cells' /\
    forall id, ~ In id (cellids t) -> (id - N < Z.of_nat (length cells))%Z -> zget cells' (id - N) = zget cells (id - N).

  Lemma NoDup_app_disj {A} (l l' : list A) x : NoDup (l ++ l') -> In x l -> In x l' -> False.
  Proof. induction l as [|y l IH]; [intros _ []|]. cbn. intros ND [->|H] H'; apply NoDup_cons_iff in ND as [Hn ND]; [apply Hn, in_or_app; auto|eapply IH; eauto]. Qed.
  Lemma son_disjoint id sons k j x : NoDup (cellids (OCell id sons)) -> k < 8 -> j < 8 -> j <> k -> In x (cellids (sons j)) -> ~ In x (cellids (sons k)).
  Proof.
    cbn [cellids]. intros ND Hk Hj Hne Hx Hx'. apply NoDup_cons_iff in ND as [_ ND].
    assert (G : forall l, NoDup l -> In k l -> In j l -> NoDup (flat_map (fun k => cellids (sons k)) l) -> False); [|apply (G (seq 0 8)); auto using seq_NoDup; apply in8; assumption].
    induction l as [|a l IH]; [intros _ []|]. cbn [flat_map]. intros ND1 Hki Hji ND2. apply NoDup_cons_iff in ND1 as [Hna ND1].
    assert (ND3 : NoDup (flat_map (fun k => cellids (sons k)) l)) by (apply NoDup_app_remove_l in ND2; exact ND2).
    destruct Hki as [->|Hki], Hji as [->|Hji]; [congruence| | |auto].
    - apply (NoDup_app_disj _ _ x ND2 Hx'). apply in_flat_map. eauto.
    - apply (NoDup_app_disj _ _ x ND2 Hx). apply in_flat_map. eauto.
  Qed.
  Lemma son_not_id id sons k : NoDup (cellids (OCell id sons)) -> k < 8 -> ~ In id (cellids (sons k)).
  Proof. cbn [cellids]. intros ND Hk Hin. apply NoDup_cons_iff in ND as [Hn _]. apply Hn, in_flat_map. exists k. split; [apply in8; exact Hk|exact Hin]. Qed.
  Lemma son_nodup id sons k : NoDup (cellids (OCell id sons)) -> k < 8 -> NoDup (cellids (sons k)).
  Proof.
    cbn [cellids]. intros ND Hk. apply NoDup_cons_iff in ND as [_ ND]. apply in8 in Hk. apply in_split in Hk as (a & b & Hab). rewrite Hab in ND.
    rewrite flat_map_app in ND. apply NoDup_app_remove_l in ND. cbn [flat_map] in ND. apply NoDup_app_remove_r in ND. exact ND.
  Qed.
  Lemma grown_nodup cells cells' t l : rep cells t -> NoDup (cellids t) -> Permutation l (new_ids cells cells' ++ cellids t) -> NoDup l.
  Proof.
    intros HR ND HP. apply (Permutation_NoDup (Permutation_sym HP)). unfold new_ids.
    assert (ND0 : NoDup (map (fun c => Z.of_nat (length ps + c)) (seq (length cells) (length cells' - length cells)))).
    { apply NoDup_map_inj; [intros; lia|apply seq_NoDup]. }
    assert (HD : forall x, In x (map (fun c => Z.of_nat (length ps + c)) (seq (length cells) (length cells' - length cells))) -> ~ In x (cellids t)).
    { intros x Hx Hx'. apply in_map_iff in Hx as (c & <- & Hc). apply in_seq in Hc. pose proof (rep_bounds _ _ _ HR Hx'). lia. }
    clear HP HR. revert ND0 HD. generalize (map (fun c => Z.of_nat (length ps + c)) (seq (length cells) (length cells' - length cells))). intros l1. induction l1 as [|a l1 IH]; intros ND0 HD; [exact ND|].
    cbn. apply NoDup_cons_iff in ND0 as [Ha ND0]. constructor.
    - intros Hin. apply in_app_or in Hin as [Hin|Hin]; [contradiction|]. apply (HD a); [left; reflexivity|exact Hin].
    - apply IH; [exact ND0|]. intros x Hx. apply HD. right. exact Hx.
  Qed.

  (** Insertion into a son, seen from the cell. *)
  Lemma grown_son cells cells' node sons k i t' : wf cells (OCell node sons) -> k < 8 -> grown cells cells' i (sons k) t' -> root t' = root (sons k) ->
    grown cells cells' i (OCell node sons) (OCell node (set_at sons k t')).
  Proof.
    intros [HR ND] Hk ([HR' ND'] & HL & HC & Hlen & HF) Hroot. pose proof HR as HR0. destruct HR as (l & Hl & H8 & Hs).
    assert (HC' : Permutation (cellids (OCell node (set_at sons k t'))) (new_ids cells cells' ++ cellids (OCell node sons))) by (apply cellids_set; assumption).
    assert (Hl' : zget cells' (node - N) = Some (Sons l)).
    { rewrite HF; [exact Hl|apply (son_not_id _ _ _ ND Hk)|]. apply zget_some in Hl. lia. }
    split; [split|].
    - apply (reassemble cells' node l); auto.
      + intros j Hj. unfold set_at. destruct (Nat.eqb_spec j k) as [->|]; [rewrite Hroot; apply Hs; exact Hk|apply Hs; exact Hj].
      + intros j Hj Hne. apply (rep_frame cells); [apply Hs; exact Hj|]. intros id Hid. apply HF; [apply (son_disjoint _ _ _ _ _ ND Hk Hj Hne Hid)|].
        pose proof (rep_bounds _ _ _ (proj2 (Hs j Hj)) Hid). lia.
    - eapply grown_nodup; eauto.
    - split; [apply (leaves_set node sons k t' [i]); [exact Hk|exact HL]|]. split; [exact HC'|]. split; [exact Hlen|].
      intros id Hid Hb. apply HF; [|exact Hb]. intros Hin. apply Hid. cbn [cellids]. right. apply in_flat_map. exists k. split; [apply in8; exact Hk|exact Hin].
  Qed.
End Cells.
