(** Program start. *)
From Coq Require Import List ZArith QArith Bool Ascii String Lia.
From Verif.Spec Require Import Config Startup.
From Verif.Model Require Import ListMem Config Startup.
From Verif.Proofs Require Import MpiProofs ConfigProofs ConfigValueProofs.
Import ListNotations.
Local Open Scope Z_scope.
Local Arguments is_space : simpl never.
Local Arguments mem : simpl never.

Lemma join_getlines l : Forall one_line l -> getlines (join_lines l) = l.
Proof. intros H. change (join_lines l) with (unlines l). rewrite <- (app_nil_r (unlines l)), getlines_unlines by exact H. apply app_nil_r. Qed.

Lemma sync_fields_nth root r : forall fs l, nth_error l root = Some r ->
  exists l', sync_fields root l fs = Some l' /\ List.length l' = List.length l /\ nth_error l' root = Some r /\
    forall i s, nth_error l i = Some s -> i <> root -> nth_error l' i = Some (fold_left (fun m f => receive f r m) fs s).
Proof.
  induction fs as [|f fs IH]; intros l Hr; [exists l; split; [reflexivity|]; split; [reflexivity|]; split; [exact Hr|]; intros i s Hi _; exact Hi|].
  cbn [sync_fields]. unfold sync_field. rewrite Hr. set (l1 := map _ _).
  assert (HL : List.length l1 = List.length l) by (unfold l1; rewrite map_length, combine_length, seq_length; lia).
  assert (HN : forall i s, nth_error l i = Some s -> nth_error l1 i = Some (if Nat.eqb i root then s else receive f r s)).
  { intros i s Hi. unfold l1. assert (Hlt : (i < List.length l)%nat) by (apply nth_error_Some; congruence).
    assert (Hs : nth_error (seq 0 (List.length l)) i = Some i) by (rewrite nth_error_nth' with (d := 0%nat) by (rewrite seq_length; exact Hlt); rewrite seq_nth by exact Hlt; reflexivity).
    rewrite nth_error_map, (combine_nth_error _ _ i i s Hs Hi). reflexivity. }
  pose proof (HN root r Hr) as Hr1. rewrite Nat.eqb_refl in Hr1. destruct (IH l1 Hr1) as (l' & E & HL' & Hr' & HN'). exists l'. split; [exact E|]. split; [lia|]. split; [exact Hr'|].
  intros i s Hi Hne. specialize (HN i s Hi). apply Nat.eqb_neq in Hne as Hb. rewrite Hb in HN. exact (HN' i _ HN Hne).
Qed.
Lemma all_received r m : Forall one_line (s_names r) -> same_settings (fold_left (fun m f => receive f r m) sync_order m) r.
Proof.
  intros Hn. cbn [fold_left sync_order receive s_conf s_names s_angle2 s_res s_reshalf s_half s_loaded s_G s_H0 c_val c_set c_ids set_val].
  unfold same_settings. cbn [s_conf s_names s_angle2 s_res s_reshalf s_half s_loaded s_G s_H0 c_val c_set c_ids set_val].
  split; [intros p; destruct p; reflexivity|]. repeat split. apply join_getlines. exact Hn.
Qed.
Lemma same_refl s : same_settings s s.
Proof. repeat split. Qed.
Lemma broadcast_same root l r : nth_error l root = Some r -> Forall one_line (s_names r) ->
  exists l', broadcast root l = Some l' /\ List.length l' = List.length l /\ nth_error l' root = Some r /\ Forall (fun s => same_settings s r) l'.
Proof.
  intros Hr Hn. destruct (sync_fields_nth root r sync_order l Hr) as (l' & E & HL & Hr' & HN). exists l'. split; [exact E|]. split; [exact HL|]. split; [exact Hr'|].
  apply Forall_forall. intros s Hs. apply In_nth_error in Hs as [i Hi]. destruct (Nat.eq_dec i root) as [->|Hne]; [replace s with r by congruence; apply same_refl|].
  assert (Hlt : (i < List.length l)%nat) by (rewrite <- HL; apply nth_error_Some; congruence). destruct (nth_error l i) as [s0|] eqn:E0; [|apply nth_error_None in E0; lia].
  specialize (HN i s0 E0 Hne). replace s with (fold_left (fun m f => receive f r m) sync_order s0) by congruence. apply all_received. exact Hn.
Qed.

(** The names read are single words. *)
Lemma read_names_words f : Forall word (read_names f).
Proof.
  destruct f as [s|]; [|constructor]. unfold read_names. apply Forall_forall. intros n Hn. apply filter_In in Hn as [Hi Hne]. apply in_map_iff in Hi as (l & <- & _).
  destruct (take_word (skip_ws (trim_trailing l ["#"%char]))) as [w rest] eqn:E. cbn [fst] in *. destruct (take_word_inv _ _ _ E) as (_ & Hw & _). split; [destruct w; [discriminate|discriminate]|exact Hw].
Qed.
Lemma word_one_line w : word w -> one_line w.
Proof. intros [_ H] Hi. rewrite Forall_forall in H. specialize (H _ Hi). discriminate. Qed.

Section S.
  Variable read_real : text -> Q.
  Variable hbt_min hbt_max : Z.
  Local Notation parse_params := (parse_params read_real hbt_min hbt_max).
  Local Notation parse_config := (parse_config read_real hbt_min hbt_max).
  Lemma parse_params_started args file names s a b : parse_params args file names = Started s a b ->
    exists c, parse_config file = Accepted c /\ s = derive c (read_names names) /\
      (read_names names = [] \/ c_val c MaxSnapshotIndex = VInt (Z.of_nat (List.length (read_names names)) - 1)).
  Proof.
    unfold Startup.parse_params, parse_file. destruct args as [|x args]; [discriminate|]. destruct (parse_config file) as [c| | | |]; try discriminate.
    intros H. exists c. split; [reflexivity|]. destruct (read_names names) as [|n ns].
    - split; [|left; reflexivity]. destruct args as [|y [|z r]]; injection H as <- _ _; reflexivity.
    - destruct (value_eqZ _ _) eqn:Ev; [|discriminate]. split; [destruct args as [|y [|z r]]; injection H as <- _ _; reflexivity|]. right.
      unfold value_eqZ in Ev. destruct (c_val c MaxSnapshotIndex); try discriminate. apply Z.eqb_eq in Ev. congruence.
  Qed.
  Lemma parse_params_range prog more file names s a b : parse_params (prog :: more) file names = Started s a b ->
    match more with
    | [] => (a, b) = (int_of (c_val (s_conf s) MinSnapshotIndex), int_of (c_val (s_conf s) MaxSnapshotIndex))
    | [x] => (a, b) = (atoi x, atoi x) | x :: y :: _ => (a, b) = (atoi x, atoi y) end.
  Proof.
    unfold Startup.parse_params. destruct (parse_file _ _ _ file names) as [[c| | | |] [s'|]]; try discriminate. destruct more as [|x [|y r]]; intros H; injection H as <- <- <-; reflexivity.
  Qed.
  Lemma start_up_same args file names s a b others : parse_params args file names = Started s a b ->
    exists l, start_up (Started s a b) others = Some l /\ List.length l = S (List.length others) /\ Forall (fun x => same_settings (fst x) s /\ snd x = (a, b)) l.
  Proof.
    intros H. destruct (parse_params_started _ _ _ _ _ _ H) as (c & _ & Es & _).
    destruct (broadcast_same 0 (s :: others) s eq_refl) as (l & E & HL & _ & HS).
    - rewrite Es. cbn. eapply Forall_impl; [|apply (read_names_words names)]. intros w. apply word_one_line.
    - exists (map (fun x => (x, (a, b))) l). unfold start_up. rewrite E. split; [reflexivity|]. rewrite map_length. split; [exact HL|].
      apply Forall_forall. intros x Hx. apply in_map_iff in Hx as (y & <- & Hy). rewrite Forall_forall in HS. split; [apply HS; exact Hy|reflexivity].
  Qed.
End S.
