From Coq Require Import List ZArith NArith Bool Lia Arith.
From Coq Require Import ZifyBool ZifyNat ZifyN.
From Verif.Model Require Import Mymath Mpi Gadget.
From Verif.Spec Require Import Basic Gadget.
From Verif.Proofs Require Import MymathProofs MymathProofs2.
Import ListNotations.
Local Open Scope Z_scope.
Ltac Zify.zify_post_hook ::= idtac.

(** * Integers *)
Lemma bytes4 z : bytes_of_int 4 z = bytes_of_int32 z. Proof. reflexivity. Qed.
Lemma bytes_of_int_length n z : length (bytes_of_int n z) = n. Proof. unfold bytes_of_int. rewrite map_length, seq_length. reflexivity. Qed.
Lemma bytes_of_int_bytes n z : Forall is_byte (bytes_of_int n z).
Proof. unfold bytes_of_int, is_byte. rewrite Forall_map. apply Forall_forall. intros k _. pose proof (Z.mod_pos_bound (z / 2 ^ (8 * Z.of_nat k)) 256 ltac:(lia)). lia. Qed.
Lemma int_word n z : word n (bytes_of_int n z). Proof. split; [apply bytes_of_int_length|apply bytes_of_int_bytes]. Qed.
Lemma load32_bytes z k : let b j := Z.to_N ((z / 2 ^ (8 * j)) mod 256) in
  0 <= k -> Z.of_N (load32 (b k) (b (k + 1)) (b (k + 2)) (b (k + 3))) = (z / 2 ^ (8 * k)) mod 2 ^ 32.
Proof.
  intros b Hk. assert (Hb : forall j, (b j < 256)%N) by (intros j; unfold b; pose proof (Z.mod_pos_bound (z / 2 ^ (8 * j)) 256 ltac:(lia)); lia).
  rewrite load32_val by apply Hb. set (y := z / 2 ^ (8 * k)).
  assert (Hy : forall j, 0 <= j -> Z.of_N (b (k + j)) = (y / 2 ^ (8 * j)) mod 256).
  { intros j Hj. unfold b, y. rewrite Z.div_div by (apply Z.pow_nonzero || apply Z.pow_pos_nonneg; lia). rewrite <- Z.pow_add_r by lia. replace (8 * k + 8 * j) with (8 * (k + j)) by lia. rewrite Z2N.id; [reflexivity|]. apply Z.mod_pos_bound. lia. }
  pose proof (Hy 0 ltac:(lia)) as H0. pose proof (Hy 1 ltac:(lia)) as H1. pose proof (Hy 2 ltac:(lia)) as H2. pose proof (Hy 3 ltac:(lia)) as H3.
  rewrite Z.add_0_r in H0. rewrite !N2Z.inj_add, !N2Z.inj_mul, H0, H1, H2, H3. clear.
  change (2 ^ (8 * 0)) with 1. change (2 ^ (8 * 1)) with 256. change (2 ^ (8 * 2)) with 65536. change (2 ^ (8 * 3)) with 16777216. change (2 ^ 32) with 4294967296. rewrite Z.div_1_r. cbn [Z.of_N].
  Z.div_mod_to_equations. lia.
Qed.
Lemma uint32_ok z : 0 <= z < 2 ^ 32 -> uint32_of_bytes (bytes_of_int 4 z) = Some z.
Proof.
  intros Hz. cbn [bytes_of_int uint32_of_bytes map seq]. pose proof (load32_bytes z 0 ltac:(lia)) as H. cbn [Z.add] in H. cbv zeta in H.
  change (Z.of_nat 0) with 0. change (Z.of_nat 1) with 1. change (Z.of_nat 2) with 2. change (Z.of_nat 3) with 3. rewrite H. change (2 ^ (8 * 0)) with 1. rewrite Z.div_1_r, Z.mod_small by lia. reflexivity.
Qed.
Lemma int32_ok z : - 2 ^ 31 <= z < 2 ^ 31 -> int32_of_bytes (bytes_of_int 4 z) = Some z.
Proof.
  intros Hz. cbn [bytes_of_int int32_of_bytes map seq]. pose proof (load32_bytes z 0 ltac:(lia)) as H. cbn [Z.add] in H. cbv zeta in H.
  change (Z.of_nat 0) with 0. change (Z.of_nat 1) with 1. change (Z.of_nat 2) with 2. change (Z.of_nat 3) with 3. rewrite H. change (2 ^ (8 * 0)) with 1. rewrite Z.div_1_r.
  change (2 ^ 32) with 4294967296 in *. change (2 ^ 31) with 2147483648 in *. f_equal. destruct (Z.ltb_spec (z mod 4294967296) 2147483648); Z.div_mod_to_equations; lia.
Qed.
Lemma int64_ok z : - 2 ^ 63 <= z < 2 ^ 63 -> int64_of_bytes (bytes_of_int 8 z) = Some z.
Proof.
  intros Hz. cbn [bytes_of_int int64_of_bytes map seq]. pose proof (load32_bytes z 0 ltac:(lia)) as H. pose proof (load32_bytes z 4 ltac:(lia)) as H'. cbn [Z.add Pos.add Pos.succ] in H, H'. cbv zeta in H, H'.
  change (Z.of_nat 0) with 0. change (Z.of_nat 1) with 1. change (Z.of_nat 2) with 2. change (Z.of_nat 3) with 3. change (Z.of_nat 4) with 4. change (Z.of_nat 5) with 5. change (Z.of_nat 6) with 6. change (Z.of_nat 7) with 7.
  rewrite H, H'. change (2 ^ (8 * 0)) with 1. rewrite Z.div_1_r. change (2 ^ (8 * 4)) with 4294967296.
  change (2 ^ 32) with 4294967296 in *. change (2 ^ 63) with 9223372036854775808 in *. f_equal.
  match goal with |- (if ?a <? _ then _ else _) = _ => destruct (Z.ltb_spec a 9223372036854775808) end; Z.div_mod_to_equations; lia.
Qed.

(** * The cursor between what was read and what follows *)
Definition cur (pre rest : list N) : file := mkfile (pre ++ rest) (Z.of_nat (length pre)).
Lemma cur_app pre b rest : mkfile (pre ++ b ++ rest) (Z.of_nat (length pre + length b)) = cur (pre ++ b) rest.
Proof. unfold cur. rewrite app_assoc, app_length. reflexivity. Qed.
Lemma words_all n es : Forall (word n) es -> all_length n es /\ Forall is_byte (concat es).
Proof. intros H. split; [eapply Forall_impl; [|exact H]; intros e [He _]; exact He|]. apply concat_bytes_sub. eapply Forall_impl; [|exact H]. intros e [_ He]; exact He. Qed.
Lemma stored_len sw sz (es : list (list N)) : all_length sz es -> length (concat (map (stored sw) es)) = (length es * sz)%nat.
Proof. intros H. rewrite (concat_length_all sz), map_length; [reflexivity|]. unfold all_length. rewrite Forall_map. eapply Forall_impl; [|exact H]. intros e He. rewrite stored_length. exact He. Qed.
Lemma fread_swap_cur pre (es : list (list N)) rest sw sz : Forall (word sz) es ->
  fread_swap sz (length es) sw (cur pre (concat (map (stored sw) es) ++ rest)) = Some (concat es, cur (pre ++ concat (map (stored sw) es)) rest).
Proof.
  intros H. destruct (words_all _ _ H) as [H1 H2]. unfold cur at 1. rewrite (fread_swap_members pre es rest sw sz H1 H2). rewrite <- (stored_len sw sz es H1), cur_app. reflexivity.
Qed.
Lemma mapM_dec {A} (dec : list N -> option A) (g : A -> list N) l : (forall x, In x l -> dec (g x) = Some x) -> mapM dec (map g l) = Some l.
Proof. induction l as [|x l IH]; intros H; [reflexivity|]. cbn [map mapM]. rewrite (H x (or_introl eq_refl)), IH by (intros y Hy; apply H; right; exact Hy). reflexivity. Qed.
Lemma read_ints_cur dec pre (zs : list Z) rest sw : (forall z, In z zs -> dec (bytes_of_int 4 z) = Some z) ->
  read_ints dec (length zs) sw (cur pre (concat (map (stored sw) (map (bytes_of_int 4) zs)) ++ rest)) = Some (zs, cur (pre ++ concat (map (stored sw) (map (bytes_of_int 4) zs))) rest).
Proof.
  intros H. assert (HW : Forall (word 4) (map (bytes_of_int 4) zs)) by (apply Forall_forall; intros b Hb; apply in_map_iff in Hb as (z & <- & _); apply int_word).
  unfold read_ints. rewrite <- (map_length (bytes_of_int 4) zs) at 1. rewrite fread_swap_cur by exact HW. rewrite <- (map_length (bytes_of_int 4) zs) at 1. rewrite members_concat by (apply (words_all _ _ HW)). rewrite mapM_dec by exact H. reflexivity.
Qed.
Lemma read_doubles_cur pre (es : list (list N)) rest sw : Forall (word 8) es ->
  read_doubles (length es) sw (cur pre (concat (map (stored sw) es) ++ rest)) = Some (es, cur (pre ++ concat (map (stored sw) es)) rest).
Proof. intros H. unfold read_doubles. rewrite fread_swap_cur by exact H. rewrite members_concat by (apply (words_all _ _ H)). reflexivity. Qed.
Lemma read_int_cur pre z rest sw : - 2 ^ 31 <= z < 2 ^ 31 ->
  read_int sw (cur pre (stored sw (bytes_of_int 4 z) ++ rest)) = Some (z, cur (pre ++ stored sw (bytes_of_int 4 z)) rest).
Proof.
  intros H. unfold read_int. pose proof (read_ints_cur int32_of_bytes pre [z] rest sw) as E. cbn [map concat length] in E. rewrite app_nil_r in E. rewrite E; [reflexivity|].
  intros y [<-|[]]. apply int32_ok. exact H.
Qed.
Lemma read_double_cur pre b rest sw : word 8 b -> read_double sw (cur pre (stored sw b ++ rest)) = Some (b, cur (pre ++ stored sw b) rest).
Proof.
  intros H. unfold read_double. pose proof (read_doubles_cur pre [b] rest sw) as E. cbn [map concat length] in E. rewrite app_nil_r in E. rewrite E; [reflexivity|]. constructor; [exact H|constructor].
Qed.
Lemma fortran_read_cur pre rest sw sz (es : list (list N)) n_read n_skip : Forall (word sz) es -> Z.of_nat (length es * sz) < 2 ^ 31 -> (n_skip + n_read <= length es)%nat ->
  fortran_read sz n_read n_skip sw (cur pre (record sw es ++ rest)) = Some (firstn n_read (skipn n_skip es), cur (pre ++ record sw es) rest).
Proof.
  intros H Hl Hn. destruct (words_all _ _ H) as [H1 H2]. unfold cur at 1. rewrite (fortran_read_correct pre rest sw sz es n_read n_skip H1 H2 Hl Hn). unfold cur. rewrite app_assoc. reflexivity.
Qed.
Lemma skip_cur pre rest sw sz (es : list (list N)) : Forall (word sz) es -> Z.of_nat (length es * sz) < 2 ^ 31 ->
  skip_fortran_block sw (cur pre (record sw es ++ rest)) = Some (Z.of_nat (length es * sz), cur (pre ++ record sw es) rest).
Proof. intros H Hl. destruct (words_all _ _ H) as [H1 H2]. unfold cur at 1. rewrite (skip_fortran_block_correct pre rest sw sz es H1 H2 Hl). unfold cur. rewrite app_assoc. reflexivity. Qed.

(** * The header *)
Definition header_of (c : content) : header :=
  mkheader (map (fun l => Z.of_nat (length l)) (c_types c)) (c_table c) (c_time c) (c_totals c) (c_files c) (c_box c).
Definition header_words (c : content) : list (list N) :=
  map (fun l => bytes_of_int 4 (Z.of_nat (length l))) (c_types c) ++ c_table c ++ [c_time c; c_redshift c] ++
                 [bytes_of_int 4 (c_sfr c); bytes_of_int 4 (c_feedback c)] ++ map (bytes_of_int 4) (c_totals c) ++
                 [bytes_of_int 4 (c_cooling c); bytes_of_int 4 (c_files c)] ++ [c_box c; c_omega_m c; c_omega_l c; c_hubble c] ++ [c_fill c].
Lemma cons_app {A} (x : A) l : x :: l = [x] ++ l. Proof. reflexivity. Qed.
Lemma header_read c sw rest : length (c_types c) = 6%nat -> Forall (word 8) (c_table c) -> length (c_table c) = 6%nat ->
  length (c_totals c) = 6%nat -> Forall (fun z => 0 <= z < 2 ^ 32) (c_totals c) ->
  Forall (word 8) [c_time c; c_redshift c; c_box c; c_omega_m c; c_omega_l c; c_hubble c] ->
  Forall fits_int [c_sfr c; c_feedback c; c_cooling c; c_files c] -> word 96 (c_fill c) ->
  (forall l, In l (c_types c) -> Z.of_nat (length l) < 2 ^ 31) ->
  read_header (cur [] (record sw (header_words c) ++ rest)) = Some (sw, header_of c, cur (record sw (header_words c)) rest).
Proof.
  intros L1 W2 L2 L3 W3 W4 W5 W6 W7.
  assert (HP : length (concat (map (stored sw) (header_words c))) = 256%nat).
  { unfold header_words. rewrite !map_app, !concat_app, !app_length. cbn [map concat]. rewrite !app_length, !stored_length, !bytes_of_int_length.
    rewrite (stored_len sw 4), map_length, L1 by (apply Forall_forall; intros b Hb; apply in_map_iff in Hb as (z & <- & _); apply bytes_of_int_length).
    rewrite (stored_len sw 8), L2 by (apply (words_all _ _ W2)).
    rewrite (stored_len sw 4), map_length, L3 by (apply Forall_forall; intros b Hb; apply in_map_iff in Hb as (z & <- & _); apply bytes_of_int_length).
    repeat match goal with H : Forall (word 8) (_ :: _) |- _ => inversion H; clear H; subst end. repeat match goal with H : word _ _ |- _ => destruct H as [? _] end. cbn [length]. lia. }
  unfold record. rewrite HP. change (Z.of_nat 256) with 256. set (marker := stored sw (bytes_of_int32 256)). rewrite <- !app_assoc.
  unfold read_header.
  assert (E0 : fread 4 (cur [] (marker ++ concat (map (stored sw) (header_words c)) ++ marker ++ rest)) = Some (marker, cur marker (concat (map (stored sw) (header_words c)) ++ marker ++ rest))).
  { unfold cur at 1. pose proof (fread_at [] marker (concat (map (stored sw) (header_words c)) ++ marker ++ rest) 4) as E. cbn [app length] in E. cbn [app length]. rewrite E by (unfold marker; rewrite stored_length; reflexivity). cbn [Nat.add]. unfold cur. reflexivity. }
  rewrite E0. cbn iota beta.
  assert (E1 : exists d, int32_of_bytes marker = Some d /\ (if d =? header_size then Some false else if d =? 65536 then Some true else None) = Some sw).
  { unfold marker. destruct sw; eexists; split; reflexivity. }
  destruct E1 as (d & E1 & E1'). rewrite E1. change (swap_Nbyte 1 4 (store32 (Z.to_N header_size))) with (Some [0; 0; 1; 0]%N). cbn iota beta. change (int32_of_bytes [0; 0; 1; 0]%N) with (Some 65536). cbn iota beta. rewrite E1'. cbn iota beta.
  (* the fields *)
  unfold header_words at 1. rewrite !map_app, !concat_app. cbn [map concat]. rewrite !app_nil_r. rewrite <- !app_assoc.
  inversion W4 as [|? ? A1 W4']; inversion W4' as [|? ? A2 W4'']; inversion W4'' as [|? ? A3 W4a]; inversion W4a as [|? ? A4 W4b]; inversion W4b as [|? ? A5 W4c]; inversion W4c as [|? ? A6 _]. clear W4 W4' W4'' W4a W4b W4c. subst.
  inversion W5 as [|? ? B1 W5']; inversion W5' as [|? ? B2 W5'']; inversion W5'' as [|? ? B3 W5a]; inversion W5a as [|? ? B4 _]. clear W5 W5' W5'' W5a. subst. unfold fits_int in *.
  rewrite <- (map_map (fun l => Z.of_nat (@length stored_particle l)) (bytes_of_int 4)).
  unfold type_max. rewrite <- L1 at 1. rewrite <- (map_length (fun l => Z.of_nat (@length stored_particle l)) (c_types c)) at 1.
  rewrite read_ints_cur by (intros z Hz; apply in_map_iff in Hz as (l & <- & Hl); apply int32_ok; specialize (W7 l Hl); lia). cbn iota beta.
  rewrite <- L2 at 1. rewrite read_doubles_cur by exact W2. cbn iota beta.
  rewrite read_double_cur by exact A1. cbn iota beta. rewrite read_double_cur by exact A2. cbn iota beta.
  rewrite read_int_cur by lia. cbn iota beta. rewrite read_int_cur by lia. cbn iota beta.
  rewrite <- L3 at 1. rewrite read_ints_cur by (intros z Hz; apply uint32_ok; rewrite Forall_forall in W3; apply W3; exact Hz). cbn iota beta.
  rewrite read_int_cur by lia. cbn iota beta. rewrite read_int_cur by lia. cbn iota beta.
  rewrite read_double_cur by exact A3. cbn iota beta. rewrite read_double_cur by exact A4. cbn iota beta. rewrite read_double_cur by exact A5. cbn iota beta. rewrite read_double_cur by exact A6. cbn iota beta.
  match goal with |- context [mkfile (bytes ?f) (header_size + 4)] => assert (EF : mkfile (bytes f) (header_size + 4) = cur (marker ++ concat (map (stored sw) (header_words c))) (marker ++ rest)) end.
  { unfold cur. cbn [bytes]. f_equal.
    - unfold header_words. rewrite !map_app, !concat_app. cbn [map concat]. rewrite !app_nil_r, <- !app_assoc. rewrite <- (map_map (fun l => Z.of_nat (@length stored_particle l)) (bytes_of_int 4)). reflexivity.
    - rewrite app_length, HP. unfold marker. rewrite stored_length. reflexivity. }
  rewrite EF. unfold marker at 2. change (bytes_of_int32 256) with (bytes_of_int 4 256) at 1. rewrite read_int_cur by lia. cbn iota beta. rewrite Z.eqb_refl.
  unfold header_of. fold marker. rewrite <- !app_assoc. reflexivity.
Qed.
