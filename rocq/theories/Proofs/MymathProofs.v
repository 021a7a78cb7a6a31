From Coq Require Import List ZArith NArith QArith Qround Bool Lia Lqa Arith.
From Coq Require Import ZifyBool ZifyNat ZifyN Sorting.Sorted.
From Verif.Model Require Import Mymath.
From Verif.Spec Require Import Basic.
Import ListNotations.
Local Open Scope Z_scope.
Ltac Zify.zify_post_hook ::= Z.div_mod_to_equations.

(** * AssignTasks *)

Definition task_begin_of (w n t : Z) : Z := t / n * w + Z.min (t mod n) w.

Lemma assign_tasks_eq w n t : 0 < n -> 0 <= t -> 0 <= w < n ->
  assign_tasks w n t = Some (task_begin_of w n t, task_begin_of (w + 1) n t).
Proof.
  intros Hn Ht Hw. unfold assign_tasks, task_begin_of.
  destruct (Z.eqb_spec n 0); [lia|].
  rewrite Z.rem_mod_nonneg, Z.quot_div_nonneg by lia.
  pose proof (Z.mod_pos_bound t n Hn) as Hm.
  pose proof (Z.div_mod t n ltac:(lia)) as Hd.
  pose proof (Z.div_pos t n Ht Hn) as Hq.
  set (q := t / n) in *. set (r := t mod n) in *. clearbody q r.
  assert (Hend : (if w <? r then q + 1 else q) + (q * w + Z.min r w) = q * (w + 1) + Z.min r (w + 1)).
  { destruct (Z.ltb_spec w r); nia. }
  rewrite Hend.
  destruct (Z.leb_spec (q * (w + 1) + Z.min r (w + 1)) t); [reflexivity|].
  exfalso. assert (q * (w+1) <= q * n) by nia. destruct (Z.min_spec r (w+1)) as [[? E]|[? E]]; rewrite E in *; nia.
Qed.

Lemma tiles_app lo mid hi a b : tiles lo mid a -> tiles mid hi b -> tiles lo hi (a ++ b).
Proof.
  revert lo. induction a as [|[x y] a IH]; simpl; intros lo Ha Hb.
  - subst; exact Hb.
  - destruct Ha as (-> & Hxy & Ha). auto.
Qed.

Lemma tiles_bounds lo hi ivs : tiles lo hi ivs -> lo <= hi.
Proof.
  revert lo; induction ivs as [|[a b] r IH]; simpl; intros lo H; [lia|].
  destruct H as (-> & Hab & H). apply IH in H. lia.
Qed.

Lemma tiles_nth_bounds lo hi ivs i a b : tiles lo hi ivs -> nth_error ivs i = Some (a, b) -> lo <= a <= b /\ b <= hi.
Proof.
  revert lo i; induction ivs as [|[a' b'] r IH]; simpl; intros lo i H E; [destruct i; discriminate|].
  destruct H as (-> & Hab & H). destruct i as [|i]; simpl in E.
  - inversion E; subst. apply tiles_bounds in H. lia.
  - specialize (IH _ _ H E). lia.
Qed.

Lemma tiles_exactly_one lo hi ivs k : tiles lo hi ivs -> lo <= k < hi -> exactly_one (in_interval k) ivs.
Proof.
  revert lo; induction ivs as [|[a b] r IH]; simpl; intros lo H Hk; [lia|].
  destruct H as (-> & Hab & H).
  destruct (Z.lt_ge_cases k b) as [Hlt|Hge].
  - exists 0%nat, (lo, b). split; [reflexivity|]. split; [unfold in_interval; simpl; lia|].
    intros [|j] [a' b'] E Hin; [reflexivity|]. simpl in E.
    pose proof (tiles_nth_bounds _ _ _ _ _ _ H E). unfold in_interval in Hin; simpl in Hin. lia.
  - destruct (IH b H ltac:(lia)) as (i & x & Ei & Hx & Hu).
    exists (S i), x. split; [exact Ei|]. split; [exact Hx|].
    intros [|j] y E Hin.
    + simpl in E; inversion E; subst. unfold in_interval in Hin; simpl in Hin; lia.
    + simpl in E. f_equal. eapply Hu; eauto.
Qed.

Definition task_table (n : nat) (t : Z) : list (Z * Z) :=
  map (fun w => (task_begin_of (Z.of_nat w) (Z.of_nat n) t, task_begin_of (Z.of_nat w + 1) (Z.of_nat n) t)) (seq 0 n).

Lemma task_begin_0 n t : 0 < n -> 0 <= t -> task_begin_of 0 n t = 0.
Proof. intros. unfold task_begin_of. pose proof (Z.mod_pos_bound t n). lia. Qed.
Lemma task_begin_n n t : 0 < n -> 0 <= t -> task_begin_of n n t = t.
Proof. intros. unfold task_begin_of. pose proof (Z.mod_pos_bound t n). pose proof (Z.div_mod t n). lia. Qed.
Lemma task_begin_step w n t : 0 < n -> 0 <= t -> 0 <= w ->
  task_begin_of (w+1) n t - task_begin_of w n t = t / n + (if w <? t mod n then 1 else 0).
Proof. intros. unfold task_begin_of. pose proof (Z.mod_pos_bound t n). destruct (Z.ltb_spec w (t mod n)); lia. Qed.

Lemma tiles_seq (f : Z -> Z) k m :
  (forall w, 0 <= w -> f w <= f (w+1)) ->
  tiles (f (Z.of_nat k)) (f (Z.of_nat (k + m))) (map (fun w => (f (Z.of_nat w), f (Z.of_nat w + 1))) (seq k m)).
Proof.
  intros Hf. revert k; induction m as [|m IH]; intros k; simpl.
  - f_equal; lia.
  - split; [reflexivity|]. split; [apply Hf; lia|].
    replace (Z.of_nat k + 1) with (Z.of_nat (S k)) by lia.
    replace (k + S m)%nat with (S k + m)%nat by lia. apply IH.
Qed.

Lemma assign_tasks_correct (n : nat) (t : Z) : (0 < n)%nat -> 0 <= t ->
  exists ivs,
    map (fun w => assign_tasks (Z.of_nat w) (Z.of_nat n) t) (seq 0 n) = map Some ivs /\
    length ivs = n /\
    tiles 0 t ivs /\
    (forall k, 0 <= k < t -> exactly_one (in_interval k) ivs) /\
    (forall i j a b c d, (i <= j)%nat -> nth_error ivs i = Some (a, b) -> nth_error ivs j = Some (c, d) ->
        d - c <= b - a <= (d - c) + 1).
Proof.
  intros Hn Ht. exists (task_table n t).
  assert (Htile : tiles 0 t (task_table n t)).
  { unfold task_table.
    pose proof (tiles_seq (fun w => task_begin_of w (Z.of_nat n) t) 0 n) as H.
    cbv beta in H. rewrite Nat.add_0_l in H. simpl Z.of_nat in H.
    rewrite task_begin_0, task_begin_n in H by lia. apply H.
    intros w Hw. pose proof (task_begin_step w (Z.of_nat n) t ltac:(lia) Ht Hw).
    pose proof (Z.div_pos t (Z.of_nat n)). destruct (_ <? _); lia. }
  split; [|split; [|split; [|split]]].
  - unfold task_table. rewrite map_map. apply map_ext_in. intros w Hw. apply in_seq in Hw.
    rewrite assign_tasks_eq by lia. reflexivity.
  - unfold task_table. rewrite map_length, seq_length. reflexivity.
  - exact Htile.
  - intros k Hk. eapply tiles_exactly_one; eauto.
  - intros i j a b c d Hij Ei Ej. unfold task_table in *.
    rewrite nth_error_map in Ei, Ej.
    destruct (nth_error (seq 0 n) i) as [wi|] eqn:Ewi; [|discriminate].
    destruct (nth_error (seq 0 n) j) as [wj|] eqn:Ewj; [|discriminate].
    assert (wi = i /\ i < n)%nat as [-> Hi].
    { assert (i < n)%nat by (rewrite <- (seq_length n 0); apply nth_error_Some; congruence).
      erewrite nth_error_nth' with (d:=0%nat) in Ewi by (rewrite seq_length; lia).
      rewrite seq_nth in Ewi by lia. inversion Ewi; lia. }
    assert (wj = j /\ j < n)%nat as [-> Hj].
    { assert (j < n)%nat by (rewrite <- (seq_length n 0); apply nth_error_Some; congruence).
      erewrite nth_error_nth' with (d:=0%nat) in Ewj by (rewrite seq_length; lia).
      rewrite seq_nth in Ewj by lia. inversion Ewj; lia. }
    simpl in Ei, Ej. inversion Ei; inversion Ej; subst.
    pose proof (task_begin_step (Z.of_nat i) (Z.of_nat n) t).
    pose proof (task_begin_step (Z.of_nat j) (Z.of_nat n) t).
    destruct (Z.ltb_spec (Z.of_nat i) (t mod Z.of_nat n)), (Z.ltb_spec (Z.of_nat j) (t mod Z.of_nat n)); lia.
Qed.

(** * CompileOffsets *)

Definition segments (offs counts : list Z) : list (Z * Z) :=
  map (fun p => (fst p, fst p + snd p)) (combine offs counts).

Lemma compile_offsets_from_correct counts off :
  Forall (fun c => 0 <= c) counts ->
  let '(offs, tot) := compile_offsets_from off counts in
  tot = off + zsum counts /\ length offs = length counts /\
  (forall i o, nth_error offs i = Some o -> o = off + zsum (firstn i counts)) /\
  tiles off tot (segments offs counts).
Proof.
  revert off; induction counts as [|c cs IH]; intros off Hc; simpl.
  - split; [lia|]. split; [reflexivity|]. split; [intros [|i] o; discriminate|]. reflexivity.
  - inversion Hc; subst. specialize (IH (off + c)).
    destruct (compile_offsets_from (off + c) cs) as [offs tot].
    destruct (IH ltac:(assumption)) as (Htot & Hlen & Hnth & Ht).
    split; [lia|]. split; [simpl; lia|]. split.
    + intros [|i] o E; simpl in *.
      * inversion E; lia.
      * apply Hnth in E. lia.
    + unfold segments in *; simpl. split; [reflexivity|]. split; [lia|exact Ht].
Qed.

Lemma compile_offsets_correct counts :
  Forall (fun c => 0 <= c) counts ->
  let '(offs, tot) := compile_offsets counts in
  tot = zsum counts /\ length offs = length counts /\
  (forall i o, nth_error offs i = Some o -> o = zsum (firstn i counts)) /\
  tiles 0 tot (map (fun p => (fst p, fst p + snd p)) (combine offs counts)).
Proof.
  intros Hc. pose proof (compile_offsets_from_correct counts 0 Hc) as H.
  unfold compile_offsets. destruct (compile_offsets_from 0 counts) as [offs tot]. exact H.
Qed.

(** * Byte swap *)

Lemma tb_high b n : (b < 256)%N -> (8 <= n)%N -> N.testbit b n = false.
Proof.
  intros Hb Hn. destruct (N.eq_dec b 0) as [->|Hb0]; [apply N.bits_0|].
  apply N.bits_above_log2.
  change 256%N with (2 ^ 8)%N in Hb. apply N.log2_lt_pow2 in Hb; lia.
Qed.

Lemma land_byte_low x n : (n < 8)%N -> N.testbit (N.land x 0xff) n = N.testbit x n.
Proof.
  intros. rewrite N.land_spec. change 0xff%N with (N.ones 8). rewrite N.ones_spec_low by lia.
  apply andb_true_r.
Qed.
Lemma land_byte_high x n : (8 <= n)%N -> N.testbit (N.land x 0xff) n = false.
Proof.
  intros. rewrite N.land_spec. change 0xff%N with (N.ones 8). rewrite N.ones_spec_high by lia.
  apply andb_false_r.
Qed.

Lemma byte_ext a b : (b < 256)%N -> (forall n, (n < 8)%N -> N.testbit a n = N.testbit b n) ->
  N.land a 0xff = b.
Proof.
  intros Hb H. apply N.bits_inj. intros n.
  destruct (N.lt_ge_cases n 8).
  - rewrite land_byte_low by assumption. auto.
  - rewrite land_byte_high by assumption. symmetry; apply tb_high; assumption.
Qed.

Ltac enum8 n H := assert (n = 0 \/ n = 1 \/ n = 2 \/ n = 3 \/ n = 4 \/ n = 5 \/ n = 6 \/ n = 7)%N as [->|[->|[->|[->|[->|[->|[->| ->]]]]]]] by lia.

Ltac tb_concrete :=
  repeat first
    [ rewrite N.lor_spec
    | rewrite N.land_spec
    | rewrite N.shiftr_spec by (apply N.le_0_l)
    | rewrite N.shiftl_spec_high by (first [apply N.le_0_l | discriminate])
    | rewrite N.shiftl_spec_low by reflexivity ].

Ltac norm_idx :=
  repeat match goal with
  | |- context [N.testbit ?b (?x + ?y)%N] => let v := eval vm_compute in (x + y)%N in change (x + y)%N with v
  | |- context [N.testbit ?b (?x - ?y)%N] => let v := eval vm_compute in (x - y)%N in change (x - y)%N with v
  end.

Ltac kill_high :=
  repeat match goal with
  | Hb : (?b < 256)%N |- context [N.testbit ?b ?n] =>
      rewrite (tb_high b n Hb) by discriminate
  end.

Ltac bitsolve :=
  repeat (progress (tb_concrete; norm_idx)); kill_high;
  repeat match goal with |- context [N.testbit (Npos ?p) (Npos ?q)] => let v := eval vm_compute in (N.testbit (Npos p) (Npos q)) in change (N.testbit (Npos p) (Npos q)) with v end;
  repeat match goal with |- context [N.testbit (Npos ?p) 0] => let v := eval vm_compute in (N.testbit (Npos p) 0) in change (N.testbit (Npos p) 0) with v end;
  rewrite ?andb_true_r, ?andb_false_r, ?orb_false_r, ?orb_false_l; try reflexivity.

Lemma swap2_bytes b0 b1 : (b0 < 256)%N -> (b1 < 256)%N ->
  store16 (swap_2 (load16 b0 b1)) = [b1; b0].
Proof.
  intros H0 H1. unfold store16, swap_2, load16. f_equal; [|f_equal].
  - apply byte_ext; [assumption|]. intros n Hn. enum8 n Hn; bitsolve.
  - apply byte_ext; [assumption|]. intros n Hn. enum8 n Hn; bitsolve.
Qed.

Lemma swap4_bytes b0 b1 b2 b3 : (b0 < 256)%N -> (b1 < 256)%N -> (b2 < 256)%N -> (b3 < 256)%N ->
  store32 (swap_4 (load32 b0 b1 b2 b3)) = [b3; b2; b1; b0].
Proof.
  intros H0 H1 H2 H3. unfold store32, swap_4, load32.
  f_equal; [|f_equal; [|f_equal; [|f_equal]]];
  (apply byte_ext; [assumption|]; intros n Hn; enum8 n Hn; bitsolve).
Qed.

Lemma swap_generic_from_rev (l : list N) i k : length l = (i + k)%nat ->
  swap_generic_from l (length l) i k = Some (skipn i (rev l)).
Proof.
  revert i; induction k as [|k IH]; intros i Hl; simpl.
  - rewrite skipn_all2; [reflexivity|]. rewrite rev_length; lia.
  - rewrite (IH (S i)) by lia.
    assert (Hi : (i < length (rev l))%nat) by (rewrite rev_length; lia).
    destruct (nth_error (rev l) i) as [b|] eqn:E; [|apply nth_error_None in E; lia].
    assert (E2 : nth_error l (length l - i - 1) = Some b).
    { destruct (nth_error l (length l - i - 1)) as [b'|] eqn:E2; [|apply nth_error_None in E2; rewrite rev_length in Hi; lia].
      rewrite <- E. rewrite rev_length in Hi.
      rewrite (nth_error_nth' (rev l) b') by (rewrite rev_length; lia).
      rewrite rev_nth by lia. apply (nth_error_nth _ _ b') in E2.
      replace (length l - S i)%nat with (length l - i - 1)%nat by lia. rewrite E2. reflexivity. }
    rewrite E2. f_equal.
    assert (Hs : skipn i (rev l) = b :: skipn (S i) (rev l)).
    { clear -E. revert i E. induction (rev l) as [|x r IHr]; intros [|i] E; simpl in *; try discriminate.
      - inversion E; reflexivity.
      - apply IHr in E. exact E. }
    rewrite Hs. reflexivity.
Qed.

Lemma swap_element_rev m e : length e = m -> Forall is_byte e -> swap_element m e = Some (rev e).
Proof.
  intros Hl Hb. unfold is_byte in Hb.
  assert (Hgen : swap_generic e m = Some (rev e)).
  { unfold swap_generic. subst m. rewrite swap_generic_from_rev by lia. reflexivity. }
  unfold swap_element.
  destruct m as [|[|[|[|[|m]]]]]; try exact Hgen.
  - destruct e as [|a [|]]; try discriminate. reflexivity.
  - destruct e as [|a [|b [|]]]; try discriminate.
    inversion_clear Hb as [|? ? Ha Hb']; inversion_clear Hb'. rewrite swap2_bytes by assumption. reflexivity.
  - destruct e as [|a [|b [|c [|d [|]]]]]; try discriminate.
    inversion_clear Hb as [|? ? Ha Hb']; inversion_clear Hb' as [|? ? Hb1 Hb2]; inversion_clear Hb2 as [|? ? Hc Hd'];
    inversion_clear Hd'.
    rewrite swap4_bytes by assumption. reflexivity.
Qed.

Lemma swap_Nbyte_correct m (elems : list (list N)) tail :
  all_length m elems -> Forall is_byte (concat elems) ->
  swap_Nbyte (length elems) m (concat elems ++ tail) = Some (concat (map (@rev N) elems) ++ tail).
Proof.
  induction elems as [|e es IH]; intros Hl Hb; [reflexivity|].
  inversion Hl; subst. simpl concat in *. apply Forall_app in Hb as [Hb1 Hb2].
  cbn [length swap_Nbyte map concat].
  rewrite <- app_assoc.
  destruct (Nat.ltb_spec (length (e ++ concat es ++ tail)) (length e)) as [Hlt|_].
  { rewrite app_length in Hlt; lia. }
  rewrite firstn_app, Nat.sub_diag, firstn_all, firstn_O, app_nil_r.
  rewrite skipn_app, Nat.sub_diag, skipn_all, skipn_O, app_nil_l.
  rewrite swap_element_rev by auto. rewrite IH by assumption. rewrite app_assoc. reflexivity.
Qed.

Lemma swap_Nbyte_short m n data : (length data < n * m)%nat -> swap_Nbyte n m data = None.
Proof.
  revert data; induction n as [|n IH]; intros data H; [simpl in H; lia|].
  cbn [swap_Nbyte]. destruct (Nat.ltb_spec (length data) m) as [_|Hge]; [reflexivity|].
  rewrite IH by (rewrite skipn_length; simpl in H; lia).
  destruct (swap_element m (firstn m data)); reflexivity.
Qed.

Lemma all_length_rev m (elems : list (list N)) : all_length m elems -> all_length m (map (@rev N) elems).
Proof. unfold all_length. rewrite Forall_map. apply Forall_impl. intros; rewrite rev_length; auto. Qed.

Lemma concat_rev_bytes (elems : list (list N)) : Forall is_byte (concat elems) -> Forall is_byte (concat (map (@rev N) elems)).
Proof.
  induction elems as [|e es IH]; simpl; [auto|]. rewrite !Forall_app. intros [H1 H2]. split; [|auto].
  apply Forall_rev; assumption.
Qed.

Lemma swap_Nbyte_involutive m (elems : list (list N)) tail :
  all_length m elems -> Forall is_byte (concat elems) ->
  exists mid, swap_Nbyte (length elems) m (concat elems ++ tail) = Some mid /\
    swap_Nbyte (length elems) m mid = Some (concat elems ++ tail).
Proof.
  intros Hl Hb. eexists. split; [apply swap_Nbyte_correct; assumption|].
  replace (length elems) with (length (map (@rev N) elems)) by apply map_length.
  rewrite swap_Nbyte_correct.
  - rewrite map_map. rewrite (map_ext _ (fun x => x)) by (intros; apply rev_involutive). rewrite map_id. reflexivity.
  - apply all_length_rev; assumption.
  - apply concat_rev_bytes; assumption.
Qed.
