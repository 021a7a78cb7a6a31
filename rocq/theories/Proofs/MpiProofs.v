From Coq Require Import List ZArith Bool Lia Arith Ascii.
From Coq Require Import ZifyBool ZifyNat.
From Verif.Model Require Import ListMem Mymath Mpi.
From Verif.Spec Require Import Comm.
From Verif.Proofs Require Import ListMemProofs.
Import ListNotations.
Local Open Scope nat_scope.

Lemma mapM_Forall2 {X A B} (P : X -> A -> Prop) (Q : X -> B -> Prop) (f : A -> option B) l sts :
  Forall2 P l sts -> (forall x st, In x l -> P x st -> exists st', f st = Some st' /\ Q x st') ->
  exists sts', mapM f sts = Some sts' /\ Forall2 Q l sts'.
Proof.
  induction 1 as [|x st l sts Hx Hr IH]; intros Hf.
  - exists []. split; [reflexivity|constructor].
  - destruct (Hf x st (or_introl eq_refl) Hx) as (st' & E & HQ). destruct IH as (sts' & E' & H').
    { intros y s Hy. apply Hf. right; exact Hy. }
    exists (st' :: sts'). cbn [mapM]. rewrite E, E'. split; [reflexivity|constructor; assumption].
Qed.
Lemma mapM_eq {X A B} (f : A -> option B) (g : X -> B) l sts :
  Forall2 (fun x st => f st = Some (g x)) l sts -> mapM f sts = Some (map g l).
Proof. induction 1 as [|x st l sts Hx Hr IH]; [reflexivity|]. cbn [mapM map]. rewrite Hx, IH. reflexivity. Qed.
Lemma mapM_length {A B} (f : A -> option B) l l' : mapM f l = Some l' -> length l' = length l.
Proof.
  revert l'; induction l as [|x l IH]; intros l' H; simpl in H; [inversion H; reflexivity|].
  destruct (f x); [|discriminate]. destruct (mapM f l) eqn:E; [|discriminate]. inversion H; subst. simpl. rewrite (IH l0); auto.
Qed.
Lemma mapM_nth {A B} (f : A -> option B) l l' i x : mapM f l = Some l' -> nth_error l i = Some x ->
  exists y, f x = Some y /\ nth_error l' i = Some y.
Proof.
  revert l' i; induction l as [|z l IH]; intros l' i H Hi; [destruct i; discriminate|].
  simpl in H. destruct (f z) eqn:Ez; [|discriminate]. destruct (mapM f l) eqn:E; [|discriminate].
  inversion H; subst. destruct i; simpl in *.
  - inversion Hi; subst. eauto.
  - eauto.
Qed.
Lemma Forall2_seq_pair {R S} (P : nat * R -> S -> Prop) (rows : list R) (sts : list S) a :
  Forall2 P (combine (seq a (length rows)) rows) sts ->
  Forall2 (fun x rs => fst rs = fst x /\ P x (snd rs)) (combine (seq a (length rows)) rows) (combine (seq a (length sts)) sts).
Proof.
  revert a sts; induction rows as [|row rows IH]; intros a sts H; cbn in *.
  - inversion H; subst. constructor.
  - inversion H as [|x y l l' Hx Hr]; subst. cbn. constructor; [auto|]. apply IH. exact Hr.
Qed.
Lemma Forall2_length_eq {A B} (P : A -> B -> Prop) l l' : Forall2 P l l' -> length l = length l'.
Proof. induction 1; simpl; congruence. Qed.

(** prefix sums on nat *)
Fixpoint offs_from (o : nat) (c : list nat) : list nat :=
  match c with [] => [] | x :: r => o :: offs_from (o + x) r end.
Lemma compile_offs o c :
  map Z.to_nat (fst (compile_offsets_from (Z.of_nat o) (map Z.of_nat c))) = offs_from o c /\
  snd (compile_offsets_from (Z.of_nat o) (map Z.of_nat c)) = Z.of_nat (o + nsum c).
Proof.
  revert o; induction c as [|x c IH]; intros o; cbn.
  - split; [reflexivity|]. f_equal. lia.
  - rewrite <- Nat2Z.inj_add. destruct (IH (o + x)) as [IH1 IH2].
    destruct (compile_offsets_from (Z.of_nat (o + x)) (map Z.of_nat c)) as [offs tot]. cbn in *.
    rewrite Nat2Z.id, IH1. split; [reflexivity|]. rewrite IH2. lia.
Qed.
Lemma displacements_eq c : displacements c = offs_from 0 c.
Proof. unfold displacements, compile_offsets. apply (compile_offs 0 c). Qed.
Lemma total_eq c : total c = nsum c.
Proof. unfold total, compile_offsets. pose proof (proj2 (compile_offs 0 c)) as H. cbn in H. rewrite H. lia. Qed.
Lemma offs_from_length o c : length (offs_from o c) = length c.
Proof. revert o; induction c; intros o; simpl; auto. Qed.
Lemma offs_from_nth o c i : i < length c -> nth_error (offs_from o c) i = Some (o + nsum (firstn i c)).
Proof.
  revert o i; induction c as [|x c IH]; intros o i H; [simpl in H; lia|].
  destruct i; cbn; [f_equal; lia|]. rewrite IH by (simpl in H; lia). f_equal. lia.
Qed.
Lemma nsum_app a b : nsum (a ++ b) = nsum a + nsum b.
Proof. induction a; simpl; lia. Qed.
Lemma concat_length_nsum {A} (ls : list (list A)) : length (concat ls) = nsum (map (@length A) ls).
Proof. induction ls; simpl; [reflexivity|]. rewrite app_length. lia. Qed.

Section Buf.
  Context {A : Type}.
  Implicit Types b pre post : buffer A.

  Lemma write_seg_at pre (old post : buffer A) (xs : list A) : length old = length xs ->
    write_seg (pre ++ old ++ post) (length pre) xs = Some (pre ++ map Some xs ++ post).
  Proof.
    revert pre old; induction xs as [|x xs IH]; intros pre old Hl.
    - destruct old; [reflexivity|discriminate].
    - destruct old as [|o old]; [discriminate|]. cbn [write_seg].
      rewrite upd_firstn_skipn by (rewrite app_length; cbn; lia).
      rewrite firstn_app, Nat.sub_diag, firstn_all, firstn_O, app_nil_r.
      rewrite skipn_app. rewrite (skipn_all2 pre) by lia. replace (S (length pre) - length pre) with 1 by lia.
      cbn [app skipn].
      replace (pre ++ Some x :: old ++ post) with ((pre ++ [Some x]) ++ old ++ post) by (rewrite <- app_assoc; reflexivity).
      replace (S (length pre)) with (length (pre ++ [Some x])) by (rewrite app_length; cbn; lia).
      rewrite IH by (simpl in Hl; lia). rewrite <- app_assoc. reflexivity.
  Qed.

  Lemma split3 b o n : o + n <= length b -> exists pre old post, b = pre ++ old ++ post /\ length pre = o /\ length old = n.
  Proof.
    intros H. exists (firstn o b), (firstn n (skipn o b)), (skipn n (skipn o b)).
    split; [rewrite firstn_skipn, firstn_skipn; reflexivity|]. split; rewrite firstn_length, ?skipn_length; lia.
  Qed.

  Lemma read_seg_at pre post (xs : list A) :
    read_seg (pre ++ map Some xs ++ post) (length pre) (length xs) = Some xs.
  Proof.
    revert pre; induction xs as [|x xs IH]; intros pre; [reflexivity|].
    cbn [length read_seg map app]. rewrite nth_error_app2, Nat.sub_diag by lia. cbn.
    replace (pre ++ Some x :: map Some xs ++ post) with ((pre ++ [Some x]) ++ map Some xs ++ post) by (rewrite <- app_assoc; reflexivity).
    replace (S (length pre)) with (length (pre ++ [Some x])) by (rewrite app_length; cbn; lia).
    rewrite IH. reflexivity.
  Qed.

  Lemma write_segs_at (segs : list (list A)) pre (old post : buffer A) :
    length old = length (concat segs) ->
    write_segs (pre ++ old ++ post) (offs_from (length pre) (map (@length A) segs)) segs =
      Some (pre ++ map Some (concat segs) ++ post).
  Proof.
    revert pre old; induction segs as [|s segs IH]; intros pre old Hl; cbn [map offs_from concat write_segs].
    - destruct old; [reflexivity|discriminate].
    - cbn in Hl. rewrite app_length in Hl.
      destruct (split3 old 0 (length s)) as (p0 & o1 & o2 & -> & H1 & H2); [lia|].
      destruct p0; [|discriminate]. cbn [app]. rewrite <- app_assoc, write_seg_at by assumption.
      replace (pre ++ map Some s ++ o2 ++ post) with ((pre ++ map Some s) ++ o2 ++ post) by (rewrite <- app_assoc; reflexivity).
      replace (length pre + length s) with (length (pre ++ map Some s)) by (rewrite app_length, map_length; lia).
      rewrite IH. { rewrite map_app, <- !app_assoc. reflexivity. }
      rewrite !app_length in Hl. cbn in Hl. lia.
  Qed.

  Definition zipf {X Y Z0} (f : X -> Y -> Z0) (l : list X) (m : list Y) : list Z0 := map (fun p => f (fst p) (snd p)) (combine l m).

  Lemma pack_at (cnts : list nat) (its : list (list A)) pre (old post : buffer A) :
    Forall2 (fun it c => c <= length it) its cnts -> length old = nsum cnts ->
    pack (pre ++ old ++ post) (offs_from (length pre) cnts) cnts its =
      Some (pre ++ map Some (concat (zipf (fun it c => firstn c it) its cnts)) ++ post,
            zipf (fun it c => skipn c it) its cnts).
  Proof.
    intros HF; revert pre old; induction HF as [|it c its cnts Hc HF IH]; intros pre old Hl; cbn [offs_from pack].
    - destruct old; [reflexivity|discriminate].
    - unfold take_iter. destruct (Nat.leb_spec c (length it)); [|lia].
      cbn in Hl. destruct (split3 old 0 c) as (p0 & o1 & o2 & -> & H1 & H2); [lia|].
      destruct p0; [|discriminate]. cbn [app]. rewrite <- app_assoc.
      assert (Hfl : length (firstn c it) = c) by (rewrite firstn_length; lia).
      rewrite write_seg_at by lia.
      replace (pre ++ map Some (firstn c it) ++ o2 ++ post) with ((pre ++ map Some (firstn c it)) ++ o2 ++ post) by (rewrite <- app_assoc; reflexivity).
      replace (length pre + c) with (length (pre ++ map Some (firstn c it))) by (rewrite app_length, map_length; lia).
      rewrite IH. { unfold zipf. cbn [combine map fst snd concat]. rewrite map_app, <- !app_assoc. reflexivity. }
      rewrite !app_length in Hl. cbn in Hl. lia.
  Qed.

  Lemma unpack_at (segs outs : list (list A)) pre post : length outs = length segs ->
    unpack (pre ++ map Some (concat segs) ++ post) (offs_from (length pre) (map (@length A) segs)) (map (@length A) segs) outs =
      Some (zipf (@app A) outs segs).
  Proof.
    revert pre outs; induction segs as [|s segs IH]; intros pre outs Hl; destruct outs as [|o outs]; try discriminate; cbn [map offs_from unpack concat].
    - reflexivity.
    - rewrite map_app, <- app_assoc, read_seg_at.
      replace (pre ++ map Some s ++ map Some (concat segs) ++ post) with ((pre ++ map Some s) ++ map Some (concat segs) ++ post) by (rewrite <- app_assoc; reflexivity).
      replace (length pre + length s) with (length (pre ++ map Some s)) by (rewrite app_length, map_length; lia).
      rewrite IH by (simpl in Hl; lia). reflexivity.
  Qed.
End Buf.

Section Counts.
  Variable N : nat.

  Definition cum (k c : nat) : nat := k * (c / N) + Nat.min k (c mod N).
  Definition cnt_at (k c : nat) : nat := c / N + (if k <? c mod N then 1 else 0).
  Definition cnt_before (k c : nat) : nat := c / N + (if k <=? c mod N then 1 else 0).

  Lemma cum_S k c : cum (S k) c = cum k c + cnt_at k c.
  Proof. unfold cum, cnt_at. destruct (Nat.ltb_spec k (c mod N)); lia. Qed.
  Lemma cnt_before_S k c : cnt_before (S k) c = cnt_at k c.
  Proof. unfold cnt_before, cnt_at. destruct (Nat.leb_spec (S k) (c mod N)); destruct (Nat.ltb_spec k (c mod N)); lia. Qed.
  Lemma switch_one k c : (if k =? c mod N then cnt_before k c - 1 else cnt_before k c) = cnt_at k c.
  Proof.
    unfold cnt_before, cnt_at. generalize (c / N) (c mod N). intros q m.
    destruct (Nat.eqb_spec k m); destruct (Nat.leb_spec k m); destruct (Nat.ltb_spec k m); lia.
  Qed.
  Hypothesis HN : 1 <= N.
  Lemma cum_N c : cum N c = c.
  Proof. unfold cum. pose proof (Nat.div_mod c N ltac:(lia)). pose proof (Nat.mod_upper_bound c N ltac:(lia)). lia. Qed.
  Lemma cum_le k c : k <= N -> cum k c <= c.
  Proof.
    intros Hk. rewrite <- (cum_N c) at 2. unfold cum.
    assert (k * (c / N) <= N * (c / N)) by (apply Nat.mul_le_mono_r; lia). lia.
  Qed.
End Counts.

Section Rounds.
  Context {A : Type}.
  Variable N chunk W : nat.
  Variable rows : list (list (list A) * list nat).
  Hypothesis HN : 1 <= N.
  Hypothesis HW : length rows = W.
  Hypothesis Hshape : Forall (fun row => length (fst row) = W /\ Forall2 (fun s c => c <= length s) (fst row) (snd row)) rows.
  Hypothesis Hsum : Forall (fun row => nsum (snd row) <= N * chunk) rows.

  Definition in_at (k : nat) (row : list (list A) * list nat) : list (list A) :=
    zipf (fun s c => skipn (cum N k c) s) (fst row) (snd row).
  Definition cell_out (k r : nat) (row : list (list A) * list nat) : list A :=
    firstn (cum N k (nth r (snd row) 0)) (nth r (fst row) []).
  Definition seg_at (k r : nat) (row : list (list A) * list nat) : list A :=
    firstn (cnt_at N k (nth r (snd row) 0)) (skipn (cum N k (nth r (snd row) 0)) (nth r (fst row) [])).

  Definition inv (k : nat) (sts : list (a2a A)) : Prop :=
    Forall2 (fun ir st => a_in st = in_at k (snd ir) /\ a_cnt st = map (cnt_before N k) (snd (snd ir)) /\
      a_rem st = map (fun c => c mod N) (snd (snd ir)) /\ length (a_buf st) = chunk + W /\
      a_out st = map (cell_out k (fst ir)) rows) (combine (seq 0 (length rows)) rows) sts.

  Lemma row_facts row : In row rows -> length (fst row) = W /\ length (snd row) = W /\
    Forall2 (fun s c => c <= length s) (fst row) (snd row) /\ nsum (snd row) <= N * chunk.
  Proof.
    intros Hin. rewrite Forall_forall in Hshape, Hsum. destruct (Hshape _ Hin) as [H1 H2].
    split; [exact H1|]. split; [rewrite <- (Forall2_length_eq _ _ _ H2); exact H1|]. split; [exact H2|apply Hsum; exact Hin].
  Qed.

  Lemma div_sum_le (cs : list nat) : N * nsum (map (fun c => c / N) cs) <= nsum cs.
  Proof.
    induction cs as [|c cs IH]; cbn; [lia|]. pose proof (Nat.mul_div_le c N ltac:(lia)). nia.
  Qed.
  Lemma cnt_at_sum k (cs : list nat) : nsum (map (cnt_at N k) cs) <= nsum (map (fun c => c / N) cs) + length cs.
  Proof.
    induction cs as [|c cs IH]; cbn; [lia|]. unfold cnt_at at 1. destruct (k <? c mod N); lia.
  Qed.
  Lemma round_fits k row : In row rows -> nsum (map (cnt_at N k) (snd row)) <= chunk + W.
  Proof.
    intros Hin. destruct (row_facts row Hin) as (H1 & H2 & H3 & H4).
    pose proof (cnt_at_sum k (snd row)). pose proof (div_sum_le (snd row)).
    assert (nsum (map (fun c => c / N) (snd row)) <= chunk) by nia. lia.
  Qed.

  Lemma zipf_map_r {X Y Z0 T} (f : X -> Z0 -> T) (g : Y -> Z0) (l : list X) (m : list Y) :
    zipf f l (map g m) = zipf (fun x y => f x (g y)) l m.
  Proof. unfold zipf. revert m; induction l; intros [|y m]; simpl; [reflexivity..|]. f_equal. apply IHl. Qed.
  Lemma zipf_zipf {X Y T U} (f : X -> Y -> T) (g : T -> Y -> U) (l : list X) (m : list Y) :
    zipf g (zipf f l m) m = zipf (fun x y => g (f x y) y) l m.
  Proof. unfold zipf. revert m; induction l; intros [|y m]; simpl; [reflexivity..|]. f_equal. apply IHl. Qed.
  Lemma zipf_ext {X Y T} (f g : X -> Y -> T) (l : list X) (m : list Y) : (forall x y, f x y = g x y) -> zipf f l m = zipf g l m.
  Proof. intros H. unfold zipf. apply map_ext. intros; apply H. Qed.
  Lemma zipf_nth {X Y T} (f : X -> Y -> T) (l : list X) (m : list Y) i x y :
    nth_error l i = Some x -> nth_error m i = Some y -> nth_error (zipf f l m) i = Some (f x y).
  Proof.
    unfold zipf. revert m i; induction l as [|x' l IH]; intros [|y' m] [|i] H1 H2; simpl in *; try discriminate.
    - inversion H1; inversion H2; reflexivity.
    - eauto.
  Qed.
  Lemma zipf_length {X Y T} (f : X -> Y -> T) (l : list X) (m : list Y) : length (zipf f l m) = Nat.min (length l) (length m).
  Proof. unfold zipf. rewrite map_length, combine_length. reflexivity. Qed.

  (** after switch and pack *)
  Definition inv1 (k : nat) (ir : nat * (list (list A) * list nat)) (st : a2a A) : Prop :=
    a_in st = in_at (S k) (snd ir) /\ a_cnt st = map (cnt_at N k) (snd (snd ir)) /\
    a_rem st = map (fun c => c mod N) (snd (snd ir)) /\ length (a_buf st) = chunk + W /\
    a_out st = map (cell_out k (fst ir)) rows /\
    exists post, a_buf st = map Some (concat (zipf (fun s c => firstn (cnt_at N k c) (skipn (cum N k c) s)) (fst (snd ir)) (snd (snd ir)))) ++ post.

  Lemma pack_round k sts : k < N -> inv k sts ->
    exists sts1, mapM pack_rank (map (switch_counts k) sts) = Some sts1 /\ Forall2 (inv1 k) (combine (seq 0 (length rows)) rows) sts1.
  Proof.
    intros Hk Hinv.
    assert (Hsw : Forall2 (fun ir st => a_in st = in_at k (snd ir) /\ a_cnt st = map (cnt_at N k) (snd (snd ir)) /\
      a_rem st = map (fun c => c mod N) (snd (snd ir)) /\ length (a_buf st) = chunk + W /\
      a_out st = map (cell_out k (fst ir)) rows) (combine (seq 0 (length rows)) rows) (map (switch_counts k) sts)).
    { unfold inv in Hinv. induction Hinv as [|ir st l sts (H1 & H2 & H3 & H4 & H5) Hr IH]; cbn [map]; constructor; [|exact IH].
      unfold switch_counts; cbn. rewrite H2, H3. repeat split; auto.
      clear - HN. induction (snd (snd ir)) as [|c cs IH]; cbn; [reflexivity|]. rewrite IH. f_equal. apply switch_one. }
    eapply mapM_Forall2; [exact Hsw|].
    intros [i row] st Hin (H1 & H2 & H3 & H4 & H5). cbn [fst snd] in *.
    assert (Hrow : In row rows) by (apply in_combine_r in Hin; exact Hin).
    destruct (row_facts row Hrow) as (R1 & R2 & R3 & R4).
    unfold pack_rank. rewrite displacements_eq, H1, H2.
    pose proof (round_fits k row Hrow) as Hfit.
    destruct (split3 (a_buf st) 0 (nsum (map (cnt_at N k) (snd row)))) as (p0 & old & post & Eb & L0 & L1); [lia|].
    destruct p0; [|discriminate]. cbn [app] in Eb. rewrite Eb.
    pose proof (pack_at (map (cnt_at N k) (snd row)) (in_at k row) [] old post) as Hp. cbn [app length] in Hp.
    rewrite Hp; [| |exact L1].
    - eexists. split; [reflexivity|]. unfold inv1; cbn [a_in a_cnt a_rem a_buf a_out fst snd].
      split.
      { unfold in_at. rewrite zipf_map_r, zipf_zipf. apply zipf_ext. intros s c. rewrite cum_S.
        rewrite skipn_skipn. reflexivity. }
      split; [reflexivity|]. split; [exact H3|]. split.
      { rewrite app_length, map_length.
        assert (Hl : length (concat (zipf (fun it c => firstn c it) (in_at k row) (map (cnt_at N k) (snd row)))) = nsum (map (cnt_at N k) (snd row))).
        { rewrite concat_length_nsum. f_equal. unfold in_at. rewrite zipf_map_r, zipf_zipf. unfold zipf. rewrite map_map.
          clear - R3 Hk HN. induction R3 as [|s c ss cs Hsc HF IH]; cbn; [reflexivity|]. rewrite IH. f_equal.
          rewrite firstn_length, skipn_length. pose proof (cum_le N HN (S k) c ltac:(lia)). rewrite cum_S in H. lia. }
        rewrite Hl. rewrite Eb in H4. rewrite app_length in H4. lia. }
      split; [exact H5|]. exists post. f_equal. f_equal. f_equal. unfold in_at. rewrite zipf_map_r, zipf_zipf. reflexivity.
    - unfold in_at. clear - R3 Hk HN. induction R3 as [|s c ss cs Hsc HF IH]; cbn; constructor; [|exact IH].
      cbn. rewrite skipn_length. pose proof (cum_le N HN (S k) c ltac:(lia)). rewrite cum_S in H. lia.
  Qed.

  Lemma nth_zipf_concat (segs : list (list A)) r seg post : nth_error segs r = Some seg ->
    read_seg (map Some (concat segs) ++ post) (nsum (firstn r (map (@length A) segs))) (length seg) = Some seg.
  Proof.
    intros Hr. apply nth_error_split in Hr as (l1 & l2 & -> & Hl).
    rewrite concat_app. cbn [concat]. rewrite !map_app, <- !app_assoc.
    cbn [map].
    rewrite firstn_app. rewrite firstn_all2 by (rewrite map_length; lia).
    rewrite map_length. replace (r - length l1) with 0 by lia. cbn [firstn]. rewrite app_nil_r.
    rewrite <- concat_length_nsum. rewrite <- (map_length Some (concat l1)).
    apply read_seg_at.
  Qed.

  Lemma segment_to_eq k r ir st : k < N -> r < W -> In (snd ir) rows -> inv1 k ir st -> segment_to r st = Some (seg_at k r (snd ir)).
  Proof.
    intros Hk Hr Hin (H1 & H2 & H3 & H4 & H5 & post & Hb).
    destruct (row_facts _ Hin) as (R1 & R2 & R3 & R4). destruct ir as [i row]; cbn [fst snd] in *.
    unfold segment_to. rewrite displacements_eq, H2.
    rewrite offs_from_nth by (rewrite map_length; lia).
    destruct (nth_error_in_range (snd row) r) as [c Hc]; [lia|].
    destruct (nth_error_in_range (fst row) r) as [s Hs]; [lia|].
    rewrite nth_error_map, Hc. cbn [option_map]. rewrite Hb. cbn [plus].
    set (segs := zipf (fun s c => firstn (cnt_at N k c) (skipn (cum N k c) s)) (fst row) (snd row)).
    assert (Hseg : nth_error segs r = Some (seg_at k r row)).
    { unfold segs. rewrite (zipf_nth _ _ _ r s c Hs Hc). unfold seg_at.
      rewrite (nth_error_nth _ _ 0 Hc), (nth_error_nth _ _ [] Hs). reflexivity. }
    assert (Hlens : map (@length A) segs = map (cnt_at N k) (snd row)).
    { unfold segs, zipf. rewrite map_map. clear - R3 Hk HN.
      induction R3 as [|s c ss cs Hsc HF IH]; cbn; [reflexivity|]. rewrite IH. f_equal.
      rewrite firstn_length, skipn_length. pose proof (cum_le N HN (S k) c ltac:(lia)). rewrite cum_S in H. lia. }
    assert (Hlen1 : length (seg_at k r row) = cnt_at N k c).
    { assert (E : nth_error (map (@length A) segs) r = nth_error (map (cnt_at N k) (snd row)) r) by (rewrite Hlens; reflexivity).
      rewrite !nth_error_map, Hseg, Hc in E. cbn in E. congruence. }
    rewrite <- Hlens, <- Hlen1. apply nth_zipf_concat. exact Hseg.
  Qed.

  Lemma seg_at_length k r row : k < N -> r < W -> In row rows -> length (seg_at k r row) = cnt_at N k (nth r (snd row) 0).
  Proof.
    intros Hk Hr Hin. destruct (row_facts _ Hin) as (R1 & R2 & R3 & R4). unfold seg_at.
    rewrite firstn_length, skipn_length.
    destruct (nth_error_in_range (snd row) r) as [c Hc]; [lia|].
    destruct (nth_error_in_range (fst row) r) as [s Hs]; [lia|].
    rewrite (nth_error_nth _ _ 0 Hc), (nth_error_nth _ _ [] Hs).
    assert (c <= length s).
    { clear - R3 Hc Hs. revert r Hc Hs. induction R3; intros [|r] Hc Hs; simpl in *; try discriminate.
      - inversion Hc; inversion Hs; subst; assumption.
      - eauto. }
    pose proof (cum_le N HN (S k) c ltac:(lia)) as Hle. rewrite cum_S in Hle. lia.
  Qed.

  Lemma Forall2_rows {S} (P : (list (list A) * list nat) -> S -> Prop) (Q : nat * (list (list A) * list nat) -> S -> Prop) sts a rs :
    (forall ir st, In (snd ir) rs -> Q ir st -> P (snd ir) st) ->
    Forall2 Q (combine (seq a (length rs)) rs) sts -> Forall2 P rs sts.
  Proof.
    revert a sts; induction rs as [|row rs IH]; intros a sts HPQ HF; cbn in HF; inversion HF; subst; constructor.
    - apply (HPQ (a, row)); [left; reflexivity|assumption].
    - eapply IH; [|eassumption]. intros ir st Hin. apply HPQ. right; exact Hin.
  Qed.

  Lemma round_inv k sts : k < N -> inv k sts -> exists sts', a2a_round k sts = Some sts' /\ inv (S k) sts'.
  Proof.
    intros Hk Hinv. destruct (pack_round k sts Hk Hinv) as (sts1 & E1 & H1).
    unfold a2a_round. rewrite E1.
    pose proof (Forall2_seq_pair (inv1 k) rows sts1 0 H1) as H2.
    assert (Hlen : length sts1 = length rows).
    { rewrite <- (Forall2_length_eq _ _ _ H1), combine_length, seq_length. lia. }
    eapply mapM_Forall2; [exact H2|].
    intros [i row] [r st] Hin [Hr Hst]. cbn [fst snd] in *. subst r.
    assert (Hi : i < W). { apply in_combine_l in Hin. apply in_seq in Hin. lia. }
    assert (Hrow : In row rows) by (apply in_combine_r in Hin; exact Hin).
    unfold receive_rank.
    assert (Ec : mapM (fun s => nth_error (a_cnt s) i) sts1 = Some (map (fun row => cnt_at N k (nth i (snd row) 0)) rows)).
    { apply mapM_eq. eapply Forall2_rows; [|exact H1]. intros [j row'] s Hin' (Q1 & Q2 & _). cbn [fst snd] in *.
      rewrite Q2, nth_error_map. destruct (row_facts _ Hin') as (_ & R2 & _).
      destruct (nth_error_in_range (snd row') i) as [c Hc]; [lia|]. rewrite Hc, (nth_error_nth _ _ 0 Hc). reflexivity. }
    assert (Es : mapM (segment_to i) sts1 = Some (map (seg_at k i) rows)).
    { apply mapM_eq. eapply Forall2_rows; [|exact H1]. intros [j row'] s Hin' Hs. cbn [fst snd] in *.
      apply (segment_to_eq k i (j, row') s); auto. }
    rewrite Ec, Es.
    assert (Hlens : map (fun row => cnt_at N k (nth i (snd row) 0)) rows = map (@length A) (map (seg_at k i) rows)).
    { rewrite map_map. apply map_ext_in. intros row' Hin'. symmetry. apply seg_at_length; auto. }
    rewrite Hlens, displacements_eq, total_eq.
    set (segs := map (seg_at k i) rows).
    pose proof (write_segs_at segs [] (repeat None (nsum (map (@length A) segs))) []) as Hw.
    cbn [app length] in Hw. rewrite !app_nil_r in Hw. rewrite Hw by (rewrite repeat_length, concat_length_nsum; reflexivity).
    destruct Hst as (S1 & S2 & S3 & S4 & S5 & post & S6). cbn [fst snd] in *.
    pose proof (unpack_at segs (a_out st) [] []) as Hu. cbn [app length] in Hu. rewrite !app_nil_r in Hu.
    rewrite Hu by (rewrite S5; unfold segs; rewrite !map_length; reflexivity).
    eexists. split; [reflexivity|]. cbn [a_in a_cnt a_rem a_buf a_out].
    split; [exact S1|]. split.
    { rewrite S2. apply map_ext. intros c. symmetry. apply cnt_before_S. }
    split; [exact S3|]. split; [exact S4|].
    rewrite S5. unfold segs. clear. unfold zipf. induction rows as [|row rs IH]; cbn [map combine fst snd]; [reflexivity|]. rewrite IH. f_equal.
    unfold cell_out, seg_at. rewrite cum_S.
    generalize (cum N k (nth i (snd row) 0)) (cnt_at N k (nth i (snd row) 0)) (nth i (fst row) []). clear.
    intros a b l. revert a; induction l as [|x l IH]; intros [|a]; cbn; try reflexivity.
    - rewrite firstn_nil. reflexivity.
    - f_equal. apply IH.
  Qed.

  Lemma rounds_inv sts : inv 0 sts -> exists sts', for_range 0 N a2a_round sts = Some sts' /\ inv N sts'.
  Proof.
    intros H0. destruct (for_range_inv (fun k s => inv k s) 0 N a2a_round sts H0) as (s' & E & H).
    - intros k s Hk Hs. apply round_inv; [lia|exact Hs].
    - exists s'. split; [exact E|exact H].
  Qed.

  Lemma inv_out sts : inv N sts ->
    map a_out sts = map (fun r => map (fun row => firstn (nth r (snd row) 0) (nth r (fst row) [])) rows) (seq 0 W).
  Proof.
    unfold inv. intros H.
    assert (Hg : forall a rs ss, Forall2 (fun ir st => a_in st = in_at N (snd ir) /\ a_cnt st = map (cnt_before N N) (snd (snd ir)) /\
      a_rem st = map (fun c => c mod N) (snd (snd ir)) /\ length (a_buf st) = chunk + W /\
      a_out st = map (cell_out N (fst ir)) rows) (combine (seq a (length rs)) rs) ss ->
      map (@a_out A) ss = map (fun r => map (fun row => firstn (nth r (snd row) 0) (nth r (fst row) [])) rows) (seq a (length rs))).
    { intros a rs; revert a; induction rs as [|row rs IH]; intros a ss HF; cbn in HF; inversion HF; subst; cbn; [reflexivity|].
      f_equal; [|apply IH; assumption]. destruct H2 as (_ & _ & _ & _ & ->). cbn. apply map_ext. intros row'.
      unfold cell_out. rewrite cum_N by lia. reflexivity. }
    rewrite (Hg 0 rows sts H), HW. reflexivity.
  Qed.
End Rounds.

Lemma nmax_ge l x : In x l -> x <= nmax l.
Proof. induction l; simpl; [tauto|]. intros [->|H]; [lia|]. specialize (IHl H). lia. Qed.
Lemma nmax_zero l : nmax l = 0 -> Forall (fun x => x = 0) l.
Proof. induction l; simpl; intros H; constructor; [lia|apply IHl; lia]. Qed.

Lemma cell_nth {A} (m : list (list A)) i j x : cell m i j = Some x -> exists row, nth_error m i = Some row /\ nth_error row j = Some x.
Proof. unfold cell. destruct (nth_error m i); [eauto|discriminate]. Qed.

Lemma combine_nth_error {A B} (l : list A) (m : list B) i a b : nth_error l i = Some a -> nth_error m i = Some b ->
  nth_error (combine l m) i = Some (a, b).
Proof.
  revert m i; induction l as [|x l IH]; intros [|y m] [|i] H1 H2; simpl in *; try discriminate.
  - inversion H1; inversion H2; reflexivity.
  - eauto.
Qed.
Lemma combine_nth_error_inv {A B} (l : list A) (m : list B) i a b : nth_error (combine l m) i = Some (a, b) ->
  nth_error l i = Some a /\ nth_error m i = Some b.
Proof.
  revert m i; induction l as [|x l IH]; intros [|y m] [|i] H; simpl in *; try discriminate.
  - inversion H; auto.
  - eauto.
Qed.

Lemma loops_bound chunk cs : 1 <= chunk -> nsum cs <= loops_of chunk cs * chunk.
Proof.
  intros Hc. unfold loops_of. pose proof (Nat.div_mod (nsum cs + chunk - 1) chunk ltac:(lia)).
  pose proof (Nat.mod_upper_bound (nsum cs + chunk - 1) chunk ltac:(lia)). nia.
Qed.

(** The facts the passes start from. *)
Lemma a2a_setup {A} chunk W (data : list (list (list A))) (counts : list (list nat)) :
  1 <= chunk -> well_formed W data counts ->
  let N := nmax (map (loops_of chunk) counts) in
  let rows := combine data counts in
  length rows = W /\
  Forall (fun row : list (list A) * list nat => length (fst row) = W /\ Forall2 (fun s c => c <= length s) (fst row) (snd row)) rows /\
  Forall (fun row : list (list A) * list nat => nsum (snd row) <= N * chunk) rows /\
  inv N chunk W rows 0 (map (fun dc => mka2a (fst dc) (map (fun c => c / N + 1) (snd dc)) (map (fun c => c mod N) (snd dc))
    (repeat None (chunk + length data)) (repeat [] (length data))) rows).
Proof.
  intros Hc ((Hd1 & Hd2) & (Hn1 & Hn2) & Hle) N. cbv zeta.
    set (rows := combine data counts).
    assert (HW : length rows = W) by (unfold rows; rewrite combine_length; lia).
    assert (Hcell : forall i d cs, nth_error rows i = Some (d, cs) -> nth_error data i = Some d /\ nth_error counts i = Some cs).
    { intros i d cs Hi. apply combine_nth_error_inv in Hi. exact Hi. }
    rewrite Forall_forall in Hd2, Hn2.
    assert (Hshape : Forall (fun row : list (list A) * list nat => length (fst row) = W /\ Forall2 (fun s c => c <= length s) (fst row) (snd row)) rows).
    { apply Forall_forall. intros [d cs] Hin. apply In_nth_error in Hin as [i Hi]. destruct (Hcell _ _ _ Hi) as [Hi1 Hi2].
      cbn. pose proof (Hd2 d (nth_error_In _ _ Hi1)) as Ld. pose proof (Hn2 cs (nth_error_In _ _ Hi2)) as Lc. split; [exact Ld|].
      assert (Hp : forall r s c, nth_error d r = Some s -> nth_error cs r = Some c -> c <= length s).
      { intros r s c Hr1 Hr2. apply (Hle i r s c); unfold cell; [rewrite Hi1; exact Hr1|rewrite Hi2; exact Hr2]. }
      clear - Ld Lc Hp. rewrite <- Lc in Ld. clear Lc. revert cs Ld Hp.
      induction d as [|s d IH]; intros [|c cs] Ld Hp; simpl in Ld; try lia; constructor.
      - apply (Hp 0); reflexivity.
      - apply IH; [lia|]. intros r s' c' H1 H2. apply (Hp (S r)); assumption. }
    assert (Hsum : Forall (fun row : list (list A) * list nat => nsum (snd row) <= N * chunk) rows).
    { apply Forall_forall. intros [d cs] Hin. apply In_nth_error in Hin as [i Hi]. destruct (Hcell _ _ _ Hi) as [Hi1 Hi2].
      cbn. pose proof (loops_bound chunk cs Hc) as Hb.
      assert (loops_of chunk cs <= N). { apply nmax_ge. apply in_map. eapply nth_error_In; eauto. }
      assert (loops_of chunk cs * chunk <= N * chunk) by (apply Nat.mul_le_mono_r; assumption). lia. }
    split; [exact HW|]. split; [exact Hshape|]. split; [exact Hsum|]. set (init := map _ rows).
    assert (Hinit : inv N chunk W rows 0 init).
    { unfold inv, init. rewrite Hd1.
      assert (Hg : forall a rs, incl rs rows -> Forall2 (fun ir st => a_in st = in_at N 0 (snd ir) /\ a_cnt st = map (cnt_before N 0) (snd (snd ir)) /\
        a_rem st = map (fun c => c mod N) (snd (snd ir)) /\ length (a_buf st) = chunk + W /\
        a_out st = map (cell_out N 0 (fst ir)) rows) (combine (seq a (length rs)) rs)
        (map (fun dc => mka2a (fst dc) (map (fun c => c / N + 1) (snd dc)) (map (fun c => c mod N) (snd dc)) (repeat None (chunk + W)) (repeat [] W)) rs)).
      { intros a rs; revert a; induction rs as [|row rs IH]; intros a Hin; cbn; constructor.
        - cbn. split.
          { unfold in_at, cum. cbn. unfold zipf. rewrite Forall_forall in Hshape. destruct (Hshape row (Hin _ (or_introl eq_refl))) as [_ HF].
            clear -HF. induction HF; cbn; [reflexivity|]. f_equal. assumption. }
          split; [apply map_ext; intros c; unfold cnt_before; cbn; reflexivity|].
          split; [reflexivity|]. split; [apply repeat_length|].
          rewrite <- HW. clear. induction rows as [|r0 rs0 IH]; cbn; [reflexivity|]. f_equal. exact IH.
        - apply IH. intros x Hx. apply Hin. right; exact Hx. }
      apply Hg. apply incl_refl. }
    exact Hinit.
Qed.

Lemma all_to_all_correct {A} chunk W (data : list (list (list A))) (counts : list (list nat)) :
  1 <= chunk -> well_formed W data counts ->
  exists outs, my_all_to_all chunk data counts = Some outs /\ square W outs /\
    forall s r seqs c, cell data s r = Some seqs -> cell counts s r = Some c -> cell outs r s = Some (firstn c seqs).
Proof.
  intros Hc ((Hd1 & Hd2) & (Hn1 & Hn2) & Hle).
  unfold my_all_to_all. set (N := nmax (map (loops_of chunk) counts)).
  destruct (Nat.eqb_spec N 0) as [H0|H0].
  - (* nothing to send *)
    exists (map (fun _ => repeat [] (length data)) data). split; [reflexivity|]. split.
    + split; [rewrite map_length; exact Hd1|]. rewrite Forall_map. apply Forall_forall. intros x _. rewrite repeat_length. exact Hd1.
    + intros s r seqs c Hs Hcc. apply cell_nth in Hs as (row & Hs1 & Hs2). apply cell_nth in Hcc as (cs & Hc1 & Hc2).
      assert (Hz : c = 0).
      { apply nmax_zero in H0. rewrite Forall_map in H0. rewrite Forall_forall in H0.
        specialize (H0 cs (nth_error_In _ _ Hc1)). cbn in H0.
        pose proof (loops_bound chunk cs Hc) as Hb. rewrite H0 in Hb. clear - Hb Hc2.
        assert (c <= nsum cs); [|lia]. apply nth_error_In in Hc2. clear Hb. induction cs; simpl in *; [tauto|].
        destruct Hc2 as [->|Hc2]; [lia|]. specialize (IHcs Hc2). lia. }
      subst c. unfold cell. rewrite nth_error_map.
      rewrite Forall_forall in Hd2. specialize (Hd2 row (nth_error_In _ _ Hs1)).
      destruct (nth_error_in_range data r) as [x Hx]; [apply nth_error_lt in Hs2; lia|]. rewrite Hx. cbn.
      apply nth_error_repeat. apply nth_error_lt in Hs1. exact Hs1.
  - destruct (a2a_setup chunk W data counts Hc (conj (conj Hd1 Hd2) (conj (conj Hn1 Hn2) Hle))) as (HW & Hshape & Hsum & Hinit).
    fold N in Hsum, Hinit. set (rows := combine data counts) in *. set (init := map _ rows) in *.
    rewrite Forall_forall in Hd2, Hn2.
    destruct (rounds_inv N chunk W rows ltac:(lia) HW Hshape Hsum init Hinit) as (sts & Es & Hs).
    assert (HN1 : 1 <= N) by (clear - H0; lia).
    rewrite Es. rewrite (inv_out N chunk W rows) by assumption.
    eexists. split; [reflexivity|]. split.
    { split; [rewrite map_length, seq_length; reflexivity|]. rewrite Forall_map. apply Forall_forall. intros r _. rewrite map_length. exact HW. }
    intros s r seqs c Hs1 Hs2. apply cell_nth in Hs1 as (d & Hd & Hdr). apply cell_nth in Hs2 as (cs & Hcs & Hcr).
    assert (Hrow : nth_error rows s = Some (d, cs)) by (apply combine_nth_error; assumption).
    assert (Hr : r < W). { apply nth_error_lt in Hdr. rewrite (Hd2 d (nth_error_In _ _ Hd)) in Hdr. exact Hdr. }
    unfold cell. rewrite nth_error_map.
    assert (Eseq : nth_error (seq 0 W) r = Some r).
    { rewrite (nth_error_nth' _ 0) by (rewrite seq_length; exact Hr). rewrite seq_nth by exact Hr. reflexivity. }
    rewrite Eseq. cbn. rewrite nth_error_map, Hrow. cbn. rewrite (nth_error_nth _ _ 0 Hcr), (nth_error_nth _ _ [] Hdr). reflexivity.
Qed.

(** * Broadcast *)
Lemma bcast_correct {A} chunk W (input : list A) count : 1 <= chunk -> count <= length input ->
  my_bcast chunk W input count = Some (repeat (firstn count input) W).
Proof.
  intros Hc Hl. unfold my_bcast. set (N := (count + chunk - 1) / chunk).
  destruct (Nat.eqb_spec N 0) as [H0|H0].
  - assert (count = 0).
    { unfold N in H0. apply Nat.div_small_iff in H0; lia. }
    subst. reflexivity.
  - destruct (for_range_inv (fun k st => b_size st = cnt_before N k count /\ b_in st = skipn (cum N k count) input /\
      b_out st = repeat (firstn (cum N k count) input) W) 0 N (bcast_round (count mod N)) (mkbc (count / N + 1) input (repeat [] W)))
      as (st & E & H1 & H2 & H3).
    + cbn. unfold cnt_before, cum. cbn. auto.
    + intros k st Hk (H1 & H2 & H3). unfold bcast_round.
      rewrite H1. rewrite (switch_one N k count). unfold take_iter. rewrite H2.
      pose proof (cum_le N ltac:(lia) (S k) count ltac:(lia)) as Hle. rewrite cum_S in Hle.
      destruct (Nat.leb_spec (cnt_at N k count) (length (skipn (cum N k count) input))) as [_|Hgt];
        [|rewrite skipn_length in Hgt; lia].
      eexists. split; [reflexivity|]. cbn [b_size b_in b_out].
      split; [symmetry; apply cnt_before_S|]. rewrite cum_S. split.
      * rewrite skipn_skipn. reflexivity.
      * rewrite H3. clear. induction W as [|W IH]; cbn; [reflexivity|]. f_equal; [|exact IH].
        generalize (cum N k count) (cnt_at N k count) input. clear.
        intros a b l. revert a; induction l as [|x l IH]; intros [|a]; cbn; try reflexivity.
        -- rewrite firstn_nil. reflexivity.
        -- f_equal. apply IH.
    + rewrite E, H3. cbn [plus]. rewrite cum_N by lia. reflexivity.
Qed.

(** * Strings *)

Lemma getline_app acc s r : no_newline s -> getline acc (s ++ newline :: r) = (rev acc ++ s, r).
Proof.
  revert acc; induction s as [|c s IH]; intros acc H; cbn [app getline].
  - rewrite Ascii.eqb_refl, app_nil_r. reflexivity.
  - destruct (Ascii.eqb_spec c newline) as [->|_]; [exfalso; apply H; left; reflexivity|].
    rewrite IH; [|intros Hin; apply H; right; exact Hin]. cbn. rewrite <- app_assoc. reflexivity.
Qed.
Lemma read_lines_join x fuel : Forall no_newline x -> length (join_lines x) < fuel -> read_lines fuel (join_lines x) = Some x.
Proof.
  revert fuel; induction x as [|s x IH]; intros fuel Hf Hl.
  - destruct fuel; reflexivity.
  - inversion Hf; subst. cbn [join_lines] in *. destruct fuel as [|fuel]; [lia|].
    rewrite app_length in Hl. cbn in Hl.
    destruct (s ++ newline :: join_lines x) eqn:E; [destruct s; discriminate|]. rewrite <- E.
    cbn [read_lines]. rewrite E. rewrite <- E. rewrite getline_app by assumption. cbn [rev app].
    rewrite IH; [reflexivity|assumption|lia].
Qed.

Lemma sync_strings_correct root xs x : nth_error xs root = Some x -> Forall no_newline x ->
  sync_vector_string root xs = Some (repeat x (length xs)).
Proof.
  intros Hr Hn. unfold sync_vector_string. rewrite Hr.
  assert (Hg : forall ys a, (forall i y, nth_error ys i = Some y -> a + i = root -> y = x) ->
    mapM (fun rx => if fst rx =? root then Some (snd rx) else read_lines (S (length (join_lines x))) (join_lines x))
      (combine (seq a (length ys)) ys) = Some (repeat x (length ys))).
  { induction ys as [|y ys IH]; intros a Hy; [reflexivity|]. cbn [length seq combine mapM fst snd repeat].
    rewrite IH; [|intros i z Hi Ha; apply (Hy (S i) z Hi); lia].
    destruct (Nat.eqb_spec a root) as [->|Hne].
    - rewrite (Hy 0 y eq_refl) by lia. reflexivity.
    - rewrite read_lines_join by (auto; lia). reflexivity. }
  apply Hg. intros i y Hi Ha. cbn in Ha. subst i. congruence.
Qed.
