(** Proofs about loading a group catalogue. *)
From Coq Require Import List ZArith Bool Arith Lia.
From Verif.Model Require Import ListMem Mpi Groups.
From Verif.Spec Require Import Groups.
From Verif.Proofs Require Import ListMemProofs ListExtra MpiProofs.
Import ListNotations.

Definition off (c : list nat) (k : nat) : nat := nsum (firstn k c).
Lemma off_mono c i j : i <= j -> off c i <= off c j.
Proof. unfold off. revert i j; induction c as [|y c IH]; intros [|i] [|j] H; cbn; try lia. specialize (IH i j). lia. Qed.
Lemma off_all c k : length c <= k -> off c k = nsum c.
Proof. intros H. unfold off. rewrite firstn_all2 by exact H. reflexivity. Qed.
Lemma off_le c k : off c k <= nsum c.
Proof. rewrite <- (off_all c (length c + k)) by lia. apply off_mono. lia. Qed.
Lemma off_S c k x : nth_error c k = Some x -> off c (S k) = off c k + x.
Proof. unfold off. revert k; induction c as [|y c IH]; intros [|k] H; cbn in *; try discriminate; [injection H as ->; cbn; lia|]. rewrite (IH k H). lia. Qed.
Lemma lb_spec c x : forall o, let l := lower_bound (offs_from o c) x in l <= length c /\ (forall k, k < l -> o + off c k < x) /\ (l < length c -> x <= o + off c l).
Proof.
  induction c as [|y c IH]; intros o; cbn [offs_from lower_bound length]; [cbn; split; [lia|split; intros; lia]|]. destruct (Nat.ltb_spec o x) as [H|H].
  - destruct (IH (o + y)) as (H1 & H2 & H3). cbn zeta in *. split; [lia|]. split.
    + intros [|k] Hk; unfold off; cbn; [lia|]. specialize (H2 k ltac:(lia)). unfold off in H2. lia.
    + intros Hl. specialize (H3 ltac:(lia)). unfold off in *. cbn. lia.
  - cbn zeta. split; [lia|]. split; [intros; lia|]. intros _. unfold off. cbn. lia.
Qed.
Lemma ub_spec c x : forall o, let l := upper_bound (offs_from o c) x in l <= length c /\ (forall k, k < l -> o + off c k <= x) /\ (l < length c -> x < o + off c l).
Proof.
  induction c as [|y c IH]; intros o; cbn [offs_from upper_bound length]; [cbn; split; [lia|split; intros; lia]|]. destruct (Nat.leb_spec o x) as [H|H].
  - destruct (IH (o + y)) as (H1 & H2 & H3). cbn zeta in *. split; [lia|]. split.
    + intros [|k] Hk; unfold off; cbn; [lia|]. specialize (H2 k ltac:(lia)). unfold off in H2. lia.
    + intros Hl. specialize (H3 ltac:(lia)). unfold off in *. cbn. lia.
  - cbn zeta. split; [lia|]. split; [intros; lia|]. intros _. unfold off. cbn. lia.
Qed.

(** *** Slices of the concatenation. *)
Definition slice {A} (l : list A) (b e : nat) : list A := firstn (e - b) (skipn b l).
Lemma slice_app {A} (x r : list A) b e : slice (x ++ r) b e = slice x b (min e (length x)) ++ slice r (b - length x) (e - length x).
Proof.
  unfold slice. rewrite skipn_app, firstn_app, skipn_length. f_equal.
  - destruct (Nat.le_ge_cases e (length x)) as [H|H]; [rewrite Nat.min_l by lia; reflexivity|]. rewrite Nat.min_r by lia. rewrite !firstn_all2; [reflexivity|rewrite skipn_length; lia|rewrite skipn_length; lia].
  - f_equal. lia.
Qed.
Lemma slice_empty {A} (l : list A) b e : e <= b -> slice l b e = [].
Proof. intros H. unfold slice. replace (e - b) with 0 by lia. reflexivity. Qed.
(** The part of file [k] inside [b, e). *)
Definition part (files : list (list Z)) (b e k : nat) : list Z :=
  match nth_error files k with Some f => let o := off (map (@length Z) files) k in slice f (b - o) (min (e - o) (length f)) | None => [] end.
Lemma slice_files files : forall b e, slice (concat files) b e = concat (map (part files b e) (seq 0 (length files))).
Proof.
  induction files as [|f files IH]; intros b e; cbn [concat length seq map]; [unfold slice; rewrite skipn_nil, firstn_nil; reflexivity|]. rewrite slice_app, IH. f_equal.
  - unfold part. cbn [nth_error]. unfold off. cbn [firstn nsum]. rewrite !Nat.sub_0_r. reflexivity.
  - f_equal. rewrite <- seq_shift, map_map. apply map_ext_in. intros k _. unfold part. cbn [nth_error]. destruct (nth_error files k) as [g|]; [|reflexivity]. cbn zeta. unfold off. cbn [map firstn nsum]. f_equal; [lia|]. f_equal. lia.
Qed.
Lemma mapM_all {A B} (f : A -> option B) (g : A -> B) l : (forall x, In x l -> f x = Some (g x)) -> mapM f l = Some (map g l).
Proof. induction l as [|x r IH]; intros H; [reflexivity|]. cbn. rewrite (H x (or_introl eq_refl)), IH by (intros y Hy; apply H; right; exact Hy). reflexivity. Qed.
Lemma cut_length lens : forall ids, length (cut lens ids) = length lens.
Proof. induction lens as [|n t IH]; intros ids; cbn; [reflexivity|]. rewrite IH. reflexivity. Qed.
Lemma cut_app a : forall b ids, cut (a ++ b) ids = cut a ids ++ cut b (skipn (nsum a) ids).
Proof. induction a as [|n t IH]; intros b ids; cbn; [reflexivity|]. rewrite IH, skipn_skipn. reflexivity. Qed.
Lemma cut_firstn lens : forall m ids, nsum lens <= m -> cut lens (firstn m ids) = cut lens ids.
Proof.
  induction lens as [|n t IH]; intros m ids H; cbn in *; [reflexivity|]. f_equal; [rewrite firstn_firstn, Nat.min_l by lia; reflexivity|]. rewrite <- (IH (m - n) (skipn n ids)) by lia. f_equal. rewrite firstn_skipn_comm. f_equal. f_equal. lia.
Qed.
Lemma populate_ok lens : forall id buffer, nsum lens <= length buffer -> populate id lens buffer = Some (combine (seq id (length lens)) (cut lens buffer)).
Proof.
  induction lens as [|n t IH]; intros id buffer H; cbn [populate length seq cut combine]; [reflexivity|]. cbn [nsum] in H. destruct (Nat.leb_spec n (length buffer)); [|lia]. rewrite IH by (rewrite skipn_length; lia). reflexivity.
Qed.

Lemma combine_app2 {A B} (a a' : list A) (b b' : list B) : length a = length b -> combine (a ++ a') (b ++ b') = combine a b ++ combine a' b'.
Proof. revert b. induction a as [|x a IH]; intros [|y b] H; try discriminate; [reflexivity|]. cbn. rewrite IH by (cbn in H; lia). reflexivity. Qed.
Lemma firstn_plus {A} m k (l : list A) : firstn (m + k) l = firstn m l ++ firstn k (skipn m l).
Proof. revert m. induction l as [|x l IH]; intros [|m]; cbn; try reflexivity; [rewrite firstn_nil; reflexivity|]. rewrite IH. reflexivity. Qed.
Lemma off_plus c k d : off c (k + d) = off c k + nsum (firstn d (skipn k c)).
Proof. unfold off. rewrite firstn_plus, nsum_app. reflexivity. Qed.
Section Groups.
  Variable mask : Z -> Z.
  Variables (lens : list nat) (files : list (list Z)).
  Local Notation N := (nsum (map (@length Z) files)).
  Hypothesis Hsum : nsum lens = N.
  Local Notation n := (length lens).
  Local Notation sizes := (map (@length Z) files).
  Local Notation lb x := (lower_bound (offs_from 0 lens) x).
  Lemma lb_facts x : lb x <= n /\ (forall k, k < lb x -> off lens k < x) /\ (x <= N -> x <= off lens (lb x)).
  Proof.
    destruct (lb_spec lens x 0) as (H1 & H2 & H3). cbn zeta in *. cbn [plus] in *. split; [exact H1|]. split; [exact H2|]. intros Hx. destruct (Nat.eq_dec (lb x) n) as [E|E]; [|apply H3; lia]. rewrite E, off_all, Hsum by lia. exact Hx.
  Qed.
  (** A process begins at a halo and no earlier halo begins there. *)
  Definition at_halo (b : nat) : Prop := off lens (lb b) = b /\ b <= N.
  Lemma read_ok i0 i1 b e o0 o1 nh h0 : b <= e -> e <= N -> i0 < length files -> 0 < i1 <= length files -> o0 = off sizes i0 -> o1 = off sizes (i1 - 1) ->
    o0 <= b -> (S i0 < length files -> b < off sizes (S i0)) -> (forall k, k < i1 -> off sizes k < e) -> (i1 < length files -> e <= off sizes i1) ->
    read_particles mask files {| k_ifile_begin := i0; k_ifile_end := i1; k_first := b - o0; k_last := e - o1; k_npart := e - b; k_halo := h0; k_nhalo := nh |} = Some (map mask (slice (concat files) b e)).
  Proof.
    intros Hbe HeN Hi0 Hi1 Ho0 Ho1 Hb0 Hb1 He1 He2. unfold read_particles. cbn [k_ifile_begin k_ifile_end k_first k_last].
    assert (Hlast : forall k f, nth_error files k = Some f -> off sizes (S k) = off sizes k + length f) by (intros k f Hk; apply off_S; apply map_nth_error; exact Hk).
    assert (Hub : forall k, S i0 <= k -> k < length files -> b < off sizes k) by (intros k H1 H2; eapply Nat.lt_le_trans; [apply Hb1; lia|apply off_mono; lia]).
    assert (Hend : e <= off sizes i1) by (destruct (Nat.eq_dec i1 (length files)) as [->|E]; [rewrite off_all by (rewrite map_length; lia); exact HeN|apply He2; lia]).
    rewrite (mapM_all _ (fun k => map mask (part files b e k))).
    - cbn [option_map]. f_equal. rewrite slice_files, concat_map, map_map. destruct (Nat.le_gt_cases i0 i1) as [Hle|Hgt].
      + replace (length files) with (i0 + ((i1 - i0) + (length files - i1))) by lia. rewrite !seq_app, !map_app, !concat_app. cbn [plus].
        assert (Hz : forall a m, (forall k, a <= k < a + m -> part files b e k = []) -> concat (map (fun k => map mask (part files b e k)) (seq a m)) = []).
        { intros a m. revert a. induction m as [|m IH]; intros a H; [reflexivity|]. cbn [seq map concat]. rewrite (H a) by lia. cbn [map app]. apply IH. intros k Hk. apply H. lia. }
        rewrite (Hz 0 i0), (Hz (i0 + (i1 - i0)) (length files - i1)); [rewrite app_nil_r; reflexivity| |].
        * intros k Hk. unfold part. destruct (nth_error files k) as [f|] eqn:Ef; [|reflexivity]. cbn zeta. apply slice_empty. assert (off sizes i1 <= off sizes k) by (apply off_mono; lia). lia.
        * intros k Hk. unfold part. destruct (nth_error files k) as [f|] eqn:Ef; [|reflexivity]. cbn zeta. apply slice_empty. pose proof (Hlast k f Ef). assert (off sizes (S k) <= off sizes i0) by (apply off_mono; lia). lia.
      + replace (i1 - i0) with 0 by lia. cbn [seq map concat]. symmetry. assert (Heb : e <= b) by (assert (off sizes i1 <= off sizes i0) by (apply off_mono; lia); lia).
        assert (Hz : forall l, concat (map (fun k => map mask (part files b e k)) l) = []); [|apply Hz]. induction l as [|k l IH]; [reflexivity|]. cbn [map concat]. rewrite IH, app_nil_r. unfold part. destruct (nth_error files k) as [f|]; [|reflexivity]. cbn zeta. rewrite slice_empty by lia. reflexivity.
    - intros k Hk. apply in_seq in Hk. destruct (nth_error_in_range files k) as [f Hf]; [lia|]. rewrite Hf. pose proof (Hlast k f Hf) as HS. unfold part. rewrite Hf. cbn zeta. pose proof (He1 k ltac:(lia)) as He1k. unfold read_slice.
      assert (Hbk : k <> i0 -> b - off sizes k = 0) by (intros Hne; specialize (Hub k ltac:(lia) ltac:(lia)); lia).
      destruct (Nat.eqb_spec k (i1 - 1)) as [E1|E1].
      + assert (Hek : e - off sizes k <= length f). { replace i1 with (S k) in Hend by lia. lia. } rewrite <- E1 in Ho1. rewrite Nat.min_l by exact Hek.
        destruct (Nat.eqb_spec k i0) as [E0|E0].
        * rewrite <- E0 in Ho0. subst o0 o1. destruct (Nat.leb_spec (e - off sizes k) (length f)); [|lia]. destruct (Nat.leb_spec (b - off sizes k) (e - off sizes k)); [|lia]. cbn [andb]. reflexivity.
        * subst o1. destruct (Nat.leb_spec (e - off sizes k) (length f)); [|lia]. cbn [Nat.leb andb]. rewrite (Hbk E0). reflexivity.
      + assert (Hek : length f <= e - off sizes k) by (specialize (He1 (S k) ltac:(lia)); lia). rewrite Nat.min_r by exact Hek. rewrite Nat.leb_refl. cbn [andb].
        destruct (Nat.eqb_spec k i0) as [E0|E0].
        * subst k. subst o0. specialize (Hb1 ltac:(lia)). destruct (Nat.leb_spec (b - off sizes i0) (length f)); [|lia]. reflexivity.
        * cbn [Nat.leb]. rewrite (Hbk E0). reflexivity.
  Qed.
  Local Notation ids := (map mask (concat files)).
  Lemma slice_map b e : map mask (slice (concat files) b e) = slice ids b e.
  Proof. unfold slice. rewrite skipn_map, firstn_map. reflexivity. Qed.
  Lemma assign_one nw b : 0 < nw -> at_halo b -> 0 < N -> (0 < b \/ nw <= N) ->
    exists t b', assign_task nw N (displacements lens ++ [N]) (displacements sizes) b = Some (t, b') /\ at_halo b' /\ b <= b' /\ 0 < b' /\ (nw = 1 -> b' = N) /\
      load_rank mask lens files t = Some (combine (seq (lb b) (lb b' - lb b)) (cut (firstn (lb b' - lb b) (skipn (lb b) lens)) (skipn b ids))).
  Proof.
    intros Hnw [Hb HbN] HN Hpos. unfold assign_task. destruct (Nat.eqb_spec N 0) as [E|_]; [lia|]. rewrite removelast_last, !displacements_eq. assert (Hq : (N - b) / nw <= N - b /\ (b = 0 -> nw <= N -> 1 <= (N - b) / nw) /\ (nw = 1 -> (N - b) / nw = N - b)).
    { split; [apply Nat.div_le_upper_bound; [lia|nia]|]. split; [intros -> H; apply Nat.div_le_lower_bound; lia|intros ->; apply Nat.div_1_r]. }
    destruct Hq as (Hq1 & Hq2 & Hq3). set (qq := (N - b) / nw) in *. clearbody qq. set (e0 := b + qq).
    assert (He0 : e0 <= N) by (unfold e0; lia). assert (Hp0 : 0 < e0) by (unfold e0; lia).
    destruct (lb_facts e0) as (F1 & F2 & F3). specialize (F3 He0). set (h1 := lb e0) in *. set (e := off lens h1) in *.
    assert (Hnth : nth_error (offs_from 0 lens ++ [N]) h1 = Some e). { destruct (Nat.eq_dec h1 n) as [E|E]; [rewrite nth_error_app2, offs_from_length, E, Nat.sub_diag by (rewrite offs_from_length; lia); unfold e; rewrite E, off_all, Hsum by lia; reflexivity|]. rewrite nth_error_app1, offs_from_nth by (rewrite ?offs_from_length; lia). reflexivity. }
    rewrite Hnth. assert (HeN : e <= N) by (unfold e; rewrite <- Hsum; apply off_le). assert (Hbe : b <= e) by (unfold e0 in *; lia).
    assert (Hat : at_halo e). { split; [|exact HeN]. assert (E : lb e = h1); [|rewrite E; reflexivity]. destruct (lb_facts e) as (G1 & G2 & G3). specialize (G3 HeN). destruct (Nat.lt_trichotomy (lb e) h1) as [L|[L|L]]; [specialize (F2 _ L); lia|exact L|specialize (G2 _ L); unfold e in G2; lia]. }
    assert (Elb : lb e = h1). { destruct (lb_facts e) as (G1 & G2 & G3). specialize (G3 HeN). destruct (Nat.lt_trichotomy (lb e) h1) as [L|[L|L]]; [specialize (F2 _ L); lia|exact L|specialize (G2 _ L); unfold e in G2; lia]. }
    destruct (ub_spec sizes b 0) as (U1 & U2 & U3). destruct (lb_spec sizes e 0) as (V1 & V2 & V3). cbn zeta in *. cbn [plus] in *. rewrite map_length in *. set (u := upper_bound (offs_from 0 sizes) b) in *. set (v := lower_bound (offs_from 0 sizes) e) in *.
    assert (Hf0 : 0 < length files) by (destruct files; [cbn in HN; lia|cbn; lia]). assert (Hu : 0 < u) by (destruct (Nat.eq_dec u 0) as [E|]; [|lia]; rewrite E in U3; specialize (U3 Hf0); unfold off in U3; cbn in U3; lia).
    assert (Hv : 0 < v) by (destruct (Nat.eq_dec v 0) as [E|]; [|lia]; rewrite E in V3; specialize (V3 Hf0); unfold off in V3; cbn in V3; lia).
    destruct u as [|i0] eqn:Eu; [lia|]. destruct v as [|j] eqn:Ev; [lia|]. rewrite !offs_from_nth by (rewrite map_length; lia). cbn [plus]. fold (off sizes i0). fold (off sizes j).
    eexists. exists e. split; [reflexivity|]. split; [exact Hat|]. split; [exact Hbe|]. split; [lia|]. split; [intros E; specialize (Hq3 E); unfold e0 in *; lia|].
    assert (Hh : lb b <= h1). { destruct (Nat.le_gt_cases (lb b) h1) as [L|L]; [exact L|]. destruct (lb_facts b) as (_ & G2 & _). specialize (G2 _ L). fold e in G2. lia. }
    unfold load_rank. cbn [k_halo k_nhalo]. replace (lb b + (h1 - lb b)) with h1 by lia. destruct (Nat.leb_spec h1 n); [|lia].
    rewrite (read_ok i0 (S j) b e (off sizes i0) (off sizes j)); try lia; try (rewrite Nat.sub_succ, Nat.sub_0_r; reflexivity); try assumption; try (apply U2; lia).
    assert (Hns : nsum (firstn (h1 - lb b) (skipn (lb b) lens)) = e - b).
    { assert (E : off lens h1 = off lens (lb b) + nsum (firstn (h1 - lb b) (skipn (lb b) lens))); [|rewrite Hb in E; fold e in E; lia]. rewrite <- off_plus. f_equal. lia. }
    rewrite slice_map. assert (Hli : length ids = N) by (rewrite map_length, concat_length_nsum; reflexivity).
    rewrite populate_ok; [|rewrite Hns; unfold slice; rewrite firstn_length, skipn_length, Hli; lia]. f_equal. rewrite Elb. f_equal.
    - f_equal. rewrite firstn_length, skipn_length. lia.
    - unfold slice. apply cut_firstn. lia.
  Qed.
  Lemma assign_all : 0 < N -> forall nw b, at_halo b -> (0 < b \/ nw <= N) -> (nw = 0 -> b = N) ->
    exists ts out, assign_tasks nw N (displacements lens ++ [N]) (displacements sizes) b = Some ts /\ mapM (load_rank mask lens files) ts = Some out /\ length out = nw /\
      concat out = combine (seq (lb b) (lb N - lb b)) (cut (firstn (lb N - lb b) (skipn (lb b) lens)) (skipn b ids)).
  Proof.
    intros HN. induction nw as [|nw IH]; intros b Hat Hpos Hz; cbn [assign_tasks].
    - exists [], []. rewrite (Hz eq_refl), Nat.sub_diag. cbn. auto.
    - destruct (assign_one (S nw) b ltac:(lia) Hat HN Hpos) as (t & b' & -> & Hat' & Hle & Hb0 & Hlast & Hload). destruct (IH b' Hat' (or_introl Hb0)) as (ts & out & -> & HM & HL & HC); [intros ->; apply Hlast; reflexivity|].
      exists (t :: ts), (combine (seq (lb b) (lb b' - lb b)) (cut (firstn (lb b' - lb b) (skipn (lb b) lens)) (skipn b ids)) :: out). split; [reflexivity|]. split; [cbn; rewrite Hload, HM; reflexivity|]. split; [cbn; lia|]. cbn [concat]. rewrite HC.
      assert (Hmono : forall x y, x <= y -> y <= N -> lb x <= lb y). { intros x y Hxy Hy. destruct (Nat.le_gt_cases (lb x) (lb y)) as [L|L]; [exact L|]. destruct (lb_facts x) as (_ & G & _). specialize (G _ L). destruct (lb_facts y) as (_ & _ & G3). specialize (G3 Hy). lia. }
      destruct Hat as [Hb HbN]. destruct Hat' as [Hb' HbN']. pose proof (Hmono b b' Hle HbN'). pose proof (Hmono b' N HbN' (Nat.le_refl _)). destruct (lb_facts N) as (L1 & _ & _).
      set (h0 := lb b) in *. set (h1 := lb b') in *. set (h2 := lb N) in *.
      replace (firstn (h2 - h0) (skipn h0 lens)) with (firstn (h1 - h0) (skipn h0 lens) ++ firstn (h2 - h1) (skipn h1 lens)).
      + rewrite cut_app, skipn_skipn. assert (Hns : nsum (firstn (h1 - h0) (skipn h0 lens)) = b' - b).
        { assert (E : off lens h1 = off lens h0 + nsum (firstn (h1 - h0) (skipn h0 lens))); [|lia]. rewrite <- off_plus. f_equal. lia. }
        rewrite Hns. replace (b + (b' - b)) with b' by lia. replace (h2 - h0) with ((h1 - h0) + (h2 - h1)) by lia. rewrite seq_app. replace (h0 + (h1 - h0)) with h1 by lia.
        rewrite combine_app2; [reflexivity|]. rewrite seq_length, cut_length, firstn_length, skipn_length. lia.
      + replace (h2 - h0) with ((h1 - h0) + (h2 - h1)) by lia. rewrite firstn_plus. f_equal. f_equal. rewrite skipn_skipn. f_equal. lia.
  Qed.
End Groups.
