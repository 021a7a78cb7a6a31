(** Proofs about the particle query, part 3: all processes. *)
From Coq Require Import List ZArith Bool Lia Sorting.Permutation Sorting.Sorted.
From Verif.Model Require Import ListMem Run Mpi Hash ParticleExchange.
From Verif.Spec Require Import Lookup Query Comm Exchange.
From Verif.Proofs Require Import ListMemProofs HashProofs MpiProofs RestoreProofs QueryProofs QueryProofs2.
Import ListNotations.
Local Open Scope nat_scope.

Lemma mapR_eq {A B C} (f : B -> run C) (g : A -> B) (k : A -> C) (l : list A) :
  (forall x, In x l -> f (g x) = Done (k x)) -> mapR f (map g l) = Done (map k l).
Proof.
  induction l as [|x l IH]; intros H; [reflexivity|]. cbn [map mapR]. rewrite H by (left; reflexivity).
  rewrite IH by (intros; apply H; right; assumption). reflexivity.
Qed.
Lemma square_ext {A} W (m m' : list (list A)) : square W m -> square W m' ->
  (forall i j, i < W -> j < W -> cell m i j = cell m' i j) -> m = m'.
Proof.
  intros [H1 H2] [H1' H2'] H. apply nth_error_ext. intros i. destruct (Nat.lt_ge_cases i W) as [Hi|Hi].
  - destruct (nth_error_in_range m i) as [row E]; [lia|]. destruct (nth_error_in_range m' i) as [row' E']; [lia|].
    rewrite E, E'. f_equal. rewrite Forall_forall in H2, H2'. pose proof (H2 row (nth_error_In _ _ E)) as L.
    pose proof (H2' row' (nth_error_In _ _ E')) as L'. apply nth_error_ext. intros j. destruct (Nat.lt_ge_cases j W) as [Hj|Hj].
    + specialize (H i j Hi Hj). unfold cell in H. rewrite E, E' in H. exact H.
    + transitivity (@None A); [|symmetry]; apply nth_error_None; lia.
  - transitivity (@None (list A)); [|symmetry]; apply nth_error_None; lia.
Qed.
Lemma combine_map2 {A B C} (f : A -> B) (g : A -> C) l : combine (map f l) (map g l) = map (fun x => (f x, g x)) l.
Proof. induction l; cbn; [reflexivity|]. f_equal; auto. Qed.
Lemma combine_map_id {A B} (f : A -> B) l : combine (map f l) l = map (fun x => (f x, x)) l.
Proof. induction l; cbn; [reflexivity|]. f_equal; auto. Qed.
Lemma map_snd_combine {A B C} (F : B -> C) (l : list A) m : length l = length m -> map (fun p => F (snd p)) (combine l m) = map F m.
Proof. revert m; induction l as [|x l IH]; intros [|y m] H; cbn in *; try discriminate; [reflexivity|]. f_equal. apply IH. lia. Qed.
Lemma seg_concat {A} (ls : list (list A)) s x : nth_error ls s = Some x ->
  firstn (length x) (skipn (nsum (firstn s (map (@length A) ls))) (concat ls)) = x.
Proof.
  intros H. apply nth_error_split in H as (l1 & l2 & -> & <-). rewrite map_app, concat_app. cbn [map concat].
  rewrite firstn_app, map_length, Nat.sub_diag. cbn [firstn]. rewrite app_nil_r, (firstn_all2 (n := length l1) (map (@length A) l1)) by (rewrite map_length; lia).
  rewrite <- concat_length_nsum, skipn_app, skipn_all, Nat.sub_diag. cbn [skipn app].
  rewrite firstn_app, Nat.sub_diag, firstn_all. cbn. apply app_nil_r.
Qed.
Lemma nth_error_seq a n i : i < n -> nth_error (seq a n) i = Some (a + i).
Proof. intros H. rewrite nth_error_nth' with (d := 0) by (rewrite seq_length; exact H). rewrite seq_nth by exact H. reflexivity. Qed.

Section All.
  Context {X : Type}.
  Local Notation part := (Z * X)%type.
  Variable null : Z.
  Hypothesis Hnull : (null < 0)%Z.
  Variable chunk : nat.
  Hypothesis Hchunk : 1 <= chunk.
  Variable sort_local : list (part * nat) -> list (part * nat).
  Hypothesis local_perm : forall l, Permutation (sort_local l) l.
  Hypothesis local_sorted : forall l, StronglySorted Z.le (map (fun p => fst (fst p)) (sort_local l)).
  Variable sort_roam : list (Z * (X * nat)) -> list (Z * (X * nat)).
  Hypothesis roam_perm : forall l, Permutation (sort_roam l) l.
  Hypothesis roam_sorted : forall l, StronglySorted Z.le (map fst (sort_roam l)).
  Variables (ranges : list Z) (snaps : list (snap_proc X)) (halos : list (list (list part))).
  Let W := length halos.
  Hypothesis HW : length snaps = length halos.
  Hypothesis Hloc : located ranges (map sp_parts snaps).
  Hypothesis Huniq : NoDup (map fst (concat (map sp_parts snaps))).
  Hypothesis Htab : Forall (table_ok null) snaps.
  Variable lo0 : Z.
  Hypothesis Hlo0 : nth_error ranges 0 = Some lo0.
  Hypothesis Hids : forall h l p hi, In h halos -> In l h -> In p l -> nth_error ranges W = Some hi -> (fst p < hi)%Z.

  Let U := refreshed_above null lo0 (map sp_parts snaps).
  Let L (h : list (list part)) := sort_local (collect h).
  Let I (h : list (list part)) := map (fun x => lb x (L h)) (firstn W ranges).

  Lemma len_ranges : length ranges = S W.
  Proof. destruct Hloc as [H _]. rewrite H, map_length, HW. reflexivity. Qed.
  Lemma sorted_ranges : StronglySorted Z.le ranges.
  Proof. apply Hloc. Qed.
  Lemma collect_in (h : list (list part)) p : In p (collect h) -> exists l, In l h /\ In (fst p) l.
  Proof.
    unfold collect. destruct p as [p o]. intros H. apply in_combine_l in H. apply in_concat in H as (l & H1 & H2). eauto.
  Qed.
  Lemma L_below h p hi : In h halos -> In p (L h) -> nth_error ranges W = Some hi -> (pid p < hi)%Z.
  Proof.
    intros Hh Hp Hhi. apply (Permutation_in _ (local_perm _)) in Hp. apply collect_in in Hp as (l & H1 & H2).
    exact (Hids h l (fst p) hi Hh H1 H2 Hhi).
  Qed.
  Lemma prepare_spec h : In h halos -> prepare sort_local ranges W h = Done (L h, I h).
  Proof.
    intros Hh. unfold prepare. fold (L h). rewrite iterators_spec.
    - reflexivity.
    - apply len_ranges.
    - apply sorted_ranges.
    - apply local_sorted.
    - intros p hi Hp Hhi. eapply L_below; eauto.
  Qed.
  Lemma I_length h : length (I h) = W.
  Proof. unfold I. rewrite map_length, firstn_length, len_ranges. lia. Qed.
  Lemma I_nth h r lo : r < W -> nth_error ranges r = Some lo -> nth_error (I h) r = Some (lb lo (L h)).
  Proof.
    intros Hr Hlo. unfold I. apply (map_nth_error (fun x => lb x (L h))). rewrite <- Hlo.
    rewrite <- (firstn_skipn W ranges) at 2. rewrite nth_error_app1; [reflexivity|]. rewrite firstn_length, len_ranges. lia.
  Qed.
  Lemma I_mono h : mono (I h) (length (L h)).
  Proof.
    intros i j a b Hij Ha Hb. pose proof (nth_error_lt _ _ _ Hb) as Hj. rewrite I_length in Hj.
    destruct (nth_error_in_range ranges i) as [x Hx]; [rewrite len_ranges; lia|].
    destruct (nth_error_in_range ranges j) as [y Hy]; [rewrite len_ranges; lia|].
    rewrite (I_nth h i x) in Ha by (lia || assumption). rewrite (I_nth h j y) in Hb by (lia || assumption).
    injection Ha as <-. injection Hb as <-. split; [|apply lb_le]. apply lb_mono.
    eapply (ss_nth (fun z => z) ranges i j); eauto. rewrite map_id. apply sorted_ranges.
  Qed.
  Let SL (h : list (list part)) := cuts (I h) (L h).
  Lemma SL_length h : length (SL h) = W.
  Proof. unfold SL. rewrite cuts_length. apply I_length. Qed.
  Lemma SL_range h r c lo hi p : In h halos -> r < W -> nth_error (SL h) r = Some c -> nth_error ranges r = Some lo ->
    nth_error ranges (S r) = Some hi -> In p c -> (lo <= pid p < hi)%Z.
  Proof.
    intros Hh Hr Hc Hlo Hhi Hp.
    assert (E : c = firstn (lb hi (L h) - lb lo (L h)) (skipn (lb lo (L h)) (L h))).
    { apply (cuts_bounds (I h) (L h) r (lb lo (L h)) (lb hi (L h)) c).
      - apply I_mono.
      - apply I_nth; assumption.
      - destruct (Nat.eq_dec (S r) W) as [E|E].
        + right. split; [apply nth_error_None; rewrite I_length; lia|]. apply lb_below. intros q Hq.
          eapply L_below; eauto. rewrite <- E. exact Hhi.
        + left. apply I_nth; [lia|exact Hhi].
      - exact Hc. }
    rewrite E in Hp. pose proof (local_sorted (collect h)) as HS. fold (L h) in HS. split.
    - apply (lb_skipn lo (L h)); [exact HS|]. revert Hp. generalize (lb hi (L h) - lb lo (L h)). intros n Hp.
      rewrite <- (firstn_skipn n (skipn _ _)). apply in_or_app. left; exact Hp.
    - apply (lb_firstn hi (L h)); [exact HS|].
      assert (Hle : lb lo (L h) <= lb hi (L h)).
      { apply lb_mono. eapply (ss_nth (fun z => z) ranges r (S r)); eauto. rewrite map_id. apply sorted_ranges. }
      replace (lb hi (L h)) with (lb lo (L h) + (lb hi (L h) - lb lo (L h))) by lia.
      rewrite <- (firstn_skipn (lb lo (L h)) (firstn _ (L h))). apply in_or_app. right.
      rewrite skipn_firstn_comm. replace (lb lo (L h) + (lb hi (L h) - lb lo (L h)) - lb lo (L h)) with (lb hi (L h) - lb lo (L h)) by lia.
      exact Hp.
  Qed.

  Lemma nodup_sub {A B} (f : A -> B) (ls : list (list A)) l : In l ls -> NoDup (map f (concat ls)) -> NoDup (map f l).
  Proof.
    induction ls as [|x ls IH]; intros Hin H; [destruct Hin|]. cbn in H. rewrite map_app in H. destruct Hin as [->|Hin].
    - eapply NoDup_app_remove_r; eauto.
    - apply IH; [exact Hin|]. eapply NoDup_app_remove_l; eauto.
  Qed.
  (** the answer of the owner is the answer of the whole snapshot *)
  Lemma answer_U r s lo hi p : nth_error snaps r = Some s -> nth_error ranges r = Some lo -> nth_error ranges (S r) = Some hi ->
    (lo <= fst p < hi)%Z -> answer null (sp_parts s) p = U p.
  Proof.
    intros Hs Hlo Hhi Hp. unfold answer, U, refreshed_above, refreshed, record_of.
    assert (lo0 <= lo)%Z.
    { eapply (ss_nth (fun z => z) ranges 0 r); eauto; [rewrite map_id; apply sorted_ranges|lia]. }
    destruct (Z.ltb_spec (fst p) lo0); [lia|].
    destruct Hloc as (_ & _ & HL).
    assert (Hparts : nth_error (map sp_parts snaps) r = Some (sp_parts s)) by (apply map_nth_error; exact Hs).
    assert (Hin : In (sp_parts s) (map sp_parts snaps)) by (eapply nth_error_In; eauto).
    destruct (find _ (concat _)) as [q|] eqn:E.
    - apply find_some in E as [Hq Eq]. apply Z.eqb_eq in Eq.
      assert (Hq' : In q (sp_parts s)) by (apply (HL r (sp_parts s) lo hi q); auto; lia).
      rewrite <- Eq. rewrite find_unique; [reflexivity| |exact Hq']. eapply nodup_sub; eauto.
    - rewrite find_none; [reflexivity|]. intros Hk. apply in_map_iff in Hk as (q & Hq1 & Hq2).
      assert (Hq3 : In q (concat (map sp_parts snaps))) by (apply in_concat; eauto).
      pose proof (List.find_none _ _ E _ Hq3) as HF. cbn in HF. rewrite Hq1, Z.eqb_refl in HF. discriminate.
  Qed.

  Let G (r : nat) := map (fun h => map fst (nth r (SL h) [])) halos.
  Let got := map G (seq 0 W).
  Lemma got_cell r s h : r < W -> nth_error halos s = Some h -> cell got r s = Some (map fst (nth r (SL h) [])).
  Proof.
    intros Hr Hs. unfold cell, got. rewrite (map_nth_error G r _ (nth_error_seq 0 W r Hr)). unfold G. cbn.
    apply (map_nth_error (fun h => map fst (nth r (SL h) []))). exact Hs.
  Qed.
  Lemma got_square : square W got.
  Proof.
    split; [unfold got; rewrite map_length, seq_length; reflexivity|]. apply Forall_forall. intros row H. unfold got in H.
    apply in_map_iff in H as (r & <- & _). unfold G. apply map_length.
  Qed.
  Lemma got_spec : my_all_to_all chunk
      (map (fun h => map (fun d => map fst (skipn d (L h))) (I h)) halos) (map (fun h => sizes (I h) (length (L h))) halos) = Some got.
  Proof.
    destruct (all_to_all_correct chunk W (map (fun h => map (fun d => map fst (skipn d (L h))) (I h)) halos)
                (map (fun h => sizes (I h) (length (L h))) halos)) as (outs & HO & HS & HC); [exact Hchunk| |].
    - split; [|split].
      + split; [apply map_length|]. apply Forall_forall. intros row H. apply in_map_iff in H as (h & <- & _). rewrite map_length. apply I_length.
      + split; [apply map_length|]. apply Forall_forall. intros row H. apply in_map_iff in H as (h & <- & _).
        rewrite cuts_sizes by apply I_mono. rewrite map_length. apply SL_length.
      + intros s r xs c H1 H2. unfold cell in H1, H2. rewrite nth_error_map in H1, H2. destruct (nth_error halos s) as [h|] eqn:Eh; [|discriminate].
        cbn [option_map] in H1, H2. rewrite nth_error_map in H1. destruct (nth_error (I h) r) as [d|] eqn:Ed; [|discriminate]. injection H1 as <-.
        rewrite cuts_sizes, nth_error_map in H2 by apply I_mono. destruct (cuts_nth (I h) (L h) r d (I_mono h) Ed) as (cc & Hcc & Hcc').
        rewrite Hcc in H2. injection H2 as <-. rewrite map_length. rewrite Hcc' at 1. rewrite firstn_length. lia.
    - rewrite HO. f_equal. apply (square_ext W); [exact HS|apply got_square|]. intros r s Hr Hs.
      destruct (nth_error_in_range halos s Hs) as [h Hh]. rewrite (got_cell r s h Hr Hh).
      destruct (nth_error_in_range (I h) r) as [d Hd]; [rewrite I_length; exact Hr|].
      destruct (cuts_nth (I h) (L h) r d (I_mono h) Hd) as (c & Hc & Hc').
      rewrite (HC s r (map fst (skipn d (L h))) (length c)).
      + fold (SL h) in Hc. rewrite (nth_error_nth _ _ [] Hc). rewrite firstn_map, <- Hc'. reflexivity.
      + unfold cell. rewrite (map_nth_error _ _ _ Hh). apply (map_nth_error (fun d => map fst (skipn d (L h)))). exact Hd.
      + unfold cell. rewrite (map_nth_error _ _ _ Hh). rewrite cuts_sizes by apply I_mono. apply map_nth_error. exact Hc.
  Qed.

  Let F (g : list (list part)) := concat (map (map U) g).
  Lemma answered_spec : mapR (fun sg => query null sort_roam (fst sg) (concat (snd sg))) (combine snaps got) = Done (map F got).
  Proof.
    pose proof (mapR_eq (fun sg => query null sort_roam (fst sg) (concat (snd sg))) (fun x => x) (fun sg => F (snd sg)) (combine snaps got)) as H.
    rewrite map_id in H. rewrite H; [f_equal; apply map_snd_combine; rewrite (proj1 got_square); exact HW|].
    intros [s g] Hin. cbn [fst snd]. apply In_nth_error in Hin as [r Hr]. apply combine_nth_error_inv in Hr as [Hs Hg].
    rewrite query_spec; auto.
    - f_equal. unfold F. rewrite concat_map. f_equal. apply map_ext_in. intros l Hl. apply map_ext_in. intros p Hp.
      assert (HrW : r < W) by (pose proof (nth_error_lt _ _ _ Hg) as HH; rewrite (proj1 got_square) in HH; exact HH).
      unfold got in Hg. rewrite (map_nth_error G r _ (nth_error_seq 0 W r HrW)) in Hg. injection Hg as <-. cbn in Hl.
      unfold G in Hl. apply in_map_iff in Hl as (h & <- & Hh). apply in_map_iff in Hp as (po & <- & Hpo).
      destruct (nth_error_in_range ranges r) as [lo Hlo]; [rewrite len_ranges; lia|].
      destruct (nth_error_in_range ranges (S r)) as [hi Hhi]; [rewrite len_ranges; lia|].
      apply (answer_U r s lo hi); auto. eapply (SL_range h r); eauto.
      rewrite nth_error_nth' with (d := []) by (rewrite SL_length; exact HrW). reflexivity.
    - rewrite Forall_forall in Htab. apply Htab. eapply nth_error_In; eauto.
    - eapply nodup_sub; [|exact Huniq]. apply in_map. eapply nth_error_In; eauto.
  Qed.

  Lemma back_spec : my_all_to_all chunk
      (map (fun g => map (fun d => skipn d (F g)) (displacements (map (@length part) g))) got) (map (map (@length part)) got)
    = Some (map (fun h => map (map (fun po => U (fst po))) (SL h)) halos).
  Proof.
    assert (Hlen : forall g, In g got -> length g = W).
    { intros g Hg. pose proof (proj2 got_square) as HH. rewrite Forall_forall in HH. auto. }
    assert (Hmap : forall g, map (@length part) (map (map U) g) = map (@length part) g).
    { intros g. rewrite map_map. apply map_ext. intros; apply map_length. }
    destruct (all_to_all_correct chunk W (map (fun g => map (fun d => skipn d (F g)) (displacements (map (@length part) g))) got)
                (map (map (@length part)) got)) as (outs & HO & HS & HC); [exact Hchunk| |].
    - split; [|split].
      + split; [rewrite map_length; apply got_square|]. apply Forall_forall. intros row H. apply in_map_iff in H as (g & <- & Hg).
        rewrite map_length, displacements_eq, offs_from_length, map_length. auto.
      + split; [rewrite map_length; apply got_square|]. apply Forall_forall. intros row H. apply in_map_iff in H as (g & <- & Hg).
        rewrite map_length. auto.
      + intros r s xs c H1 H2. unfold cell in H1, H2. rewrite nth_error_map in H1, H2. destruct (nth_error got r) as [g|] eqn:Eg; [|discriminate].
        cbn [option_map] in H1, H2. rewrite nth_error_map in H2. destruct (nth_error g s) as [x|] eqn:Ex; [|discriminate]. injection H2 as <-.
        rewrite nth_error_map, displacements_eq, offs_from_nth in H1 by (rewrite map_length; eapply nth_error_lt; eauto). injection H1 as <-.
        pose proof (seg_concat (map (map U) g) s (map U x) (map_nth_error _ _ _ Ex)) as HE. rewrite Hmap in HE. fold (F g) in HE.
        apply (f_equal (@length part)) in HE. rewrite firstn_length, map_length in HE. cbn. lia.
    - rewrite HO. f_equal. apply (square_ext W); [exact HS| |].
      + split; [apply map_length|]. apply Forall_forall. intros row H. apply in_map_iff in H as (h & <- & _). rewrite map_length. apply SL_length.
      + intros s r Hs Hr. destruct (nth_error_in_range halos s Hs) as [h Hh].
        pose proof (got_cell r s h Hr Hh) as Hg. unfold cell in Hg. destruct (nth_error got r) as [g|] eqn:Eg; [|discriminate].
        set (x := map fst (nth r (SL h) [])) in *.
        rewrite (HC r s (skipn (nsum (firstn s (map (@length part) g))) (F g)) (length x)).
        * unfold cell. rewrite (map_nth_error _ _ _ Hh).
          rewrite (map_nth_error (map (fun po => U (fst po))) r (SL h) (d := nth r (SL h) [])).
          -- f_equal. pose proof (seg_concat (map (map U) g) s (map U x) (map_nth_error _ _ _ Hg)) as HE. rewrite Hmap, map_length in HE. fold (F g) in HE.
             rewrite HE. unfold x. rewrite map_map. reflexivity.
          -- apply nth_error_nth'. rewrite SL_length. exact Hr.
        * unfold cell. rewrite (map_nth_error _ _ _ Eg). apply (map_nth_error (fun d => skipn d (F g))).
          rewrite displacements_eq, offs_from_nth; [reflexivity|]. rewrite map_length. eapply nth_error_lt; eauto.
        * unfold cell. rewrite (map_nth_error _ _ _ Eg). apply map_nth_error. exact Hg.
  Qed.

  Lemma exchange_correct_above : exchange null chunk sort_local sort_roam ranges snaps halos = Done (map (map (map U)) halos).
  Proof.
    unfold exchange. fold W.
    pose proof (mapR_eq (prepare sort_local ranges W) (fun x => x) (fun h => (L h, I h)) halos prepare_spec) as HP. rewrite map_id in HP.
    rewrite HP, !map_map. cbn [fst snd]. rewrite got_spec, answered_spec, combine_map2, map_map. cbn [fst snd]. rewrite back_spec.
    rewrite combine_map2, combine_map_id. apply mapR_eq. intros h Hh. cbn [fst snd].
    assert (HWpos : 0 < W) by (unfold W; destruct halos; [destruct Hh|cbn; lia]).
    pose proof (I_length h) as HL. pose proof (I_nth h 0 lo0 HWpos Hlo0) as H0. pose proof (I_mono h) as HM. unfold SL.
    destruct (I h) as [|a its]; [cbn in HL; lia|]. cbn in H0. injection H0 as ->. apply finish_spec; [exact HM|apply local_perm|].
    intros po Hpo. apply lb_firstn in Hpo; [|apply local_sorted]. unfold pid in Hpo. unfold U, refreshed_above.
    destruct (Z.ltb_spec (fst (fst po)) lo0); [reflexivity|lia].
  Qed.
End All.

(** The published ranges of a redistribution locate every particle. *)
Lemma redistributed_located {X} (parts new : list (list (Z * X))) ranges : 1 <= length parts -> length parts <= length (concat parts) ->
  redistributed fst parts new ranges -> located ranges new.
Proof.
  intros HW HN (H1 & H2 & H3 & H4 & H5 & H6 & H7). split; [congruence|]. split.
  - assert (Hstep : forall i a b, nth_error ranges i = Some a -> nth_error ranges (S i) = Some b -> (a <= b)%Z).
    { intros i a b Ha Hb. pose proof (nth_error_lt _ _ _ Hb) as Hi. rewrite H6 in Hi.
      destruct (nth_error_in_range new i) as [l Hl]; [lia|]. pose proof (H3 i l Hl) as HL.
      assert (Hpos : 1 <= length l).
      { rewrite HL. unfold share. assert (1 <= length (concat parts) / length parts); [|lia].
        apply Nat.div_le_lower_bound; lia. }
      destruct l as [|x l]; [cbn in Hpos; lia|].
      assert (Hin : In x (concat parts)).
      { eapply Permutation_in; [exact H2|]. apply in_concat. exists (x :: l). split; [eapply nth_error_In; eauto|left; reflexivity]. }
      pose proof (proj1 (H7 i (x :: l) a b x Hl Ha Hb Hin) (or_introl eq_refl)). lia. }
    clear - Hstep. induction ranges as [|a r IH]; [constructor|]. constructor.
    + apply IH. intros i x y Hx Hy. apply (Hstep (S i)); assumption.
    + assert (HS : StronglySorted Z.le r) by (apply IH; intros i x y Hx Hy; apply (Hstep (S i)); assumption).
      destruct r as [|b r]; constructor.
      * apply (Hstep 0); reflexivity.
      * apply StronglySorted_inv in HS as [_ HF]. eapply Forall_impl; [|exact HF]. cbn. intros c Hc.
        pose proof (Hstep 0 a b eq_refl eq_refl). lia.
  - intros i l lo hi x Hl Hlo Hhi Hx. apply (H7 i l lo hi x Hl Hlo Hhi). eapply Permutation_in; [exact H2|exact Hx].
Qed.
