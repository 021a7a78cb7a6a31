From Coq Require Import List ZArith Bool Lia Arith Sorting.Sorted Sorting.Permutation.
From Coq Require Import ZifyBool ZifyNat.
From Verif.Model Require Import ListMem Run Mpi Exchange.
From Verif.Spec Require Import Exchange.
From Verif.Proofs Require Import ListMemProofs MpiProofs.
Import ListNotations.
Local Open Scope Z_scope.

Definition rem (r : cursor) : list Z := skipn (snd r) (fst r).
Definition good (r : cursor) : Prop := StronglySorted Z.lt (fst r) /\ (snd r <= length (fst r))%nat.

Lemma zmin_list_in x l : In (zmin_list x l) (x :: l).
Proof.
  revert x; induction l as [|y l IH]; intros x; cbn; [left; reflexivity|].
  destruct (Z.min_spec x (zmin_list y l)) as [[_ ->]|[_ ->]]; [left; reflexivity|right; apply IH].
Qed.
Lemma zmin_list_le x l z : In z (x :: l) -> zmin_list x l <= z.
Proof.
  revert x z; induction l as [|y l IH]; intros x z Hz; cbn.
  - destruct Hz as [->|[]]. lia.
  - destruct Hz as [->|Hz]; [lia|]. specialize (IH y z Hz). lia.
Qed.

Lemma StronglySorted_skipn {A} (R : A -> A -> Prop) n l : StronglySorted R l -> StronglySorted R (skipn n l).
Proof. revert l; induction n; intros l H; [exact H|]. destruct l; [constructor|]. inversion H; subst. cbn. auto. Qed.
Lemma StronglySorted_firstn {A} (R : A -> A -> Prop) n l : StronglySorted R l -> StronglySorted R (firstn n l).
Proof.
  revert l; induction n; intros l H; [constructor|]. destruct l; [constructor|]. inversion H; subst. cbn. constructor; [auto|].
  apply Forall_forall. intros x Hx. rewrite Forall_forall in H3. apply H3. eapply (In_nth_error) in Hx as [i Hi].
  rewrite <- (firstn_skipn n l). apply in_or_app. left. eapply nth_error_In; eauto.
Qed.
Lemma sorted_split {A} (R : A -> A -> Prop) l n x y : StronglySorted R l -> In x (firstn n l) -> In y (skipn n l) -> R x y.
Proof.
  revert l; induction n; intros l Hs Hx Hy; [destruct Hx|]. destruct l as [|z l]; [destruct Hx|].
  inversion Hs as [|z' l' Hs' Hall]; subst. cbn in Hx, Hy. destruct Hx as [->|Hx]; [|eapply IHn; eauto].
  rewrite Forall_forall in Hall. apply Hall. rewrite <- (firstn_skipn n l). apply in_or_app. right; exact Hy.
Qed.
Lemma firstn_nth_error {A} (l : list A) n i : (i < n)%nat -> nth_error (firstn n l) i = nth_error l i.
Proof. revert l i; induction n; intros l i H; [lia|]. destruct l; [destruct i; reflexivity|]. destruct i; [reflexivity|]. cbn. apply IHn. lia. Qed.
Lemma skipn_nth_error {A} (l : list A) n i : nth_error (skipn n l) i = nth_error l (n + i)%nat.
Proof. revert l; induction n; intros l; [reflexivity|]. destruct l; [destruct i; reflexivity|]. cbn. apply IHn. Qed.

Lemma fast_forward_spec l n x M : StronglySorted Z.lt l -> nth_error l n = Some x -> M < x ->
  exists k, fast_forward l M = Some k /\ (k <= n)%nat /\ Forall (fun y => y <= M) (firstn k l) /\ Forall (fun y => M <= y) (skipn k l).
Proof.
  revert n; induction l as [|y l IH]; intros n Hs Hn HM; [destruct n; discriminate|].
  inversion Hs as [|y' l' Hs' Hall]; subst. cbn. destruct (Z.ltb_spec y M) as [Hy|Hy].
  - destruct n; [cbn in Hn; injection Hn as ->; lia|].
    destruct (IH n Hs' Hn HM) as (k & E & H1 & H2 & H3). exists (S k). rewrite E. cbn. split; [reflexivity|].
    split; [lia|]. split; [constructor; [lia|exact H2]|exact H3].
  - exists O. split; [reflexivity|]. split; [lia|]. split; [constructor|]. cbn. constructor; [exact Hy|].
    rewrite Forall_forall in *. intros z Hz. specialize (Hall z Hz). lia.
Qed.

Definition ceil_ok (steps m c : Z) : Prop := 1 <= c /\ c * m <= steps + m - 1.
Definition ceilz (steps m : Z) : Z := let n := Z.quot steps m in if n * m <? steps then n + 1 else n.
Lemma ceilz_ok steps m : 0 < steps -> 1 <= m -> ceil_ok steps m (ceilz steps m).
Proof.
  intros Hs Hm. unfold ceil_ok, ceilz. rewrite Z.quot_div_nonneg by lia.
  pose proof (Z.div_mod steps m ltac:(lia)). pose proof (Z.mod_pos_bound steps m ltac:(lia)).
  assert (0 <= steps / m) by (apply Z.div_pos; lia).
  destruct (Z.ltb_spec (steps / m * m) steps); split; nia.
Qed.
Lemma attempt_eq steps m r : attempt steps m r = Z.min (ceilz steps m) (Z.of_nat (length (fst r) - snd r)).
Proof.
  unfold attempt, stride_n, ceilz. cbv zeta. generalize (Z.quot steps m). intros q.
  destruct (q * m <? steps); match goal with |- context [?a <? ?b] => destruct (Z.ltb_spec a b) end; lia.
Qed.

Lemma active_iff r : good r -> (active r = true <-> (snd r < length (fst r))%nat).
Proof. intros [_ H]. unfold active. rewrite negb_true_iff, Nat.eqb_neq. lia. Qed.

Lemma rem_length r : length (rem r) = (length (fst r) - snd r)%nat.
Proof. unfold rem. apply skipn_length. Qed.

(** one process in one round *)
Definition moved_by (M : Z) (c : Z) (r : cursor) (mv : cursor * Z) : Prop :=
  exists k, mv = ((fst r, (snd r + k)%nat), Z.of_nat k) /\ (snd r + k <= length (fst r))%nat /\
    Forall (fun x => x <= M) (firstn k (rem r)) /\ Forall (fun y => M <= y) (skipn k (rem r)) /\
    (active r = true -> Z.of_nat k <= c - 1 + Z.of_nat (count_occ Z.eq_dec (firstn k (rem r)) M)) /\
    (active r = false -> k = O).

Lemma attempt_id_some steps m r : good r -> 0 < steps -> 1 <= m -> active r = true ->
  exists pid n, attempt_id steps m r = Some pid /\ attempt steps m r = Z.of_nat (S n) /\ nth_error (rem r) n = Some pid /\
    (snd r + S n <= length (fst r))%nat.
Proof.
  intros Hg Hs Hm Ha. apply active_iff in Ha; [|exact Hg]. unfold attempt_id.
  destruct (ceilz_ok steps m Hs Hm) as [Hc _].
  pose proof (attempt_eq steps m r) as E.
  destruct (attempt steps m r) as [|p|p] eqn:Ea; try lia.
  assert (Hn : exists n, Z.pos p = Z.of_nat (S n)) by (exists (Nat.pred (Pos.to_nat p)); lia).
  destruct Hn as [n Hn]. rewrite Hn in *.
  replace (Z.of_nat (snd r) + Z.of_nat (S n) - 1) with (Z.of_nat (snd r + n)) by lia.
  destruct (nth_error_in_range (fst r) (snd r + n)) as [pid Hp]; [lia|].
  exists pid, n. split; [rewrite zget_nat, ?Nat2Z.id by lia; exact Hp|]. split; [reflexivity|]. split; [|lia].
  unfold rem. rewrite skipn_nth_error. exact Hp.
Qed.

Lemma stride_move_spec steps m M r : good r -> 0 < steps -> 1 <= m ->
  (forall pid, active r = true -> attempt_id steps m r = Some pid -> M <= pid) ->
  exists mv, stride_move steps m M r = Some mv /\ moved_by M (ceilz steps m) r mv /\
    (active r = true -> attempt_id steps m r = Some M -> 1 <= snd mv).
Proof.
  intros Hg Hs Hm Hmin. unfold stride_move. destruct (active r) eqn:Ha.
  - destruct (attempt_id_some steps m r Hg Hs Hm Ha) as (pid & n & E1 & E2 & E3 & E4).
    rewrite E1. specialize (Hmin pid eq_refl E1).
    pose proof (attempt_eq steps m r) as Eq.
    destruct (Z.ltb_spec M pid) as [Hlt|Hge].
    + destruct (fast_forward_spec (rem r) n pid M) as (k & F1 & F2 & F3 & F4); [apply StronglySorted_skipn, Hg|exact E3|exact Hlt|].
      unfold rem in F1. rewrite F1. eexists. split; [reflexivity|]. split.
      * exists k. split; [reflexivity|]. split; [lia|]. split; [exact F3|]. split; [exact F4|]. split; [|congruence].
        intros _. lia.
      * intros _ Heq. injection Heq as ->. lia.
    + assert (pid = M) by lia. subst pid. rewrite E2.
      destruct (Z.ltb_spec (Z.of_nat (snd r) + Z.of_nat (S n)) 0); [lia|].
      replace (Z.to_nat (Z.of_nat (snd r) + Z.of_nat (S n))) with (snd r + S n)%nat by lia.
      eexists. split; [reflexivity|]. split.
      * exists (S n). split; [reflexivity|]. split; [lia|].
        pose proof (StronglySorted_skipn Z.lt (snd r) (fst r) (proj1 Hg)) as Hsrt. fold (rem r) in Hsrt.
        assert (HinM : In M (firstn (S n) (rem r))).
        { apply nth_error_In with n. rewrite firstn_nth_error by lia. exact E3. }
        split; [|split; [|split; [|congruence]]].
        -- apply Forall_forall. intros x Hx. apply In_nth_error in Hx as [i Hi].
           assert (i < S n)%nat. { apply nth_error_lt in Hi. rewrite firstn_length in Hi. lia. }
           rewrite firstn_nth_error in Hi by lia.
           destruct (Nat.eq_dec i n) as [->|Hne]; [rewrite E3 in Hi; injection Hi as ->; lia|].
           assert (In x (firstn n (rem r))) by (apply nth_error_In with i; rewrite firstn_nth_error by lia; exact Hi).
           assert (In M (skipn n (rem r))) by (apply nth_error_In with O; rewrite skipn_nth_error, Nat.add_0_r; exact E3).
           pose proof (sorted_split Z.lt (rem r) n x M Hsrt). lia.
        -- apply Forall_forall. intros y Hy. pose proof (sorted_split Z.lt (rem r) (S n) M y Hsrt HinM Hy). lia.
        -- intros _. apply (count_occ_In Z.eq_dec) in HinM. lia.
      * intros _ _. cbn. lia.
  - exists (r, 0). split; [reflexivity|]. split.
    + exists O. split; [destruct r; cbn; rewrite Nat.add_0_r; reflexivity|]. destruct Hg as [Hg1 Hg2].
      split; [lia|]. split; [constructor|]. split.
      * cbn. unfold active in Ha. apply negb_false_iff, Nat.eqb_eq in Ha. unfold rem. rewrite skipn_all2 by lia. constructor.
      * split; [congruence|reflexivity].
    + intros Hf. discriminate.
Qed.

Definition slice (r r' : cursor) : list Z := between (snd r) (snd r') (fst r).

Lemma concat_perm_split rs mvs M c : Forall2 (moved_by M c) rs mvs ->
  Permutation (concat (map rem rs)) (concat (zipf slice rs (map fst mvs)) ++ concat (map rem (map fst mvs))).
Proof.
  induction 1 as [|r mv rs mvs (k & -> & Hk & _) HF IH]; [reflexivity|]. cbn [map zipf combine concat fst snd].
  unfold zipf. cbn [combine map concat fst snd]. fold (zipf slice rs (map fst mvs)).
  assert (Hsl : slice r (fst r, (snd r + k)%nat) = firstn k (rem r)).
  { unfold slice, between, rem. cbn [fst snd]. replace (snd r + k - snd r)%nat with k by lia. reflexivity. }
  assert (Hrm : rem (fst r, (snd r + k)%nat) = skipn k (rem r)).
  { unfold rem. cbn [fst snd]. rewrite skipn_skipn. reflexivity. }
  rewrite Hsl, Hrm. rewrite <- (firstn_skipn k (rem r)) at 1. rewrite <- !app_assoc. apply Permutation_app_head.
  rewrite IH. rewrite !app_assoc. apply Permutation_app_tail. apply Permutation_app_comm.
Qed.

Lemma moves_sum M c rs mvs : Forall2 (moved_by M c) rs mvs ->
  fold_right Z.add 0 (map snd mvs) <= Z.of_nat (length (filter active rs)) * (c - 1) +
    Z.of_nat (count_occ Z.eq_dec (concat (zipf slice rs (map fst mvs))) M) /\
  fold_right Z.add 0 (map snd mvs) = Z.of_nat (left_over rs) - Z.of_nat (left_over (map fst mvs)) /\
  fold_right Z.add 0 (map snd mvs) = Z.of_nat (length (concat (zipf slice rs (map fst mvs)))).
Proof.
  induction 1 as [|r mv rs mvs (k & -> & Hk & H1 & H2 & H3 & H4) HF (IH1 & IH2 & IH3)]; [cbn; lia|].
  cbn [map fold_right snd fst left_over filter]. unfold zipf. cbn [combine map concat fst snd]. fold (zipf slice rs (map fst mvs)).
  assert (Hsl : slice r (fst r, (snd r + k)%nat) = firstn k (rem r)).
  { unfold slice, between, rem. cbn [fst snd]. replace (snd r + k - snd r)%nat with k by lia. reflexivity. }
  rewrite Hsl, count_occ_app, app_length, firstn_length, rem_length.
  split; [|split; [|lia]].
  - destruct (active r) eqn:Ha.
    + specialize (H3 eq_refl). cbn [length]. lia.
    + specialize (H4 eq_refl). subst k. cbn. lia.
  - lia.
Qed.

Lemma moves_nonneg M c rs mvs : Forall2 (moved_by M c) rs mvs -> 0 <= fold_right Z.add 0 (map snd mvs) /\
  forall mv, In mv mvs -> snd mv <= fold_right Z.add 0 (map snd mvs).
Proof.
  induction 1 as [|r mv rs mvs (k & -> & _) HF (IH1 & IH2)]; [cbn; split; [lia|tauto]|].
  cbn [map fold_right snd]. split; [lia|]. intros mv [<-|Hin]; [cbn; lia|]. specialize (IH2 mv Hin). lia.
Qed.

Lemma Forall2_nth {A B} (P : A -> B -> Prop) l l' i x : Forall2 P l l' -> nth_error l i = Some x -> exists y, nth_error l' i = Some y /\ P x y.
Proof.
  intros HF; revert i; induction HF; intros [|i] Hi; cbn in *; try discriminate; [injection Hi as <-; eauto|eauto].
Qed.
Lemma Forall2_nth_r {A B} (P : A -> B -> Prop) l l' i y : Forall2 P l l' -> nth_error l' i = Some y -> exists x, nth_error l i = Some x /\ P x y.
Proof.
  intros HF; revert i; induction HF; intros [|i] Hi; cbn in *; try discriminate; [injection Hi as <-; eauto|eauto].
Qed.

Lemma left_over_pos rs : (0 < left_over rs)%nat -> Forall good rs -> filter active rs <> [].
Proof.
  induction rs as [|r rs IH]; intros H HF; cbn in *; [lia|]. inversion HF; subst.
  destruct (active r) eqn:Ha; [discriminate|]. unfold active in Ha. apply negb_false_iff, Nat.eqb_eq in Ha.
  apply IH; [lia|assumption].
Qed.

Lemma Forall2_map_r {A B C} (P : A -> C -> Prop) (f : B -> C) l l' : Forall2 (fun x y => P x (f y)) l l' -> Forall2 P l (map f l').
Proof. induction 1; cbn; constructor; assumption. Qed.
Lemma forward_good rs rs' : Forall2 forward rs rs' -> Forall good rs -> Forall good rs'.
Proof.
  induction 1 as [|r r' rs rs' [H1 H2] HF IH]; intros Hg; inversion Hg as [|x y [G1 G2] Gr]; subst; constructor; [|auto].
  unfold good. rewrite H1. split; [assumption|lia].
Qed.

Lemma stride_round_spec rs steps : Forall good rs -> NoDup (concat (map rem rs)) -> 0 < steps -> steps <= Z.of_nat (left_over rs) ->
  exists rs' steps', stride_round rs steps = Some (rs', steps') /\ 0 <= steps' < steps /\
    Forall2 forward rs rs' /\ Forall good rs' /\ NoDup (concat (map rem rs')) /\
    steps - steps' = Z.of_nat (left_over rs) - Z.of_nat (left_over rs') /\
    forall x y, passed rs rs' x -> ahead rs' y -> x < y.
Proof.
  intros Hg Hnd Hs Hle. unfold stride_round.
  assert (Hne : filter active rs <> []) by (apply left_over_pos; [lia|exact Hg]).
  set (act := filter active rs) in *. set (m := Z.of_nat (length act)).
  assert (Hm : 1 <= m). { unfold m. destruct act; [congruence|cbn; lia]. }
  assert (Hact : forall r, In r act -> good r /\ active r = true).
  { intros r Hr. apply filter_In in Hr as [Hr Ha]. rewrite Forall_forall in Hg. auto. }
  assert (Hids : exists ps, mapM (attempt_id steps m) act = Some ps /\ Forall2 (fun r p => attempt_id steps m r = Some p) act ps).
  { assert (HF2 : Forall2 eq act act) by (clear; induction act; constructor; auto).
    destruct (mapM_Forall2 eq (fun r p => attempt_id steps m r = Some p) (attempt_id steps m) act act HF2) as (ps & E & HF).
    { intros r r' Hr ->. destruct (Hact _ Hr) as [G A]. destruct (attempt_id_some steps m r' G Hs Hm A) as (pid & n & E1 & _). eauto. }
    eauto. }
  destruct Hids as (ps & Eps & HFps). rewrite Eps.
  destruct ps as [|p ps]; [inversion HFps; congruence|].
  set (M := zmin_list p ps).
  assert (HFm : exists mvs, mapM (stride_move steps m M) rs = Some mvs /\
     Forall2 (fun r mv => moved_by M (ceilz steps m) r mv /\ (active r = true -> attempt_id steps m r = Some M -> 1 <= snd mv)) rs mvs).
  { assert (HF2 : Forall2 eq rs rs) by (clear; induction rs; constructor; auto).
    apply (mapM_Forall2 eq _ _ rs rs HF2).
    intros r r' Hr ->. rewrite Forall_forall in Hg.
    destruct (stride_move_spec steps m M r' (Hg _ Hr) Hs Hm) as (mv & E & H1 & H2).
    - intros pid Ha Hpid. assert (Hin : In r' act) by (apply filter_In; auto).
      apply In_nth_error in Hin as [i Hi]. destruct (Forall2_nth _ _ _ _ _ HFps Hi) as (q & Hq & Eq).
      assert (q = pid) by congruence. subst q. apply zmin_list_le. eapply nth_error_In; eauto.
    - eauto. }
  destruct HFm as (mvs & Em & HFm). rewrite Em.
  assert (HFmv : Forall2 (moved_by M (ceilz steps m)) rs mvs) by (eapply Forall2_impl; [|exact HFm]; cbn; tauto).
  pose proof (concat_perm_split _ _ _ _ HFmv) as Hperm.
  pose proof (Permutation_NoDup Hperm Hnd) as Hnd2.
  destruct (moves_sum _ _ _ _ HFmv) as (S1 & S2 & S3).
  destruct (moves_nonneg _ _ _ _ HFmv) as (N1 & N2).
  set (tot := fold_right Z.add 0 (map snd mvs)) in *.
  assert (Hcnt : (count_occ Z.eq_dec (concat (zipf slice rs (map fst mvs))) M <= 1)%nat).
  { apply NoDup_count_occ. apply NoDup_app_remove_r in Hnd2. exact Hnd2. }
  destruct (ceilz_ok steps m Hs Hm) as [C1 C2].
  assert (Htot : tot <= steps). { fold act in S1. fold m in S1. nia. }
  assert (Hpos : 1 <= tot).
  { assert (HM : In M (p :: ps)) by apply zmin_list_in. apply In_nth_error in HM as [i Hi].
    destruct (Forall2_nth_r _ _ _ _ _ HFps Hi) as (r & Hr & Er). apply nth_error_In in Hr.
    apply filter_In in Hr as [Hr Ha]. apply In_nth_error in Hr as [j Hj].
    destruct (Forall2_nth _ _ _ _ _ HFm Hj) as (mv & Hmv & _ & Hone). specialize (Hone Ha Er).
    specialize (N2 mv (nth_error_In _ _ Hmv)). lia. }
  exists (map fst mvs), (steps - tot). split; [reflexivity|]. split; [lia|].
  assert (Hfw : Forall2 forward rs (map fst mvs)).
  { apply Forall2_map_r. eapply Forall2_impl; [|exact HFmv]. intros r mv (k & -> & Hk & _).
    unfold forward; cbn. split; [reflexivity|lia]. }
  split; [exact Hfw|]. split.
  { exact (forward_good _ _ Hfw Hg). }
  split; [apply NoDup_app_remove_l in Hnd2; exact Hnd2|]. split; [lia|].
  intros x y (i & r & r' & Hi & Hi' & Hx) (j & s & Hj & Hy).
  rewrite nth_error_map in Hi', Hj.
  destruct (nth_error mvs i) as [mv|] eqn:Emv; [|discriminate]. injection Hi' as <-.
  destruct (nth_error mvs j) as [mv'|] eqn:Emv'; [|discriminate]. injection Hj as <-.
  assert (Hx' : In x (concat (zipf slice rs (map fst mvs)))).
  { apply in_concat. exists (slice r (fst mv)). split; [|exact Hx]. apply nth_error_In with i.
    apply zipf_nth; [exact Hi|rewrite nth_error_map, Emv; reflexivity]. }
  assert (Hy' : In y (concat (map rem (map fst mvs)))).
  { apply in_concat. exists (rem (fst mv')). split; [|exact Hy]. apply in_map, in_map. eapply nth_error_In; eauto. }
  assert (Hxy : x <> y).
  { intros ->. clear - Hnd2 Hx' Hy'. apply in_split in Hx' as (a & b & Eab). rewrite Eab in Hnd2.
    rewrite <- app_assoc in Hnd2. cbn in Hnd2. apply NoDup_remove_2 in Hnd2. apply Hnd2. rewrite !in_app_iff. tauto. }
  destruct (Forall2_nth_r _ _ _ _ _ HFmv Emv) as (r0 & Hr0 & (k & -> & Hk & K1 & K2 & _)).
  pose proof (eq_trans (eq_sym Hr0) Hi) as Er0. injection Er0 as ->.
  destruct (Forall2_nth_r _ _ _ _ _ HFmv Emv') as (r0 & Hr0' & (k' & -> & Hk' & K1' & K2' & _)).
  cbn [fst snd] in *. unfold between in Hx. replace (snd r + k - snd r)%nat with k in Hx by lia.
  rewrite Forall_forall in K1, K2'. specialize (K1 x Hx).
  assert (M <= y). { apply K2'. unfold rem. rewrite skipn_skipn. exact Hy. }
  lia.
Qed.

Lemma forward_refl rs : Forall good rs -> Forall2 forward rs rs.
Proof. induction 1 as [|r rs [_ Hr] HF IH]; constructor; [|exact IH]. split; [reflexivity|lia]. Qed.
Lemma forward_trans rs rs' rs'' : Forall2 forward rs rs' -> Forall2 forward rs' rs'' -> Forall2 forward rs rs''.
Proof.
  intros H; revert rs''; induction H as [|r r' rs rs' [H1 H2] HF IH]; intros rs'' H'; inversion H'; subst; constructor; [|auto].
  destruct H3 as [H3 H4]. rewrite H1 in *. split; [exact H3|lia].
Qed.
Lemma between_app {A} a b c (l : list A) : (a <= b <= c)%nat -> between a c l = between a b l ++ between b c l.
Proof.
  intros H. unfold between. replace (c - a)%nat with ((b - a) + (c - b))%nat by lia.
  replace (skipn b l) with (skipn (b - a) (skipn a l)) by (rewrite skipn_skipn; f_equal; lia).
  generalize (skipn a l). generalize (b - a)%nat (c - b)%nat. clear.
  intros p q l; revert l; induction p; intros l; [reflexivity|]. destruct l; cbn; [rewrite firstn_nil; reflexivity|]. f_equal. apply IHp.
Qed.
Lemma ahead_mono rs rs' y : Forall2 forward rs rs' -> ahead rs' y -> ahead rs y.
Proof.
  intros HF (i & r' & Hi & Hy). destruct (Forall2_nth_r _ _ _ _ _ HF Hi) as (r & Hr & [H1 H2]).
  exists i, r. split; [exact Hr|]. rewrite H1 in Hy.
  replace (snd r') with (snd r + (snd r' - snd r))%nat in Hy by lia. rewrite <- skipn_skipn in Hy.
  rewrite <- (firstn_skipn (snd r' - snd r) (skipn (snd r) (fst r))). apply in_or_app. right; exact Hy.
Qed.
Lemma passed_trans rs rs' rs'' x : Forall2 forward rs rs' -> Forall2 forward rs' rs'' -> passed rs rs'' x -> passed rs rs' x \/ passed rs' rs'' x.
Proof.
  intros H1 H2 (i & r & r'' & Hi & Hi'' & Hx).
  destruct (Forall2_nth _ _ _ _ _ H1 Hi) as (r' & Hi' & [F1 F2]).
  destruct (Forall2_nth _ _ _ _ _ H2 Hi') as (s & Hs & [F3 F4]). assert (s = r'') by congruence. subst s.
  rewrite F1 in *. rewrite (between_app (snd r) (snd r') (snd r'')) in Hx by lia. apply in_app_iff in Hx as [Hx|Hx].
  - left. exists i, r, r'. auto.
  - right. exists i, r', r''. rewrite F1. auto.
Qed.
Lemma passed_nothing rs x : ~ passed rs rs x.
Proof.
  intros (i & r & r' & H1 & H2 & Hx). assert (r = r') by congruence. subst r'. unfold between in Hx. rewrite Nat.sub_diag in Hx. exact Hx.
Qed.

Lemma parallel_stride_spec fuel rs steps : Forall good rs -> NoDup (concat (map rem rs)) -> 0 <= steps <= Z.of_nat (left_over rs) ->
  (Z.to_nat steps <= fuel)%nat ->
  exists rs', parallel_stride fuel rs steps = Done rs' /\ Forall2 forward rs rs' /\ Forall good rs' /\ NoDup (concat (map rem rs')) /\
    Z.of_nat (left_over rs) = Z.of_nat (left_over rs') + steps /\
    forall x y, passed rs rs' x -> ahead rs' y -> x < y.
Proof.
  revert rs steps; induction fuel as [|fuel IH]; intros rs steps Hg Hnd Hs Hf; cbn [parallel_stride];
    destruct (Z.eqb_spec steps 0) as [->|Hne]; try lia.
  1,2: exists rs; split; [reflexivity|]; split; [apply forward_refl; exact Hg|]; split; [exact Hg|]; split; [exact Hnd|]; split; [lia|];
    intros x y Hx; apply passed_nothing in Hx; tauto.
  destruct (stride_round_spec rs steps Hg Hnd ltac:(lia) ltac:(lia)) as (rs1 & steps1 & E & R1 & R2 & R3 & R4 & R5 & R6).
  rewrite E. destruct (IH rs1 steps1 R3 R4 ltac:(lia) ltac:(lia)) as (rs' & E' & Q1 & Q2 & Q3 & Q4 & Q5).
  exists rs'. split; [exact E'|]. split; [eapply forward_trans; eauto|]. split; [exact Q2|]. split; [exact Q3|]. split; [lia|].
  intros x y Hx Hy. destruct (passed_trans _ _ _ _ R2 Q1 Hx) as [Hx'|Hx'].
  - apply R6; [exact Hx'|]. eapply ahead_mono; eauto.
  - apply Q5; assumption.
Qed.

(** Repeated ids: the loop never ends. *)
Lemma stride_duplicates_loop fuel : parallel_stride fuel [([1], O); ([1], O)] 1 = Running.
Proof.
  destruct fuel as [|fuel]; [reflexivity|].
  change (parallel_stride (S fuel) [([1], O); ([1], O)] 1) with (parallel_stride fuel [([1], 1%nat); ([1], 1%nat)] (-1)).
  induction fuel as [|fuel IH]; [reflexivity|]. exact IH.
Qed.
