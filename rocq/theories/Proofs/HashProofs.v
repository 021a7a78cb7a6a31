From Coq Require Import List ZArith Bool Lia Arith Sorting.Permutation Sorting.Sorted.
From Coq Require Import ZifyBool ZifyNat.
From Verif.Model Require Import ListMem Hash.
From Verif.Spec Require Import Lookup.
From Verif.Proofs Require Import ListMemProofs.
Import ListNotations.
Local Open Scope Z_scope.
Ltac Zify.zify_post_hook ::= Z.div_mod_to_equations.

Lemma StronglySorted_nth {A} (R : A -> A -> Prop) l i j a b : StronglySorted R l ->
  nth_error l i = Some a -> nth_error l j = Some b -> (i < j)%nat -> R a b.
Proof.
  intros Hs; revert i j; induction Hs as [|x l Hs IH Hx]; intros i j Ha Hb Hij.
  - destruct i; discriminate.
  - destruct j; [lia|]. destruct i; simpl in *.
    + inversion Ha; subst. rewrite Forall_forall in Hx. apply Hx. eapply nth_error_In; eauto.
    + eapply IH; eauto. lia.
Qed.

Lemma NoDup_nth_fst (t : list (Z * Z)) i j k v w : NoDup (map fst t) ->
  nth_error t i = Some (k, v) -> nth_error t j = Some (k, w) -> i = j.
Proof.
  intros Hn Hi Hj. rewrite NoDup_nth_error in Hn. apply Hn.
  - rewrite map_length. eapply nth_error_lt; eauto.
  - rewrite !nth_error_map, Hi, Hj. reflexivity.
Qed.

Section Table.
  Variable table : list (Z * Z).
  Hypothesis Hsort : StronglySorted key_le table.

  Lemma sorted_nth i j a b : nth_error table i = Some a -> nth_error table j = Some b -> (i <= j)%nat -> fst a <= fst b.
  Proof.
    intros Ha Hb Hij. destruct (Nat.eq_dec i j) as [->|Hne].
    - rewrite Ha in Hb. inversion Hb; lia.
    - apply (StronglySorted_nth key_le table i j a b Hsort Ha Hb). lia.
  Qed.

  Lemma bsearch_spec fuel key l u : (u <= length table)%nat -> (u - l < fuel)%nat -> (l <= u)%nat ->
    (forall j k v, nth_error table j = Some (k, v) -> k = key -> (l <= j < u)%nat) ->
    (exists v, bsearch fuel table key l u = Some (Some v) /\ In (key, v) table) \/
    (bsearch fuel table key l u = Some None /\ ~ In key (map fst table)).
  Proof.
    revert l u; induction fuel as [|fuel IH]; intros l u Hu Hf Hlu Hin; [lia|].
    cbn [bsearch]. destruct (Nat.ltb_spec l u) as [Hlt|Hge].
    - set (idx := ((l + u) / 2)%nat). assert (Hidx : (l <= idx < u)%nat) by (unfold idx; lia).
      clearbody idx.
      destruct (nth_error_in_range table idx) as [[k v] E]; [lia|]. rewrite E.
      destruct (Z.ltb_spec k key) as [Hk|Hk].
      + apply IH; try lia. intros j k' v' Hj Hk'. specialize (Hin j k' v' Hj Hk').
        destruct (Nat.le_gt_cases j idx) as [Hle|]; [|lia].
        pose proof (sorted_nth _ _ _ _ Hj E Hle) as H. simpl in H. lia.
      + destruct (Z.ltb_spec key k) as [Hk2|Hk2].
        * apply IH; try lia. intros j k' v' Hj Hk'. specialize (Hin j k' v' Hj Hk').
          destruct (Nat.le_gt_cases idx j) as [Hle|]; [|lia].
          pose proof (sorted_nth _ _ _ _ E Hj Hle) as H. simpl in H. lia.
        * left. exists v. split; [reflexivity|]. replace key with k by lia. eapply nth_error_In; eauto.
    - right. split; [reflexivity|]. intros Hi. apply in_map_iff in Hi as ([k v] & Hk & Hi). simpl in Hk.
      apply In_nth_error in Hi as [j Hj]. specialize (Hin j k v Hj Hk). lia.
  Qed.

  Lemma mapped_get_nonneg null key : 0 <= key ->
    exists r, mapped_get null table key = Some r /\ lookup_result null table key r.
  Proof.
    intros Hk. unfold mapped_get. destruct (Z.ltb_spec key 0); [lia|].
    destruct (bsearch_spec (S (length table)) key 0 (length table)) as [(v & E & Hv)|[E Hn]]; try lia.
    - intros j k v Hj _. apply nth_error_lt in Hj. lia.
    - rewrite E. exists v. split; [reflexivity|]. left; exact Hv.
    - rewrite E. exists null. split; [reflexivity|]. right; auto.
  Qed.

  Lemma mapped_get_neg null key : key < 0 -> mapped_get null table key = Some null.
  Proof. intros H. unfold mapped_get. destruct (Z.ltb_spec key 0); [reflexivity|lia]. Qed.

  Lemma lower_bound_spec fuel key first len : (first + len <= length table)%nat -> (len < fuel)%nat ->
    exists m, lower_bound fuel table key first len = Some m /\ (first <= m <= first + len)%nat /\
      (forall j k v, (first <= j < m)%nat -> nth_error table j = Some (k, v) -> k < key) /\
      (forall j k v, (m <= j < first + len)%nat -> nth_error table j = Some (k, v) -> key <= k).
  Proof.
    revert first len; induction fuel as [|fuel IH]; intros first len Hl Hf; [lia|].
    cbn [lower_bound]. destruct (Nat.eqb_spec len 0) as [->|Hne].
    - exists first. split; [reflexivity|]. split; [lia|]. split; intros; lia.
    - set (half := (len / 2)%nat). assert (Hh : (half < len)%nat) by (unfold half; lia). clearbody half.
      destruct (nth_error_in_range table (first + half)) as [[k v] E]; [lia|]. rewrite E.
      destruct (Z.ltb_spec k key) as [Hk|Hk].
      + destruct (IH (first + half + 1)%nat (len - half - 1)%nat) as (m & Em & Hm & H1 & H2); try lia.
        exists m. split; [exact Em|]. split; [lia|]. split.
        * intros j k' v' Hj Ej. destruct (Nat.le_gt_cases (first + half + 1) j); [eapply H1; eauto; lia|].
          pose proof (sorted_nth _ _ _ _ Ej E ltac:(lia)) as Hs. simpl in Hs. lia.
        * intros j k' v' Hj Ej. eapply H2; eauto; lia.
      + destruct (IH first half) as (m & Em & Hm & H1 & H2); try lia.
        exists m. split; [exact Em|]. split; [lia|]. split; [exact H1|].
        intros j k' v' Hj Ej. destruct (Nat.le_gt_cases (first + half) j).
        * pose proof (sorted_nth _ _ _ _ E Ej ltac:(lia)) as Hs. simpl in Hs. lia.
        * eapply H2; eauto; lia.
  Qed.

  Hypothesis Hnd : NoDup (map fst table).

  (** the postcondition on a range of queries *)
  Definition range_done {X} null (ps ps' : list (Z * X)) (a b : nat) : Prop :=
    length ps' = length ps /\
    (forall i, ~ (a <= i < b)%nat -> nth_error ps' i = nth_error ps i) /\
    (forall i k x, (a <= i < b)%nat -> nth_error ps i = Some (k, x) ->
       exists r, nth_error ps' i = Some (r, x) /\ lookup_result null table k r).

  Lemma null_loop {X} null (ps : list (Z * X)) a n : (a + n <= length ps)%nat ->
    (forall i k x, (a <= i < a + n)%nat -> nth_error ps i = Some (k, x) -> ~ In k (map fst table)) ->
    exists ps', for_range a n (fun i ps => match nth_error ps i with
          | Some p => upd ps i (set_id null p) | None => None end) ps = Some ps' /\
      range_done null ps ps' a (a + n).
  Proof.
    intros Hl Hno.
    destruct (for_range_inv (fun i ps' => length ps' = length ps /\
       (forall j, ~ (a <= j < i)%nat -> nth_error ps' j = nth_error ps j) /\
       (forall j k x, (a <= j < i)%nat -> nth_error ps j = Some (k, x) -> nth_error ps' j = Some (null, x)))
       a n (fun i ps => match nth_error ps i with
          | Some p => upd ps i (set_id null p) | None => None end) ps) as (ps' & E & H1 & H2 & H3).
    - split; [reflexivity|]. split; intros; [reflexivity|lia].
    - intros i s Hi (Hs1 & Hs2 & Hs3).
      destruct (nth_error_in_range s i) as [[k x] Ei]; [lia|]. rewrite Ei.
      destruct (upd_some s i (set_id null (k, x))) as [s' Eu]; [lia|].
      exists s'. split; [exact Eu|]. split; [rewrite (upd_length _ _ _ _ Eu); exact Hs1|].
      split.
      + intros j Hj. rewrite (upd_nth _ _ _ j _ Eu). destruct (Nat.eqb_spec j i); [lia|]. apply Hs2. lia.
      + intros j k' x' Hj Ej. rewrite (upd_nth _ _ _ j _ Eu). destruct (Nat.eqb_spec j i) as [->|Hji].
        * rewrite Hs2 in Ei by lia. rewrite Ej in Ei. inversion Ei; subst. reflexivity.
        * eapply Hs3; eauto. lia.
    - exists ps'. split; [exact E|]. split; [exact H1|]. split; [exact H2|].
      intros i k x Hi Ei. exists null. split; [eapply H3; eauto|]. right. split; [|reflexivity].
      eapply Hno; eauto.
  Qed.

  Lemma get_indices_rec_spec {X} null fuel (ps : list (Z * X)) imin imax mb me :
    (imax - imin < fuel)%nat -> (imax <= length ps)%nat -> (mb <= me <= length table)%nat ->
    (forall i j a b, (imin <= i <= j)%nat -> (j < imax)%nat -> nth_error ps i = Some a -> nth_error ps j = Some b -> fst a <= fst b) ->
    (forall i k x j v, (imin <= i < imax)%nat -> nth_error ps i = Some (k, x) -> nth_error table j = Some (k, v) ->
       (mb <= j < me)%nat) ->
    exists ps', get_indices_rec fuel null table ps imin imax mb me = Some ps' /\ range_done null ps ps' imin imax.
  Proof.
    revert ps imin imax mb me; induction fuel as [|fuel IH]; intros ps imin imax mb me Hf Hl Hm Hsort' Hcov; [lia|].
    cbn [get_indices_rec]. destruct (Nat.eqb_spec mb me) as [Heq|Hne].
    { destruct (Nat.le_gt_cases imax imin) as [Hle|Hgt].
      - replace (imax - imin)%nat with 0%nat by lia. exists ps. split; [reflexivity|].
        split; [reflexivity|]. split; [reflexivity|]. intros; lia.
      - destruct (null_loop null ps imin (imax - imin)) as (ps' & E & Hd); [lia| |].
        + intros i k x Hi Ei Hin. apply in_map_iff in Hin as ([k' v] & Hk & Hin). simpl in Hk. subst k'.
          apply In_nth_error in Hin as [j Hj]. specialize (Hcov i k x j v ltac:(lia) Ei Hj). lia.
        + exists ps'. split; [exact E|]. replace (imin + (imax - imin))%nat with imax in Hd by lia. exact Hd. }
    destruct (Nat.leb_spec imax imin) as [Hle|Hgt].
    { exists ps. split; [reflexivity|]. split; [reflexivity|]. split; [reflexivity|]. intros; lia. }
    set (imid := if (imax - imin =? 1)%nat then imin else ((imin + imax) / 2)%nat).
    assert (Hmid : (imin <= imid < imax)%nat).
    { unfold imid. destruct (Nat.eqb_spec (imax - imin) 1); lia. }
    clearbody imid.
    destruct (nth_error_in_range ps imid) as [[key x0] Ep]; [lia|]. rewrite Ep. cbn [fst].
    destruct (lower_bound_spec (S (me - mb)) key mb (me - mb)) as (mm & Elb & Hmm & Hlow & Hhigh); try lia.
    rewrite Elb.
    replace (mb + (me - mb))%nat with me in * by lia.
    (* the hit *)
    assert (Hfound : exists hit,
      (if (mm =? me)%nat then Some None
       else match nth_error table mm with
            | None => None
            | Some (k, v) => if key <? k then Some None else Some (Some v)
            end) = Some hit /\
      match hit with
      | None => (forall j k v, (mb <= j < me)%nat -> nth_error table j = Some (k, v) -> k = key -> False) /\
                (forall j k v, (mm <= j < me)%nat -> nth_error table j = Some (k, v) -> key < k)
      | Some v => (mm < me)%nat /\ nth_error table mm = Some (key, v)
      end).
    { destruct (Nat.eqb_spec mm me) as [->|Hmne].
      - exists None. split; [reflexivity|]. split.
        + intros j k v Hj Ej Hk. specialize (Hlow j k v ltac:(lia) Ej). lia.
        + intros; lia.
      - destruct (nth_error_in_range table mm) as [[k v] Ek]; [lia|]. rewrite Ek.
        destruct (Z.ltb_spec key k) as [Hk|Hk].
        + exists None. split; [reflexivity|]. split.
          * intros j k' v' Hj Ej Hk'. destruct (Nat.le_gt_cases mm j).
            -- pose proof (sorted_nth _ _ _ _ Ek Ej ltac:(lia)) as Hs. simpl in Hs. lia.
            -- specialize (Hlow j k' v' ltac:(lia) Ej). lia.
          * intros j k' v' Hj Ej. pose proof (sorted_nth _ _ _ _ Ek Ej ltac:(lia)) as Hs. simpl in Hs. lia.
        + exists (Some v). split; [reflexivity|].
          specialize (Hhigh mm k v ltac:(lia) Ek). split; [lia|]. replace key with k by lia. first [exact Ek|reflexivity]. }
    destruct Hfound as (hit & Ehit & Hhit). rewrite Ehit.
    set (pr := match hit with None => (null, mm) | Some v => (v, S mm) end).
    assert (Hres : lookup_result null table key (fst pr)).
    { unfold pr. destruct hit as [v|]; cbn.
      - destruct Hhit as [_ Hv]. left. eapply nth_error_In; eauto.
      - right. split; [|reflexivity]. intros Hin. apply in_map_iff in Hin as ([k' v] & Hk & Hin). simpl in Hk. subst k'.
        apply In_nth_error in Hin as [j Hj]. destruct Hhit as [Hh _].
        eapply (Hh j key v); eauto. }
    assert (Hmel : (mb <= snd pr <= me)%nat).
    { unfold pr. destruct hit as [v|]; cbn; [destruct Hhit; lia|lia]. }
    destruct pr as [new_id mel] eqn:Epr. cbn [fst snd] in *.
    destruct (upd_some ps imid (set_id new_id (key, x0))) as [ps1 E1]; [lia|]. rewrite E1.
    pose proof (upd_length _ _ _ _ E1) as L1.
    (* left half *)
    destruct (IH ps1 imin imid mb mel) as (ps2 & E2 & Hd2); try lia.
    { intros i j a b Hij Hj Ha Hb. rewrite (upd_nth _ _ _ i _ E1) in Ha. rewrite (upd_nth _ _ _ j _ E1) in Hb.
      destruct (Nat.eqb_spec i imid); [lia|]. destruct (Nat.eqb_spec j imid); [lia|].
      apply (Hsort' i j); auto; lia. }
    { intros i k x j v Hi Ei Ej. rewrite (upd_nth _ _ _ i _ E1) in Ei.
      destruct (Nat.eqb_spec i imid); [lia|].
      pose proof (Hcov i k x j v ltac:(lia) Ei Ej) as Hj.
      pose proof (Hsort' i imid _ _ ltac:(lia) ltac:(lia) Ei Ep) as Hk. cbn in Hk.
      split; [lia|]. unfold pr in Epr. destruct hit as [v0|]; inversion Epr; subst.
      - destruct Hhit as [Hlt Ev]. destruct (Nat.le_gt_cases j mm) as [|Hg]; [lia|].
        pose proof (sorted_nth _ _ _ _ Ev Ej ltac:(lia)) as Hs. simpl in Hs.
        assert (k = key) by lia. subst k.
        pose proof (NoDup_nth_fst table mm j key new_id v Hnd Ev Ej). lia.
      - destruct Hhit as [Hh1 Hh2].
        destruct (Nat.le_gt_cases mel j) as [Hg|]; [|lia].
        specialize (Hh2 j k v ltac:(lia) Ej). lia. }
    rewrite E2. destruct Hd2 as (L2 & Hout2 & Hin2).
    (* right half *)
    destruct (IH ps2 (S imid) imax mm me) as (ps3 & E3 & Hd3); try lia.
    { intros i j a b Hij Hj Ha Hb. rewrite Hout2 in Ha, Hb by lia.
      rewrite (upd_nth _ _ _ i _ E1) in Ha. rewrite (upd_nth _ _ _ j _ E1) in Hb.
      destruct (Nat.eqb_spec i imid); [lia|]. destruct (Nat.eqb_spec j imid); [lia|].
      apply (Hsort' i j); auto; lia. }
    { intros i k x j v Hi Ei Ej. rewrite Hout2 in Ei by lia. rewrite (upd_nth _ _ _ i _ E1) in Ei.
      destruct (Nat.eqb_spec i imid); [lia|].
      pose proof (Hcov i k x j v ltac:(lia) Ei Ej) as Hj.
      pose proof (Hsort' imid i _ _ ltac:(lia) ltac:(lia) Ep Ei) as Hk. cbn in Hk.
      split; [|lia]. destruct (Nat.le_gt_cases mm j); [lia|].
      specialize (Hlow j k v ltac:(lia) Ej). lia. }
    rewrite E3. exists ps3. split; [reflexivity|]. destruct Hd3 as (L3 & Hout3 & Hin3).
    split; [lia|]. split.
    - intros i Hi. rewrite Hout3, Hout2 by lia. rewrite (upd_nth _ _ _ i _ E1).
      destruct (Nat.eqb_spec i imid); [lia|reflexivity].
    - intros i k x Hi Ei. destruct (Nat.lt_trichotomy i imid) as [Hlt|[->|Hgt']].
      + destruct (Hin2 i k x) as (r & Er & Hr); [lia| |].
        { rewrite (upd_nth _ _ _ i _ E1). destruct (Nat.eqb_spec i imid); [lia|exact Ei]. }
        exists r. split; [|exact Hr]. rewrite Hout3 by lia. exact Er.
      + rewrite Ep in Ei. inversion Ei; subst. exists new_id. split; [|exact Hres].
        rewrite Hout3, Hout2 by lia. rewrite (upd_nth _ _ _ imid _ E1), Nat.eqb_refl. reflexivity.
      + apply Hin3; [lia|]. rewrite Hout2 by lia. rewrite (upd_nth _ _ _ i _ E1).
        destruct (Nat.eqb_spec i imid); [lia|exact Ei].
  Qed.
End Table.

Lemma lookup_perm null kv kv' k r : Permutation kv kv' -> lookup_result null kv k r -> lookup_result null kv' k r.
Proof.
  intros Hp [H|[H1 H2]].
  - left. eapply Permutation_in; eauto.
  - right. split; [|exact H2]. intros Hin. apply H1. eapply Permutation_in; [|exact Hin].
    apply Permutation_map. apply Permutation_sym; exact Hp.
Qed.

Lemma lookup_fun null kv k r r' : NoDup (map fst kv) -> lookup_result null kv k r -> lookup_result null kv k r' -> r = r'.
Proof.
  intros Hn [H|[H1 H2]] [H'|[H1' H2']].
  - apply In_nth_error in H as [i Hi]. apply In_nth_error in H' as [j Hj].
    pose proof (NoDup_nth_fst kv i j k r r' Hn Hi Hj). subst j. congruence.
  - exfalso. apply H1'. apply in_map_iff. exists (k, r). auto.
  - exfalso. apply H1. apply in_map_iff. exists (k, r'). auto.
  - congruence.
Qed.

Lemma lookup_neg null kv k : Forall (fun p => 0 <= fst p) kv -> k < 0 -> lookup_result null kv k null.
Proof.
  intros Hf Hk. right. split; [|reflexivity]. intros Hin. apply in_map_iff in Hin as ([k' v] & E & Hin).
  rewrite Forall_forall in Hf. specialize (Hf _ Hin). simpl in *. lia.
Qed.

Lemma mapped_lookup null kv table key : mapped_fill kv table -> Forall (fun p => 0 <= fst p) kv ->
  exists r, mapped_get null table key = Some r /\ lookup_result null kv key r.
Proof.
  intros [Hp Hs] Hf. destruct (Z.neg_nonneg_cases key) as [Hneg|Hpos].
  - exists null. split; [apply mapped_get_neg; exact Hneg|]. apply lookup_neg; assumption.
  - destruct (mapped_get_nonneg table Hs null key Hpos) as (r & E & Hr). exists r. split; [exact E|].
    eapply lookup_perm; eauto.
Qed.

(** non-negative queries are answered correctly even when negative keys are in the table (possibly several
    times, as for new-born tracks, src/subhalo_tracking.cpp:605-625) *)
Lemma mapped_lookup_nonneg null kv table key : mapped_fill kv table -> 0 <= key ->
  exists r, mapped_get null table key = Some r /\ lookup_result null kv key r.
Proof.
  intros [Hp Hs] Hk. destruct (mapped_get_nonneg table Hs null key Hk) as (r & E & Hr). exists r.
  split; [exact E|]. eapply lookup_perm; eauto.
Qed.

Lemma keys_min_le ks k0 : keys_min k0 ks <= k0 /\ (forall k v, In (k, v) ks -> keys_min k0 ks <= k) /\
  (keys_min k0 ks = k0 \/ In (keys_min k0 ks) (map fst ks)).
Proof.
  revert k0; induction ks as [|[k v] ks IH]; intros k0; cbn [keys_min].
  - split; [lia|]. split; [intros ? ? []|left; reflexivity].
  - destruct (IH (if k <? k0 then k else k0)) as (H1 & H2 & H3).
    assert (Hk : (if k <? k0 then k else k0) <= k /\ (if k <? k0 then k else k0) <= k0) by (destruct (Z.ltb_spec k k0); lia).
    split; [lia|]. split.
    + intros k' v' [E|Hin]; [inversion E; subst; lia|eauto].
    + cbn. destruct H3 as [H3|H3]; [|auto]. destruct (k <? k0); rewrite H3; auto.
Qed.
Lemma keys_max_ge ks k0 : k0 <= keys_max k0 ks /\ (forall k v, In (k, v) ks -> k <= keys_max k0 ks) /\
  (keys_max k0 ks = k0 \/ In (keys_max k0 ks) (map fst ks)).
Proof.
  revert k0; induction ks as [|[k v] ks IH]; intros k0; cbn [keys_max].
  - split; [lia|]. split; [intros ? ? []|left; reflexivity].
  - destruct (IH (if k0 <? k then k else k0)) as (H1 & H2 & H3).
    assert (Hk : k <= (if k0 <? k then k else k0) /\ k0 <= (if k0 <? k then k else k0)) by (destruct (Z.ltb_spec k0 k); lia).
    split; [lia|]. split.
    + intros k' v' [E|Hin]; [inversion E; subst; lia|eauto].
    + cbn. destruct H3 as [H3|H3]; [|auto]. destruct (k0 <? k); rewrite H3; auto.
Qed.

Lemma NoDup_app_mid {A} (l1 l2 : list A) x : NoDup (l1 ++ x :: l2) -> ~ In x l1.
Proof. intros H Hin. apply NoDup_remove_2 in H. apply H. apply in_or_app; auto. Qed.

Lemma flat_lookup null kv order key : Permutation order kv -> NoDup (map fst kv) ->
  exists t r, flat_fill null kv order = Some t /\ flat_get null t key = Some r /\ lookup_result null kv key r.
Proof.
  intros Hp Hn. unfold flat_fill. destruct kv as [|[k0 v0] rest].
  - exists (mkflat 0 0 0 []), null. split; [reflexivity|]. split; [reflexivity|]. right. split; auto.
  - set (kmin := keys_min k0 rest). set (kmax := keys_max k0 rest).
    destruct (keys_min_le rest k0) as (Hm1 & Hm2 & _). destruct (keys_max_ge rest k0) as (HM1 & HM2 & _).
    fold kmin in Hm1, Hm2. fold kmax in HM1, HM2.
    assert (Hrange : forall k v, In (k, v) ((k0, v0) :: rest) -> kmin <= k <= kmax).
    { intros k v [E|Hin]; [inversion E; subst; lia|]. split; eauto. }
    assert (Hn' : NoDup (map fst order)).
    { eapply Permutation_NoDup; [|exact Hn]. apply Permutation_map, Permutation_sym; exact Hp. }
    destruct (for_each_inv (fun done block => length block = Z.to_nat (kmax - kmin + 1) /\
        forall k, kmin <= k <= kmax -> exists r, zget block (k - kmin) = Some r /\ lookup_result null done k r)
      order (fun kv block => zupd block (fst kv - kmin) (snd kv)) (repeat null (Z.to_nat (kmax - kmin + 1))))
      as (block & E & Hlen & Hb).
    + split; [apply repeat_length|]. intros k Hk. exists null. split; [|right; split; auto].
      rewrite zget_nat by lia. apply nth_error_repeat. lia.
    + intros pre [k v] post block Hord (Hlen & Hb).
      assert (Hk : kmin <= k <= kmax).
      { apply (Hrange k v). eapply Permutation_in; [exact Hp|]. rewrite Hord. apply in_or_app; right; left; reflexivity. }
      cbn [fst snd]. destruct (zupd_some block (k - kmin) v) as [block' Eb]; [lia|].
      exists block'. split; [exact Eb|]. split; [rewrite (zupd_length _ _ _ _ Eb); exact Hlen|].
      intros k' Hk'. rewrite (zget_zupd _ _ _ (k' - kmin) _ Eb).
      destruct (Z.eqb_spec (k' - kmin) (k - kmin)) as [He|He].
      * exists v. split; [reflexivity|]. left. apply in_or_app; right; left. f_equal; lia.
      * destruct (Hb k' Hk') as (r & Er & Hr). exists r. split; [exact Er|].
        destruct Hr as [Hr|[Hr1 Hr2]]; [left; apply in_or_app; auto|]. right. split; [|exact Hr2].
        rewrite map_app, in_app_iff. intros [|[|[]]]; [auto|]. cbn in *. lia.
    + rewrite E. destruct (Z.lt_ge_cases key kmin) as [Hlo|Hlo].
      { exists (mkflat (kmax - kmin + 1) kmin kmax block), null. split; [reflexivity|]. split.
        - unfold flat_get; cbn. destruct (Z.ltb_spec key kmin); [|lia]. rewrite orb_true_r. reflexivity.
        - right. split; [|reflexivity]. intros Hin. apply in_map_iff in Hin as ([k v] & Ek & Hin). cbn [fst] in Ek. subst k.
          specialize (Hrange _ _ Hin). lia. }
      destruct (Z.lt_ge_cases kmax key) as [Hhi|Hhi].
      { exists (mkflat (kmax - kmin + 1) kmin kmax block), null. split; [reflexivity|]. split.
        - unfold flat_get; cbn. destruct (Z.ltb_spec kmax key); [|lia]. rewrite orb_true_r. reflexivity.
        - right. split; [|reflexivity]. intros Hin. apply in_map_iff in Hin as ([k v] & Ek & Hin). cbn [fst] in Ek. subst k.
          specialize (Hrange _ _ Hin). lia. }
      destruct (Hb key ltac:(lia)) as (r & Er & Hr).
      exists (mkflat (kmax - kmin + 1) kmin kmax block), r. split; [reflexivity|]. split.
      * unfold flat_get; cbn [fl_span fl_min fl_max fl_index].
        destruct (Z.eqb_spec (kmax - kmin + 1) 0); [lia|]. destruct (Z.ltb_spec key kmin); [lia|].
        destruct (Z.ltb_spec kmax key); [lia|]. exact Er.
      * eapply lookup_perm; eauto.
Qed.

Lemma tables_agree null kv order table key : Permutation order kv -> mapped_fill kv table ->
  NoDup (map fst kv) -> Forall (fun p => 0 <= fst p) kv ->
  exists t, flat_fill null kv order = Some t /\ mapped_get null table key = flat_get null t key.
Proof.
  intros Hp Hm Hn Hf. destruct (flat_lookup null kv order key Hp Hn) as (t & r & Ef & Eg & Hr).
  destruct (mapped_lookup null kv table key Hm Hf) as (r' & Em & Hr').
  exists t. split; [exact Ef|]. rewrite Em, Eg. f_equal. eapply lookup_fun; eauto.
Qed.

Lemma range_done_all {X} table null (ps ps' : list (Z * X)) : range_done table null ps ps' 0 (length ps) ->
  Forall2 (fun p q => lookup_result null table (fst p) (fst q) /\ snd q = snd p) ps ps'.
Proof.
  intros (Hl & _ & Hin).
  assert (Hg : forall (l l' : list (Z * X)), length l' = length l ->
    (forall i k x, nth_error l i = Some (k, x) -> exists r, nth_error l' i = Some (r, x) /\ lookup_result null table k r) ->
    Forall2 (fun p q => lookup_result null table (fst p) (fst q) /\ snd q = snd p) l l').
  { induction l as [|[k x] l IH]; intros [|q l'] Hlen H; simpl in Hlen; try lia; [constructor|].
    constructor.
    - destruct (H 0%nat k x eq_refl) as (r & E & Hr). simpl in E. inversion E; subst. auto.
    - apply IH; [lia|]. intros i k' x' Hi. apply (H (S i) k' x'). exact Hi. }
  apply Hg; [exact Hl|]. intros i k x Hi. apply Hin; [|exact Hi]. split; [lia|]. eapply nth_error_lt; eauto.
Qed.

Lemma mapped_batch {X} null kv table (ps : list (Z * X)) : mapped_fill kv table -> NoDup (map fst kv) ->
  sorted_by_key ps ->
  exists ps', mapped_get_indices null table ps = Some ps' /\
    Forall2 (fun p q => lookup_result null kv (fst p) (fst q) /\ snd q = snd p) ps ps'.
Proof.
  intros [Hp Hs] Hn Hsort.
  assert (Hn' : NoDup (map fst table)).
  { eapply Permutation_NoDup; [|exact Hn]. apply Permutation_map, Permutation_sym; exact Hp. }
  destruct (get_indices_rec_spec table Hs Hn' null (S (length ps)) ps 0 (length ps) 0 (length table)) as (ps' & E & Hd); try lia.
  - intros i j a b Hij Hj Ha Hb. apply (Hsort i j a b); auto. lia.
  - intros i k x j v Hi Ei Ej. apply nth_error_lt in Ej. lia.
  - exists ps'. split; [exact E|]. apply range_done_all in Hd.
    eapply Forall2_impl; [|exact Hd]. cbn. intros a b [H1 H2]. split; [|exact H2].
    eapply lookup_perm; eauto.
Qed.

(** batch result = single lookups *)
Lemma mapped_batch_single {X} null kv table (ps : list (Z * X)) : mapped_fill kv table -> NoDup (map fst kv) ->
  Forall (fun p => 0 <= fst p) kv -> sorted_by_key ps ->
  exists ps', mapped_get_indices null table ps = Some ps' /\
    Forall2 (fun p q => mapped_get null table (fst p) = Some (fst q) /\ snd q = snd p) ps ps'.
Proof.
  intros Hm Hn Hf Hs. destruct (mapped_batch null kv table ps Hm Hn Hs) as (ps' & E & H).
  exists ps'. split; [exact E|]. eapply Forall2_impl; [|exact H]. cbn. intros a b [H1 H2]. split; [|exact H2].
  destruct (mapped_lookup null kv table (fst a) Hm Hf) as (r & Er & Hr).
  rewrite Er. f_equal. eapply lookup_fun; eauto.
Qed.

Lemma flat_batch_single {X} null kv order (ps : list (Z * X)) : Permutation order kv -> NoDup (map fst kv) ->
  exists t ps', flat_fill null kv order = Some t /\ flat_get_indices null t ps = Some ps' /\
    Forall2 (fun p q => flat_get null t (fst p) = Some (fst q) /\
       lookup_result null kv (fst p) (fst q) /\ snd q = snd p) ps ps'.
Proof.
  intros Hp Hn. destruct (flat_lookup null kv order 0 Hp Hn) as (t & _ & Et & _).
  exists t. assert (Hget : forall k, exists r, flat_get null t k = Some r /\ lookup_result null kv k r).
  { intros k. destruct (flat_lookup null kv order k Hp Hn) as (t' & r & Et' & Er & Hr). exists r.
    rewrite Et in Et'. inversion Et'; subst. auto. }
  induction ps as [|[k x] ps (ps' & _ & E' & H')].
  - exists []. repeat split; auto.
  - destruct (Hget k) as (r & Er & Hr). exists ((r, x) :: ps'). split; [exact Et|]. split.
    + cbn [flat_get_indices fst]. rewrite Er, E'. reflexivity.
    + constructor; [cbn; auto|exact H'].
Qed.
