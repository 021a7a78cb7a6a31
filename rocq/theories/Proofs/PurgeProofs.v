(** Proofs about the promotion of most bound particles. *)
From Coq Require Import List ZArith Bool Arith Lia Sorting.Permutation.
From Verif.Model Require Import ListMem Purge.
From Verif.Spec Require Import Purge.
From Verif.Proofs Require Import ListMemProofs ListExtra.
Import ListNotations.

Section Purge.
  Context {P V : Type}.
  Variables (p_id : P -> Z) (p_pos p_vel : P -> V).
  Notation sub := (sub P V).

  (** What happens to one member. *)
  Definition outcome (mask : Z -> Prop) (s s' : sub) : Prop :=
    if (1 <? u_nbound s)%Z then
      ((forall k p, 0 < k -> nth_error (u_parts s) k = Some p -> mask (p_id p)) /\ s' = s)
      \/ exists i p, next_unmasked p_id mask (u_parts s) i p /\ led_by p_pos p_vel i p s s'
    else s' = s.

  Lemma for_each_app {A S} (body : A -> S -> option S) l : forall m s, for_each (l ++ m) body s = match for_each l body s with Some s' => for_each m body s' | None => None end.
  Proof. induction l as [|a l IH]; intros m s; cbn [app for_each]; [reflexivity|]. destruct (body a s) as [s'|]; [apply IH|reflexivity]. Qed.
  Lemma excluded_in ex p : excluded p_id ex p = true <-> In (p_id p) ex.
  Proof.
    unfold excluded. rewrite existsb_exists. split.
    - intros (x & Hx & E). apply Z.eqb_eq in E. rewrite E. exact Hx.
    - intros H. exists (p_id p). split; [exact H|apply Z.eqb_refl].
  Qed.
  Lemma excluded_not ex p : excluded p_id ex p = false <-> ~ In (p_id p) ex.
  Proof. rewrite <- excluded_in. destruct (excluded p_id ex p); split; congruence || tauto. Qed.

  Lemma promote_ok ex s : forall rest i, rest = skipn i (u_parts s) -> exists s', promote p_id p_pos p_vel ex s i rest = Some s' /\
    (((forall k p, i <= k -> 0 < k -> nth_error (u_parts s) k = Some p -> In (p_id p) ex) /\ s' = s)
     \/ exists k p, i <= k /\ 0 < k /\ nth_error (u_parts s) k = Some p /\ ~ In (p_id p) ex /\ (forall k' p', i <= k' < k -> 0 < k' -> nth_error (u_parts s) k' = Some p' -> In (p_id p') ex) /\
          led_by p_pos p_vel k p s s').
  Proof.
    induction rest as [|p r IH]; intros i E; cbn [promote].
    - exists s. split; [reflexivity|]. left. split; [|reflexivity]. intros k p Hk _ Hn. exfalso.
      assert (HL : length (skipn i (u_parts s)) = 0) by (rewrite <- E; reflexivity). rewrite skipn_length in HL. apply nth_error_lt in Hn. lia.
    - assert (Hp : nth_error (u_parts s) i = Some p). { replace i with (i + 0) by lia. rewrite <- nth_skipn, <- E. reflexivity. }
      assert (Er : r = skipn (S i) (u_parts s)). { rewrite (skipn_cons i (u_parts s) p Hp) in E. injection E as E. exact E. }
      assert (Hskip : In (p_id p) ex \/ i = 0 -> exists s', promote p_id p_pos p_vel ex s (S i) r = Some s' /\
        (((forall k p, i <= k -> 0 < k -> nth_error (u_parts s) k = Some p -> In (p_id p) ex) /\ s' = s)
         \/ exists k p, i <= k /\ 0 < k /\ nth_error (u_parts s) k = Some p /\ ~ In (p_id p) ex /\ (forall k' p', i <= k' < k -> 0 < k' -> nth_error (u_parts s) k' = Some p' -> In (p_id p') ex) /\
              led_by p_pos p_vel k p s s')).
      { intros Hi. destruct (IH (S i) Er) as (s' & E' & H'). exists s'. split; [exact E'|]. destruct H' as [[H1 H2]|(k & q & H1 & H2 & H3 & H4 & H5 & H6)].
        - left. split; [|exact H2]. intros k q Hk H0 Hn. destruct (Nat.eq_dec k i) as [->|Hne]; [|apply (H1 k q); auto; lia].
          rewrite Hp in Hn. injection Hn as <-. destruct Hi; [assumption|lia].
        - right. exists k, q. repeat split; auto; try lia; try apply H6. intros k' q' Hk H0 Hn. destruct (Nat.eq_dec k' i) as [->|Hne]; [|apply (H5 k' q'); auto; lia].
          rewrite Hp in Hn. injection Hn as <-. destruct Hi; [assumption|lia]. }
      destruct (excluded p_id ex p) eqn:Ex; cbn [negb]; [apply Hskip; left; apply excluded_in, Ex|].
      destruct (i =? 0) eqn:Ei; cbn [negb]; [apply Hskip; right; apply Nat.eqb_eq, Ei|]. apply Nat.eqb_neq in Ei.
      pose proof (nth_error_lt _ _ _ Hp) as Hlt. destruct (nth_error_in_range (u_parts s) 0 ltac:(lia)) as [p0 E0]. rewrite E0.
      destruct (upd_some (u_parts s) 0 p ltac:(lia)) as [l1 E1]. rewrite E1. pose proof (upd_length _ _ _ _ E1) as L1.
      destruct (upd_some l1 i p0 ltac:(lia)) as [l2 E2]. rewrite E2. eexists; split; [reflexivity|]. right. exists i, p.
      repeat split; auto; try lia; cbn [u_nbound u_parts u_pos u_vel].
      + apply excluded_not, Ex.
      + rewrite (upd_length _ _ _ _ E2). exact L1.
      + rewrite (upd_other _ _ _ 0 _ E2) by lia. rewrite (upd_same _ _ _ _ E1), Hp. reflexivity.
      + rewrite (upd_same _ _ _ _ E2), E0. reflexivity.
      + intros k Hk Hki. rewrite (upd_other _ _ _ k _ E2), (upd_other _ _ _ k _ E1); auto.
  Qed.

  Lemma exchanged_perm i (l l' : list P) : exchanged i l l' -> i < length l -> Permutation l l'.
  Proof.
    intros (HL & H0 & Hi & Hk) Hlt. destruct l as [|a r]; cbn [length] in *; [lia|]. destruct i as [|i].
    - assert (l' = a :: r); [|subst; reflexivity]. apply nth_error_ext. intros [|k]; [exact H0|apply Hk; lia].
    - destruct l' as [|b r']; cbn [length] in *; [discriminate|]. cbn [nth_error] in H0, Hi.
      pose proof (nth_error_split2 r i b (eq_sym H0)) as Er. pose proof (nth_error_split2 r' i a Hi) as Er'.
      assert (Ef : firstn i r' = firstn i r). { apply nth_error_ext. intros k. rewrite !nth_firstn. destruct (k <? i) eqn:Ek; [|reflexivity]. apply Nat.ltb_lt in Ek. apply (Hk (S k)); lia. }
      assert (Es : skipn (S i) r' = skipn (S i) r). { apply nth_error_ext. intros k. rewrite !nth_skipn. apply (Hk (S (S i + k))); lia. }
      rewrite Er, Er', Ef, Es. rewrite <- !Permutation_middle. apply perm_swap.
  Qed.

  Lemma outcome_perm mask s s' : outcome mask s s' -> Permutation (u_parts s) (u_parts s') /\ u_nbound s' = u_nbound s.
  Proof.
    unfold outcome. destruct (1 <? u_nbound s)%Z; [|intros ->; auto]. intros [[_ ->]|(i & p & (H0 & Hn & _) & (HN & HE & _))]; [auto|].
    split; [|exact HN]. apply (exchanged_perm i); [exact HE|apply nth_error_lt in Hn; exact Hn].
  Qed.
  Lemma outcome_iff m1 m2 s s' : (forall id, m1 id <-> m2 id) -> outcome m1 s s' -> outcome m2 s s'.
  Proof.
    intros H. unfold outcome. destruct (1 <? u_nbound s)%Z; [|auto]. intros [[H1 H2]|(i & p & (H0 & H1 & H2 & H3) & H4)].
    - left. split; [|exact H2]. intros k p Hk Hn. apply H, (H1 k p); assumption.
    - right. exists i, p. split; [|exact H4]. repeat split; auto; [rewrite <- H; exact H2|]. intros i' p' Hi Hn. apply H, (H3 i' p'); assumption.
  Qed.

  Lemma masked_tail (subs : list sub) a g j id : masked p_id subs (a :: g) (S j) id <-> masked p_id subs g j id.
  Proof.
    split; intros (k & m & t & Hk & Hm & H).
    - destruct k as [|k]; [lia|]. exists k, m, t. split; [lia|]. split; [exact Hm|exact H].
    - exists (S k), m, t. split; [lia|]. split; [exact Hm|exact H].
  Qed.

  Lemma group_turns (subs : list sub) : forall g, NoDup g -> (forall m, In m g -> m < length subs) ->
    exists subs' ex, for_each (rev g) (turn p_id p_pos p_vel) (subs, []) = Some (subs', ex) /\ length subs' = length subs /\
      (forall m, ~ In m g -> nth_error subs' m = nth_error subs m) /\
      (forall id, In id ex <-> exists k m t, nth_error g k = Some m /\ nth_error subs m = Some t /\ (1 < u_nbound t)%Z /\ In id (map p_id (u_parts t))) /\
      forall j m s, nth_error g j = Some m -> nth_error subs m = Some s -> exists s', nth_error subs' m = Some s' /\ outcome (masked p_id subs g j) s s'.
  Proof.
    induction g as [|a g IH]; intros HN HL.
    - exists subs, []. cbn. repeat split; auto; try contradiction. { intros (k & m & t & Hk & _). destruct k; discriminate. } intros j m s H. destruct j; discriminate.
    - inversion HN as [|x y Ha HN' [Ex Ey]]. subst. destruct (IH HN' ltac:(intros; apply HL; right; assumption)) as (s1 & ex & E1 & L1 & Out & Hex & Hin).
      cbn [rev]. rewrite for_each_app, E1. cbn [for_each]. unfold turn at 1.
      destruct (nth_error_in_range subs a ltac:(apply HL; left; reflexivity)) as [s Es]. assert (Es1 : nth_error s1 a = Some s) by (rewrite (Out a Ha); exact Es). rewrite Es1.
      assert (HexM : forall id, In id ex <-> masked p_id subs (a :: g) 0 id).
      { intros id. rewrite Hex. split; intros (k & m & t & H).
        - exists (S k), m, t. split; [lia|exact H].
        - destruct H as [Hk H]. destruct k as [|k]; [lia|]. exists k, m, t. exact H. }
      assert (Hrest : forall s1', (forall m, m <> a -> nth_error s1' m = nth_error s1 m) -> forall j m s, nth_error g j = Some m -> nth_error subs m = Some s ->
        exists s', nth_error s1' m = Some s' /\ outcome (masked p_id subs (a :: g) (S j)) s s').
      { intros s1' Hs j m t Hj Ht. destruct (Hin j m t Hj Ht) as (t' & Et & Ho). exists t'. split.
        - rewrite Hs; [exact Et|]. intros ->. apply Ha. eapply nth_error_In, Hj.
        - revert Ho. apply outcome_iff. intros id. rewrite masked_tail. reflexivity. }
      destruct (1 <? u_nbound s)%Z eqn:Eb.
      + destruct (promote_ok ex s (u_parts s) 0 eq_refl) as (s' & Ep & Hp). rewrite Ep. destruct (upd_some s1 a s' ltac:(apply nth_error_lt in Es1; exact Es1)) as [s2 E2]. rewrite E2.
        assert (Ho : outcome (masked p_id subs (a :: g) 0) s s').
        { apply (outcome_iff (fun id => In id ex)); [exact HexM|]. unfold outcome. rewrite Eb. destruct Hp as [[H1 H2]|(k & p & H1 & H2 & H3 & H4 & H5 & H6)].
          - left. split; [|exact H2]. intros k p Hk Hn. apply (H1 k p); auto; lia.
          - right. exists k, p. split; [|exact H6]. repeat split; auto. intros k' p' Hk Hn. apply (H5 k' p'); auto; lia. }
        exists s2, (ex ++ map p_id (u_parts s')). split; [reflexivity|]. split; [rewrite (upd_length _ _ _ _ E2); exact L1|]. split; [|split].
        * intros m Hm. rewrite (upd_other _ _ _ m _ E2); [apply Out|]; intros H; apply Hm; [right; exact H|left; symmetry; exact H].
        * intros id. rewrite in_app_iff, Hex. destruct (outcome_perm _ _ _ Ho) as [HP _]. split.
          -- intros [(k & m & t & H)|H]; [exists (S k), m, t; exact H|]. exists 0, a, s. repeat split; auto; [lia|]. eapply Permutation_in; [apply Permutation_map, Permutation_sym, HP|exact H].
          -- intros (k & m & t & H1 & H2 & H3 & H4). destruct k as [|k]; [|left; exists k, m, t; repeat split; auto]. cbn [nth_error] in H1. injection H1 as <-. rewrite Es in H2. injection H2 as <-.
             right. eapply Permutation_in; [apply Permutation_map, HP|exact H4].
        * intros [|j] m t Hj Ht; cbn [nth_error] in Hj.
          -- injection Hj as <-. rewrite Es in Ht. injection Ht as <-. exists s'. split; [apply (upd_same _ _ _ _ E2)|exact Ho].
          -- apply (Hrest s2); auto. intros m' Hm'. apply (upd_other _ _ _ m' _ E2), Hm'.
      + exists s1, ex. split; [reflexivity|]. split; [exact L1|]. split; [|split].
        * intros m Hm. apply Out. intros H. apply Hm. right. exact H.
        * intros id. rewrite Hex. split; intros (k & m & t & H1 & H2 & H3 & H4).
          -- exists (S k), m, t. auto.
          -- destruct k as [|k]; [|exists k, m, t; auto]. cbn [nth_error] in H1. injection H1 as <-. rewrite Es in H2. injection H2 as <-. lia.
        * intros [|j] m t Hj Ht; cbn [nth_error] in Hj.
          -- injection Hj as <-. rewrite Es in Ht. injection Ht as <-. exists s. split; [exact Es1|]. unfold outcome. rewrite Eb. reflexivity.
          -- apply (Hrest s1); auto.
  Qed.

  Lemma masked_same (subs subs1 : list sub) g j id : (forall m, In m g -> nth_error subs1 m = nth_error subs m) -> masked p_id subs1 g j id <-> masked p_id subs g j id.
  Proof.
    intros H. split; intros (k & m & t & H1 & H2 & H3 & H4); exists k, m, t; (split; [exact H1|]; split; [exact H2|]; split; [|exact H4]).
    - rewrite <- H; [exact H3|eapply nth_error_In, H2].
    - rewrite H; [exact H3|eapply nth_error_In, H2].
  Qed.

  Lemma purge_ok : forall groups (subs : list sub), members_ok groups subs ->
    exists subs', purge p_id p_pos p_vel groups subs = Some subs' /\ length subs' = length subs /\
      (forall m, ~ In m (concat groups) -> nth_error subs' m = nth_error subs m) /\
      forall g j m s, In g groups -> nth_error g j = Some m -> nth_error subs m = Some s -> exists s', nth_error subs' m = Some s' /\ outcome (masked p_id subs g j) s s'.
  Proof.
    induction groups as [|g gs IH]; intros subs [HN HL].
    - exists subs. unfold purge. cbn. repeat split; auto. contradiction.
    - cbn [concat] in *. assert (HNg : NoDup g) by (eapply NoDup_app_remove_r, HN). destruct (group_turns subs g HNg ltac:(intros; apply HL, in_app_iff; auto)) as (s1 & ex & E1 & L1 & Out1 & _ & Hin1).
      destruct (IH s1) as (s2 & E2 & L2 & Out2 & Hin2). { split; [eapply NoDup_app_remove_l, HN|]. intros m Hm. rewrite L1. apply HL, in_app_iff. auto. }
      exists s2. unfold purge in *. cbn [for_each]. unfold purge_group at 1. rewrite E1. split; [exact E2|]. split; [congruence|]. split.
      + intros m Hm. rewrite in_app_iff in Hm. rewrite Out2, Out1; tauto.
      + intros g' j m s [->|Hg] Hj Hs.
        * destruct (Hin1 j m s Hj Hs) as (s' & Es & Ho). exists s'. split; [|exact Ho]. rewrite Out2; [exact Es|]. intros Hm. eapply NoDup_app_disjoint; [exact HN|eapply nth_error_In, Hj|exact Hm].
        * assert (Hsame : forall m', In m' g' -> nth_error s1 m' = nth_error subs m'). { intros m' Hm'. apply Out1. intros H. eapply NoDup_app_disjoint; [exact HN|exact H|]. apply in_concat. exists g'. auto. }
          destruct (Hin2 g' j m s Hg Hj) as (s' & Es & Ho). { rewrite Hsame; [exact Hs|eapply nth_error_In, Hj]. }
          exists s'. split; [exact Es|]. revert Ho. apply outcome_iff. intros id. apply masked_same, Hsame.
  Qed.
End Purge.
