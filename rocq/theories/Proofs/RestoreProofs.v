(** Proofs about RestoreParticleOrder and KickNullParticles. *)
From Coq Require Import List ZArith Bool Lia Sorting.Permutation.
From Verif.Model Require Import ListMem Run ParticleExchange.
From Verif.Proofs Require Import ListMemProofs.
Import ListNotations.
Local Open Scope nat_scope.

Lemma swap_perm {A} (l l1 l2 : list A) i j p q : nth_error l i = Some p -> nth_error l j = Some q ->
  upd l i q = Some l1 -> upd l1 j p = Some l2 -> Permutation l l2.
Proof.
  intros Hp Hq H1 H2. apply Permutation_nth_error. split.
  { rewrite (upd_length _ _ _ _ H2), (upd_length _ _ _ _ H1). reflexivity. }
  exists (fun k => if Nat.eqb k i then j else if Nat.eqb k j then i else k). split.
  - intros x y. destruct (Nat.eqb_spec x i), (Nat.eqb_spec x j), (Nat.eqb_spec y i), (Nat.eqb_spec y j); lia.
  - intros k. rewrite (upd_nth _ _ _ k _ H2), (upd_nth _ _ _ k _ H1).
    destruct (Nat.eqb_spec k j), (Nat.eqb_spec k i); subst; congruence.
Qed.

Section Restore.
  Context {A : Type}.
  Definition b01 (a o : nat) : nat := if Nat.eqb a o then 0 else 1.
  Fixpoint mis (a : nat) (l : list (A * nat)) : nat :=
    match l with [] => 0 | x :: r => b01 a (snd x) + mis (S a) r end.
  Lemma mis_le a l : mis a l <= length l.
  Proof. revert a; induction l as [|x l IH]; intros a; cbn; [lia|]. specialize (IH (S a)). unfold b01. destruct (a =? snd x); lia. Qed.
  Lemma mis_upd a l l1 i p q : nth_error l i = Some p -> upd l i q = Some l1 ->
    mis a l1 + b01 (a + i) (snd p) = mis a l + b01 (a + i) (snd q).
  Proof.
    revert a i l1; induction l as [|x l IH]; intros a [|i] l1 Hp H1; cbn in *; try discriminate.
    - injection Hp as ->. injection H1 as <-. cbn. rewrite Nat.add_0_r. lia.
    - destruct (upd l i q) as [r|] eqn:E; [|discriminate]. injection H1 as <-. cbn.
      specialize (IH (S a) i r Hp E). rewrite Nat.add_succ_r. cbn in IH. lia.
  Qed.
  Definition ord (l : list (A * nat)) := NoDup (map snd l) /\ forall p, In p l -> snd p < length l.
  Definition placed (l : list (A * nat)) k := exists x, nth_error l k = Some (x, k).
  Lemma ord_perm l l' : Permutation l l' -> ord l -> ord l'.
  Proof.
    intros HP [H1 H2]. split.
    - eapply Permutation_NoDup; [apply Permutation_map; exact HP|exact H1].
    - intros p Hp. rewrite <- (Permutation_length HP). apply H2. eapply Permutation_in; [symmetry; exact HP|exact Hp].
  Qed.
  Lemma ord_inj l i j p q : ord l -> nth_error l i = Some p -> nth_error l j = Some q -> snd p = snd q -> i = j.
  Proof.
    intros [H _] Hp Hq E. rewrite NoDup_nth_error in H. apply H.
    - rewrite map_length. eapply nth_error_lt; eauto.
    - rewrite (map_nth_error snd _ _ Hp), (map_nth_error snd _ _ Hq). congruence.
  Qed.
  Lemma restore_at_spec fuel : forall i l, ord l -> i < length l -> (forall k, k < i -> placed l k) -> mis 0 l <= fuel ->
    exists l', restore_at fuel i l = Done l' /\ Permutation l l' /\ forall k, k <= i -> placed l' k.
  Proof.
    induction fuel as [|f IH]; intros i l Ho Hi Hpl Hm.
    all: destruct (nth_error_in_range l i Hi) as [p Hp]; cbn [restore_at]; rewrite Hp.
    all: destruct (Nat.eqb_spec i (snd p)) as [E|E].
    1,3: exists l; split; [reflexivity|]; split; [reflexivity|]; intros k Hk; destruct (Nat.eq_dec k i) as [->|Hn];
        [exists (fst p); rewrite Hp; destruct p; cbn in *; congruence|apply Hpl; lia].
    - exfalso. assert (Hz : forall a l' j q, nth_error l' j = Some q -> a + j <> snd q -> 0 < mis a l').
      { clear. intros a l'. revert a. induction l' as [|x l' IH]; intros a [|j] q H Hn; cbn in *; try discriminate.
        - injection H as ->. unfold b01. destruct (Nat.eqb_spec a (snd q)); lia.
        - specialize (IH (S a) j q H). cbn in IH. lia. }
      specialize (Hz 0 l i p Hp). cbn in Hz. specialize (Hz E). lia.
    - assert (Hj : snd p < length l) by (apply (proj2 Ho); eapply nth_error_In; eauto).
      destruct (nth_error_in_range l (snd p) Hj) as [q Hq]. rewrite Hq.
      destruct (upd_some l i q Hi) as [l1 H1]. rewrite H1.
      destruct (upd_some l1 (snd p) p) as [l2 H2]; [rewrite (upd_length _ _ _ _ H1); exact Hj|]. rewrite H2.
      pose proof (swap_perm _ _ _ _ _ _ _ Hp Hq H1 H2) as HP.
      assert (Hqj : snd q <> snd p). { intros Eq. apply E. eapply (ord_inj l i (snd p) p q); eauto. }
      pose proof (mis_upd 0 _ _ _ _ _ Hp H1) as M1.
      assert (Hq1 : nth_error l1 (snd p) = Some q) by (rewrite (upd_other _ _ _ _ _ H1) by congruence; exact Hq).
      pose proof (mis_upd 0 _ _ _ _ _ Hq1 H2) as M2. cbn in M1, M2. unfold b01 in M1, M2.
      destruct (Nat.eqb_spec i (snd p)); [contradiction|]. destruct (Nat.eqb_spec (snd p) (snd q)); [congruence|].
      destruct (Nat.eqb_spec (snd p) (snd p)); [|contradiction].
      destruct (IH i l2) as (l' & R & HP' & Hpl').
      + eapply ord_perm; eauto.
      + rewrite <- (Permutation_length HP). exact Hi.
      + intros k Hk. destruct (Hpl k Hk) as [x Hx]. exists x.
        rewrite (upd_nth _ _ _ k _ H2), (upd_nth _ _ _ k _ H1).
        destruct (Nat.eqb_spec k (snd p)) as [Ek|]; [|destruct (Nat.eqb_spec k i); [lia|exact Hx]].
        exfalso. apply (Nat.lt_neq k i Hk). eapply (ord_inj l k i (x, k) p); eauto.
      + destruct (Nat.eqb i (snd q)); lia.
      + exists l'. split; [exact R|]. split; [eapply perm_trans; eauto|exact Hpl'].
  Qed.
  Lemma restore_from_spec fuel n : forall i l, ord l -> i + n = length l -> (forall k, k < i -> placed l k) -> length l <= fuel ->
    exists l', restore_from fuel i n l = Done l' /\ Permutation l l' /\ forall k, k < length l -> placed l' k.
  Proof.
    induction n as [|n IH]; intros i l Ho Hn Hpl Hf; cbn [restore_from].
    - exists l. split; [reflexivity|]. split; [reflexivity|]. intros k Hk. apply Hpl. lia.
    - destruct (restore_at_spec fuel i l Ho) as (l1 & -> & HP & H1); [lia|exact Hpl|pose proof (mis_le 0 l); lia|].
      destruct (IH (S i) l1) as (l' & R & HP' & H').
      + eapply ord_perm; eauto.
      + rewrite <- (Permutation_length HP). lia.
      + intros k Hk. apply H1. lia.
      + rewrite <- (Permutation_length HP). lia.
      + exists l'. split; [exact R|]. split; [eapply perm_trans; eauto|]. intros k Hk. apply H'. rewrite <- (Permutation_length HP). exact Hk.
  Qed.
  Lemma restore_correct (l : list (A * nat)) fuel : Permutation (map snd l) (seq 0 (length l)) -> length l <= fuel ->
    exists l', restore_order fuel l = Done l' /\ length l' = length l /\ forall x o, In (x, o) l -> nth_error l' o = Some (x, o).
  Proof.
    intros HP Hf. destruct (restore_from_spec fuel (length l) 0 l) as (l' & R & HP' & Hpl); [|reflexivity|lia|exact Hf|].
    - split; [eapply Permutation_NoDup; [symmetry; exact HP|apply seq_NoDup]|].
      intros p Hp. assert (In (snd p) (seq 0 (length l))) as H by (eapply Permutation_in; [exact HP|apply in_map; exact Hp]).
      apply in_seq in H. lia.
    - exists l'. split; [exact R|]. split; [symmetry; apply Permutation_length; exact HP'|].
      intros x o Hx. apply (Permutation_in _ HP') in Hx. apply In_nth_error in Hx as [k Hk].
      destruct (Hpl k) as [y Hy]; [rewrite (Permutation_length HP'); eapply nth_error_lt; eauto|]. congruence.
  Qed.
End Restore.

Section Kick.
  Context {X : Type}.
  Variable null : Z.
  Definition keep (p : Z * X) : bool := negb (Z.eqb (fst p) null).
  Lemma firstn_S_nth {B} (l : list B) i x : nth_error l i = Some x -> firstn (S i) l = firstn i l ++ [x].
  Proof. revert i; induction l as [|y l IH]; intros [|i] H; cbn in *; try discriminate; [congruence|]. f_equal. auto. Qed.
  Lemma skipn_nth {B} (l : list B) i x : nth_error l i = Some x -> skipn i l = x :: skipn (S i) l.
  Proof. revert i; induction l as [|y l IH]; intros [|i] H; cbn in *; try discriminate; [congruence|]. apply IH; exact H. Qed.
  Definition kinv (l : list (Z * X)) (i : nat) (st : list (Z * X) * nat) : Prop :=
    length (fst st) = length l /\ firstn (snd st) (fst st) = filter keep (firstn i l) /\ snd st <= i /\
    (forall k, i <= k -> nth_error (fst st) k = nth_error l k).
  Lemma kick_inv l i st : i < length l -> kinv l i st -> exists st', kick_step null i st = Some st' /\ kinv l (S i) st'.
  Proof.
    intros Hi (H1 & H2 & H3 & H4). destruct st as [l' s]; cbn [fst snd] in *. unfold kick_step; cbn [fst snd].
    destruct (nth_error_in_range l i Hi) as [p Hp]. rewrite H4, Hp by lia.
    assert (HF : filter keep (firstn (S i) l) = filter keep (firstn i l) ++ (if Z.eqb (fst p) null then [] else [p])).
    { rewrite (firstn_S_nth _ _ _ Hp), filter_app. f_equal. cbn. unfold keep. destruct (fst p =? null)%Z; reflexivity. }
    destruct (Z.eqb_spec (fst p) null) as [E|E].
    - exists (l', s). split; [reflexivity|]. unfold kinv; cbn [fst snd].
      split; [exact H1|]. split; [rewrite HF, app_nil_r; exact H2|]. split; [lia|]. intros k Hk. apply H4. lia.
    - destruct (Nat.eqb_spec i s) as [Es|Es].
      + exists (l', S s). split; [reflexivity|]. unfold kinv; cbn [fst snd]. split; [exact H1|]. split; [|split; [lia|intros k Hk; apply H4; lia]].
        rewrite HF, <- H2. apply firstn_S_nth. rewrite H4 by lia. rewrite <- Es. exact Hp.
      + destruct (upd_some l' s p) as [l2 HU]; [lia|]. rewrite HU. exists (l2, S s). split; [reflexivity|].
        unfold kinv; cbn [fst snd]. pose proof (upd_length _ _ _ _ HU). split; [lia|]. split; [|split; [lia|]].
        * rewrite HF, <- H2. rewrite (firstn_S_nth l2 s p); [|eapply upd_same; eauto]. f_equal.
          apply nth_error_ext. intros k. rewrite upd_firstn_skipn in HU by lia. injection HU as <-.
          rewrite firstn_app, firstn_firstn, Nat.min_id, firstn_length, Nat.min_l, Nat.sub_diag by lia. cbn. rewrite app_nil_r. reflexivity.
        * intros k Hk. rewrite (upd_other _ _ _ _ _ HU) by lia. apply H4. lia.
  Qed.
  Lemma kick_loop l i n st : i + n <= length l -> kinv l i st -> exists st', for_range i n (kick_step null) st = Some st' /\ kinv l (i + n) st'.
  Proof.
    intros Hn H. apply for_range_inv; [exact H|]. intros k s Hk Hs. apply kick_inv; [lia|exact Hs].
  Qed.
  Lemma kinv0 l : kinv l 0 (l, 0).
  Proof. split; [reflexivity|]. split; [reflexivity|]. split; [apply le_n|]. reflexivity. Qed.
  Lemma kinv_len l i st : kinv l i st -> i <= length l -> snd st = length (filter keep (firstn i l)).
  Proof. intros (H1 & H2 & H3 & _) Hi. rewrite <- H2, firstn_length, H1. lia. Qed.
  Lemma filter_split (l : list (Z * X)) : length l = length (filter keep l) + length (filter (fun p => Z.eqb (fst p) null) l).
  Proof. induction l as [|x l IH]; cbn; [reflexivity|]. unfold keep at 1. destruct (fst x =? null)%Z; cbn; lia. Qed.
  Lemma halo_kick_correct l : halo_kick null l = Some (filter keep l, length (filter (fun p => Z.eqb (fst p) null) l)).
  Proof.
    unfold halo_kick. destruct (kick_loop l 0 (length l) (l, 0)) as ([l' s] & -> & H); [lia|apply kinv0|].
    pose proof (kinv_len _ _ _ H) as HL. destruct H as (_ & H2 & _). cbn [fst snd] in *. rewrite Nat.add_0_l, firstn_all in *.
    rewrite H2, HL by lia. pose proof (filter_split l). do 2 f_equal. lia.
  Qed.
  Lemma sub_kick_correct l nb : nb <= length l ->
    sub_kick null l nb = Some (filter keep l, length (filter keep (firstn nb l)), length (filter (fun p => Z.eqb (fst p) null) l)).
  Proof.
    intros Hn. unfold sub_kick. destruct (Nat.ltb_spec (length l) nb); [lia|].
    destruct (kick_loop l 0 nb (l, 0)) as ([l1 s1] & -> & H1); [lia|apply kinv0|].
    destruct (kick_loop l nb (length l - nb) (l1, s1)) as ([l' s] & -> & H2); [lia|exact H1|].
    pose proof (kinv_len _ _ _ H1 Hn) as HL1. pose proof (kinv_len _ _ _ H2) as HL. destruct H2 as (_ & H2 & _). cbn [fst snd] in *.
    replace (nb + (length l - nb)) with (length l) in * by lia. rewrite Nat.add_0_l, firstn_all in *.
    rewrite H2, HL, HL1 by lia. pose proof (filter_split l). do 2 f_equal. lia.
  Qed.
End Kick.
