(** Programs that respect each other's cells: their executions at the same time. *)
From Coq Require Import List ZArith Bool Lia Sorting.Permutation.
From Verif.Model Require Import ListMem Threads.
From Verif.Spec Require Import Races.
From Verif.Proofs Require Import ListMemProofs ListExtra.
Import ListNotations.

Section Wp.
  Context {L V : Type}.
  Variable same : L -> L -> bool.
  Hypothesis same_ok : forall a b, same a b = true <-> a = b.
  Local Notation store := (L -> option V).

  Lemma put_here (s : store) l v : put same s l v l = Some v.
  Proof. unfold put. rewrite (proj2 (same_ok l l) eq_refl). reflexivity. Qed.
  Lemma put_there (s : store) l v m : m <> l -> put same s l v m = s m.
  Proof. intros H. unfold put. destruct (same m l) eqn:E; [apply same_ok in E; contradiction|reflexivity]. Qed.
  Lemma cell_dec (a b : L) : a = b \/ a <> b.
  Proof. destruct (same a b) eqn:E; [left; apply same_ok; exact E|right; intros H; apply same_ok in H; congruence]. Qed.

  Section Rights.
    Variables (rd : L -> Prop) (wr : L -> V -> Prop).
    (** The program, alone, makes exactly [n] steps, reads [rd] and writes [wr] only, and ends in [Post]. *)
    Fixpoint wp {A} (p : @prog L V A) (n : nat) (s : store) (Post : A -> store -> Prop) : Prop :=
      match p with
      | Ret a => n = O /\ Post a s
      | Get l k => exists m v, n = S m /\ rd l /\ s l = Some v /\ wp (k v) m s Post
      | Put l v k => exists m, n = S m /\ wr l v /\ s l <> None /\ wp k m (put same s l v) Post
      | Fail => False
      end.
    Lemma wp_mono {A} (p : @prog L V A) : forall n s (P Q : A -> store -> Prop), (forall a x, P a x -> Q a x) -> wp p n s P -> wp p n s Q.
    Proof.
      induction p as [a|l k IH|l v k IH|]; cbn; intros n s P Q H.
      - intros [E HP]. auto.
      - intros (m & v & E & Hr & Hv & HW). exists m, v. repeat split; auto. eapply IH; eauto.
      - intros (m & E & Hr & Hv & HW). exists m. repeat split; auto. eapply IH; eauto.
      - auto.
    Qed.
    Lemma wp_bind {A B} (p : @prog L V A) (f : A -> prog B) : forall n s Post, wp p n s (fun a x => exists m, wp (f a) m x Post) -> exists m, wp (pbind p f) m s Post.
    Proof.
      induction p as [a|l k IH|l v k IH|]; cbn; intros n s Post.
      - intros [_ HP]. exact HP.
      - intros (m & v & E & Hr & Hv & HW). destruct (IH v m s Post HW) as [m' Hm]. exists (S m'), m', v. auto.
      - intros (m & E & Hr & Hv & HW). destruct (IH m _ Post HW) as [m' Hm]. exists (S m'), m'. auto.
      - intros [].
    Qed.
    (** The program in a memory that agrees on what it reads: cells keep being different only where nothing is written. *)
    Lemma wp_agree {A} (p : @prog L V A) : forall n s s' Post, (forall l, rd l -> s l = s' l) -> (forall l, s l = None <-> s' l = None) -> wp p n s Post ->
      wp p n s' (fun a x' => exists x, Post a x /\ forall l, x l = x' l \/ (x l = s l /\ x' l = s' l)).
    Proof.
      induction p as [a|l k IH|l v k IH|]; cbn; intros n s s' Post Hrd Hdom.
      - intros [E HP]. split; [exact E|]. exists s. split; [exact HP|]. auto.
      - intros (m & v & E & Hr & Hv & HW). exists m, v. repeat split; auto. rewrite <- Hrd; assumption.
      - intros (m & E & Hr & Hv & HW). exists m. repeat split; auto; [rewrite <- Hdom; exact Hv|].
        eapply wp_mono; [|apply (IH m (put same s l v) (put same s' l v) Post)].
        + intros a x' (x & HP & Hx). exists x. split; [exact HP|]. intros l'. destruct (Hx l') as [E'|[E1 E2]]; [left; exact E'|].
          destruct (cell_dec l' l) as [->|Hne]; [left; rewrite put_here in *; congruence|]. rewrite put_there in E1, E2 by exact Hne. right. auto.
        + intros l' Hl'. destruct (cell_dec l' l) as [->|Hne]; [rewrite !put_here; reflexivity|]. rewrite !put_there by exact Hne. apply Hrd. exact Hl'.
        + intros l'. destruct (cell_dec l' l) as [->|Hne]; [rewrite !put_here; split; discriminate|]. rewrite !put_there by exact Hne. apply Hdom.
        + exact HW.
      - auto.
    Qed.
    (** What it does not write keeps its value; no cell appears or vanishes. *)
    Lemma wp_keeps {A} (p : @prog L V A) : forall n s Post, wp p n s Post ->
      wp p n s (fun a x => Post a x /\ (forall l, x l = None <-> s l = None) /\ forall l, (exists v, wr l v) \/ x l = s l).
    Proof.
      induction p as [a|l k IH|l v k IH|]; cbn; intros n s Post.
      - intros [E HP]. repeat split; auto.
      - intros (m & v & E & Hr & Hv & HW). exists m, v. repeat split; auto.
      - intros (m & E & Hr & Hv & HW). exists m. repeat split; auto. eapply wp_mono; [|apply IH; exact HW]. cbn. intros a x (HP & Hd & Hx). split; [exact HP|]. split.
        + intros l'. rewrite Hd. destruct (cell_dec l' l) as [->|Hne]; [rewrite put_here; split; [discriminate|contradiction]|]. rewrite put_there by exact Hne. reflexivity.
        + intros l'. destruct (cell_dec l' l) as [->|Hne]; [left; eauto|]. destruct (Hx l') as [H|H]; [left; exact H|]. rewrite put_there in H by exact Hne. right. exact H.
      - auto.
    Qed.
  End Rights.

  (** ** All turns at the same time. *)
  Section Together.
    Variables (rd : nat -> L -> Prop) (wr : nat -> L -> V -> Prop) (turns : list (@prog L V unit)) (start final : store).
    Definition reaches (t : nat) (_ : unit) (x : store) : Prop := forall l v, wr t l v -> x l = final l.
    Hypothesis alone : forall t p, nth_error turns t = Some p -> exists n, wp (rd t) (wr t) p n start (reaches t).
    Hypothesis apart : forall t u l v, t <> u -> wr t l v -> ~ rd u l.
    Hypothesis shared : forall t u l v v', t <> u -> wr t l v -> wr u l v' -> final l = Some v.
    Hypothesis rest : forall l, (exists t v, (t < length turns)%nat /\ wr t l v) \/ final l = start l.

    Definition sum (ns : list nat) : nat := fold_right Nat.add O ns.
    Lemma sum_upd ns : forall t m ns', nth_error ns t = Some (S m) -> upd ns t m = Some ns' -> sum ns = S (sum ns').
    Proof.
      induction ns as [|n r IH]; intros [|t] m ns' H E; cbn in *; try discriminate.
      - injection H as ->. injection E as <-. cbn. lia.
      - destruct (upd r t m) as [r'|] eqn:Er; [|discriminate]. injection E as <-. cbn. pose proof (IH _ _ _ H Er) as HI. unfold sum in HI. lia.
    Qed.
    Definition inv (N n : nat) (ps : list (@prog L V unit)) (s : store) : Prop := exists ns,
      length ns = length turns /\ length ps = length turns /\ (n + sum ns = N)%nat /\
      (forall t p, nth_error ps t = Some p -> exists m, nth_error ns t = Some m /\ wp (rd t) (wr t) p m s (reaches t)) /\
      (forall l, s l = None <-> start l = None) /\
      (forall l, (exists t v, (t < length turns)%nat /\ wr t l v) \/ s l = start l).

    Lemma inv_start : exists N, inv N 0 turns start.
    Proof.
      assert (H : forall ps k, (forall t p, nth_error ps t = Some p -> exists n, wp (rd (k + t)) (wr (k + t)) p n start (reaches (k + t))) ->
        exists ns, length ns = length ps /\ forall t p, nth_error ps t = Some p -> exists m, nth_error ns t = Some m /\ wp (rd (k + t)) (wr (k + t)) p m start (reaches (k + t))).
      { induction ps as [|q ps IH]; intros k Hk; [exists []; split; [reflexivity|]; intros [|t] p E; discriminate|].
        destruct (Hk O q eq_refl) as [n Hn]. destruct (IH (S k)) as (ns & HL & Hns).
        - intros t p E. destruct (Hk (S t) p E) as [m Hm]. exists m. replace (S k + t)%nat with (k + S t)%nat by lia. exact Hm.
        - exists (n :: ns). split; [cbn; lia|]. intros [|t] p E; cbn in E.
          + injection E as <-. exists n. split; [reflexivity|exact Hn].
          + destruct (Hns t p E) as (m & Em & Hm). exists m. split; [exact Em|]. replace (k + S t)%nat with (S k + t)%nat by lia. exact Hm. }
      destruct (H turns O) as (ns & HL & Hns); [exact alone|]. exists (sum ns), ns. split; [exact HL|]. split; [reflexivity|]. split; [reflexivity|]. split; [exact Hns|]. split; [reflexivity|]. auto.
    Qed.
    Lemma inv_step N n ps s ps' s' : inv N n ps s -> step same (ps, s) (ps', s') -> inv N (S n) ps' s'.
    Proof.
      intros (ns & HL & HLp & HN & Hw & Hdom & Hrest) HS. inversion HS as [t ps0 p s0 p' s0' ps0' Hp Hst Hu E1 E2]. subst ps0 s0 ps0' s0'.
      destruct (Hw t p Hp) as (m & Em & HW).
      assert (Hlt : (t < length turns)%nat) by (rewrite <- HLp; eapply nth_error_lt; eauto).
      assert (Hup : forall q, nth_error ps' t = Some q -> q = p') by (intros q Hq; rewrite (upd_same _ _ _ _ Hu) in Hq; congruence).
      assert (Hot : forall u, u <> t -> nth_error ps' u = nth_error ps u) by (intros u Hne; eapply upd_other; eauto).
      assert (HLp' : length ps' = length turns) by (rewrite (upd_length _ _ _ _ Hu); exact HLp).
      destruct p as [a|l k|l v k|]; cbn in Hst; try discriminate.
      - destruct (s l) as [v|] eqn:El; [|discriminate]. injection Hst as <- <-. cbn in HW. destruct HW as (m' & v' & -> & Hr & Hv & HW). assert (v' = v) by congruence. subst v'.
        destruct (upd_some ns t m') as [ns' Ens]; [rewrite HL; exact Hlt|]. exists ns'. split; [rewrite (upd_length _ _ _ _ Ens); exact HL|]. split; [exact HLp'|]. split; [pose proof (sum_upd _ _ _ _ Em Ens); lia|]. split; [|split; assumption].
        intros u q Hq. destruct (Nat.eq_dec u t) as [->|Hne].
        + rewrite (Hup _ Hq). exists m'. split; [eapply upd_same; eauto|exact HW].
        + rewrite Hot in Hq by exact Hne. rewrite (upd_other _ _ _ _ _ Ens Hne). apply Hw. exact Hq.
      - destruct (s l) as [v0|] eqn:El; [|discriminate]. injection Hst as <- <-. cbn in HW. destruct HW as (m' & -> & Hr & Hv & HW).
        destruct (upd_some ns t m') as [ns' Ens]; [rewrite HL; exact Hlt|]. exists ns'. split; [rewrite (upd_length _ _ _ _ Ens); exact HL|]. split; [exact HLp'|]. split; [pose proof (sum_upd _ _ _ _ Em Ens); lia|].
        assert (Hd : forall l', s l' = None <-> put same s l v l' = None). { intros l'. destruct (cell_dec l' l) as [->|Hne]; [rewrite put_here, El; split; discriminate|]. rewrite put_there by exact Hne. reflexivity. }
        split; [|split].
        + intros u q Hq. destruct (Nat.eq_dec u t) as [->|Hne].
          * rewrite (Hup _ Hq). exists m'. split; [eapply upd_same; eauto|exact HW].
          * rewrite Hot in Hq by exact Hne. rewrite (upd_other _ _ _ _ _ Ens Hne). destruct (Hw u q Hq) as (mu & Emu & HWu). exists mu. split; [exact Emu|].
            eapply wp_mono; [|apply (wp_agree _ _ q mu s (put same s l v) (reaches u))].
            -- intros a x' (x & HP & Hx) l' v' Hl'. destruct (Hx l') as [E|[E1' E2']]; [rewrite <- E; eapply HP; eauto|].
               rewrite E2'. destruct (cell_dec l' l) as [->|Hnl]; [rewrite put_here; symmetry; exact (shared t u l v v' (not_eq_sym Hne) Hr Hl')|].
               rewrite put_there by exact Hnl. rewrite <- E1'. eapply HP; eauto.
            -- intros l' Hl'. rewrite put_there; [reflexivity|]. intros ->. exact (apart t u l v (not_eq_sym Hne) Hr Hl').
            -- exact Hd.
            -- exact HWu.
        + intros l'. rewrite <- Hd. apply Hdom.
        + intros l'. destruct (cell_dec l' l) as [->|Hnl]; [left; eauto|]. rewrite put_there by exact Hnl. apply Hrest.
    Qed.
    Lemma inv_steps N n ps s : inv N 0 turns start -> steps same n (turns, start) (ps, s) -> inv N n ps s.
    Proof.
      intros HI HS. remember (turns, start) as a eqn:Ea. remember (ps, s) as b eqn:Eb. revert ps s Eb. induction HS as [c|n a b c HS IH Hst]; intros ps s Eb.
      - subst c. injection Eb as -> ->. exact HI.
      - subst c. destruct b as [ps1 s1]. eapply inv_step; [apply IH; [exact Ea|reflexivity]|exact Hst].
    Qed.
    Lemma about_wp t p n s Post l a : wp (rd t) (wr t) p n s Post -> about p l a -> match a with None => rd t l | Some v => wr t l v end.
    Proof. intros HW HA. destruct HA; cbn in HW; [destruct HW as (m & v & _ & H & _); exact H|destruct HW as (m & _ & H & _); exact H]. Qed.

    Lemma together : safe_loop same clash turns start final.
    Proof.
      destruct inv_start as [N HN]. exists N. intros n ps s HS. destruct (inv_steps N n ps s HN HS) as (ns & HL & HLp & Hsum & Hw & Hdom & Hrest). split; [lia|]. split; [|split].
      - intros i p Hp. destruct (Hw i p Hp) as (m & Em & HW). destruct p as [[]|l k|l v k|]; cbn in HW |- *.
        + left. reflexivity.
        + right. destruct HW as (m' & v & _ & _ & Hv & _). rewrite Hv. eauto.
        + right. destruct HW as (m' & _ & _ & Hv & _). destruct (s l); [eauto|contradiction].
        + destruct HW.
      - intros (l & a & b & (i & j & p & q & Hij & Hp & Hq & Ha & Hb) & Hab).
        destruct (Hw i p Hp) as (m & _ & HWp). destruct (Hw j q Hq) as (m' & _ & HWq). pose proof (about_wp _ _ _ _ _ _ _ HWp Ha) as Ra. pose proof (about_wp _ _ _ _ _ _ _ HWq Hb) as Rb.
        destruct a as [v|], b as [v'|]; try contradiction.
        + pose proof (shared i j l v v' Hij Ra Rb). pose proof (shared j i l v' v (not_eq_sym Hij) Rb Ra). congruence.
        + exact (apart i j l v Hij Ra Rb).
        + exact (apart j i l v' (not_eq_sym Hij) Rb Ra).
      - intros HF l. destruct (Hrest l) as [(t & v & Ht & Hl)|E].
        + destruct (nth_error_in_range ps t) as [p Hp]; [rewrite HLp; exact Ht|]. destruct (Hw t p Hp) as (m & _ & HW). rewrite Forall_forall in HF. rewrite (HF p) in HW by (eapply nth_error_In; eauto). destruct HW as [_ HW]. eapply HW; eauto.
        + destruct (rest l) as [(t & v & Ht & Hl)|E']; [|congruence].
          destruct (nth_error_in_range ps t) as [p Hp]; [rewrite HLp; exact Ht|]. destruct (Hw t p Hp) as (m & _ & HW). rewrite Forall_forall in HF. rewrite (HF p) in HW by (eapply nth_error_In; eauto). destruct HW as [_ HW]. eapply HW; eauto.
    Qed.
    Hypothesis exclusive : forall t u l v v', t <> u -> wr t l v -> ~ wr u l v'.
    Lemma together_free : safe_loop same race turns start final.
    Proof.
      destruct inv_start as [N HN]. destruct together as [N' HT]. exists N. intros n ps s HS. destruct (HT n ps s HS) as (_ & H1 & _ & H3). destruct (inv_steps N n ps s HN HS) as (ns & HL & HLp & Hsum & Hw & _ & _). split; [lia|]. split; [exact H1|]. split; [|exact H3].
      intros (l & a & b & (i & j & p & q & Hij & Hp & Hq & Ha & Hb) & Hab).
      destruct (Hw i p Hp) as (m & _ & HWp). destruct (Hw j q Hq) as (m' & _ & HWq). pose proof (about_wp _ _ _ _ _ _ _ HWp Ha) as Ra. pose proof (about_wp _ _ _ _ _ _ _ HWq Hb) as Rb.
      destruct a as [v|], b as [v'|].
      - exact (exclusive i j l v v' Hij Ra Rb).
      - exact (apart i j l v Hij Ra Rb).
      - exact (apart j i l v' (not_eq_sym Hij) Rb Ra).
      - destruct Hab; contradiction.
    Qed.
  End Together.
End Wp.
