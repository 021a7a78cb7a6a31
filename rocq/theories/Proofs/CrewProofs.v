(** Loops in which each turn works on cells of its own, and loops whose turns draw numbers from a counter. *)
From Coq Require Import List ZArith Bool Lia Sorting.Permutation.
From Verif.Model Require Import ListMem Threads UpdateThreads.
From Verif.Spec Require Import Races Counters.
From Verif.Proofs Require Import ListMemProofs ListExtra ThreadProofs.
Import ListNotations.

Section Chain.
  Context {L V : Type}.
  Variable same : L -> L -> bool.
  Hypothesis same_ok : forall a b, same a b = true <-> a = b.
  Local Notation store := (L -> option V).
  Variables (turns : list (@prog L V unit)) (reg : nat -> L -> Prop).
  Hypothesis apart : forall t u l, t <> u -> reg t l -> ~ reg u l.
  Local Notation own t := (@wp L V same (reg t) (fun l _ => reg t l) unit).
  (** the turns one after the other *)
  Inductive chain : list nat -> store -> store -> Prop :=
  | chain_end s s' : (forall l, s l = s' l) -> chain [] s s'
  | chain_next t o s s1 s2 p n : nth_error turns t = Some p -> own t p n s (fun _ x => forall l, x l = s1 l) -> chain o s1 s2 -> chain (t :: o) s s2.
  Lemma wp_ends {A} rd wr (p : @prog L V A) : forall n s Post, wp same rd wr p n s Post -> exists a x, Post a x.
  Proof.
    induction p as [a|l k IH|l v k IH|]; cbn; intros n s Post H; [destruct H as [_ H]; eauto|destruct H as (m & v & _ & _ & _ & H); eapply IH; eauto|destruct H as (m & _ & _ & _ & H); eapply IH; eauto|destruct H].
  Qed.
  Lemma own_keeps t p n s s1 : own t p n s (fun _ x => forall l, x l = s1 l) -> (forall l, s1 l = None <-> s l = None) /\ forall l, reg t l \/ s1 l = s l.
  Proof using same_ok.
    intros H. apply (wp_keeps same same_ok) in H. apply wp_ends in H as (a & x & Hx & Hd & Hk). split; intros l; rewrite <- Hx; [apply Hd|]. destruct (Hk l) as [[_ H]|H]; auto.
  Qed.
  Lemma chain_keeps o s s2 : chain o s s2 -> (forall l, s2 l = None <-> s l = None) /\ forall l, (exists t, In t o /\ reg t l) \/ s2 l = s l.
  Proof using same_ok.
    intros H. induction H as [s s' H|t o s s1 s2 p n Hp HW HC [IH1 IH2]]; [split; intros l; rewrite <- H; [reflexivity|auto]|]. destruct (own_keeps _ _ _ _ _ HW) as [K1 K2]. split; intros l; [rewrite IH1; apply K1|].
    destruct (IH2 l) as [(u & Hu & Hr)|E]; [left; exists u; split; [right|]; assumption|]. destruct (K2 l) as [Hr|E']; [left; exists t; split; [left; reflexivity|assumption]|right; congruence].
  Qed.
  Lemma chain_turn o s s2 t : chain o s s2 -> NoDup o -> In t o ->
    exists p n s0 s1, nth_error turns t = Some p /\ own t p n s0 (fun _ x => forall l, x l = s1 l) /\ (forall l, reg t l -> s0 l = s l) /\ (forall l, s0 l = None <-> s l = None) /\ (forall l, reg t l -> s2 l = s1 l).
  Proof using same_ok apart.
    intros H. induction H as [s s' H|u o s s1 s2 p n Hp HW HC IH]; intros HN Ht; [destruct Ht|]. inversion HN as [|? ? Hu HN']; subst. destruct Ht as [->|Ht].
    - exists p, n, s, s1. split; [exact Hp|]. split; [exact HW|]. split; [reflexivity|]. split; [reflexivity|]. intros l Hl. destruct (chain_keeps _ _ _ HC) as [_ K]. destruct (K l) as [(w & Hw & Hr)|E]; [|exact E].
      destruct (apart t w l); [intros ->; contradiction|exact Hl|exact Hr].
    - destruct (IH HN' Ht) as (q & m & a & b & H1 & H2 & H3 & H4 & H5). exists q, m, a, b. destruct (own_keeps _ _ _ _ _ HW) as [K1 K2]. split; [exact H1|]. split; [exact H2|]. split; [|split; [|exact H5]].
      + intros l Hl. rewrite H3 by exact Hl. destruct (K2 l) as [Hr|E]; [|exact E]. destruct (apart t u l); [intros ->; contradiction|exact Hl|exact Hr].
      + intros l. rewrite H4. apply K1.
  Qed.
  Lemma chain_safe order start final : Permutation order (seq 0 (length turns)) -> chain order start final -> safe_loop same race turns start final.
  Proof using same_ok apart.
    intros HP HC. assert (HN : NoDup order) by (eapply Permutation_NoDup; [symmetry; exact HP|apply seq_NoDup]).
    apply (together_free same same_ok reg (fun t l (_ : V) => reg t l)).
    - intros t p Hp. destruct (chain_turn order start final t HC HN) as (q & n & s0 & s1 & H1 & H2 & H3 & H4 & H5).
      { apply (Permutation_in _ (Permutation_sym HP)). apply in_seq. apply nth_error_lt in Hp. lia. }
      assert (q = p) by congruence. subst q. exists n. eapply wp_mono; [|eapply (wp_agree same same_ok); [exact H3|exact H4|exact H2]]. cbn beta. intros a x' (x & Hx & Hd) l v Hl. cbn beta in Hl. rewrite (H5 l Hl).
      destruct (Hd l) as [E|[E1 E2]]; [rewrite <- E; apply Hx|]. rewrite E2, <- (H3 l Hl), <- E1. apply Hx.
    - intros t u l v Hne H1. exact (apart t u l Hne H1).
    - intros t u l v v' Hne H1 H2. destruct (apart t u l Hne H1 H2).
    - intros l. destruct (chain_keeps _ _ _ HC) as [_ K]. destruct (K l) as [(t & Ht & Hr)|E]; [|right; exact E]. destruct (chain_turn order start final t HC HN Ht) as (p & n & s0 & s1 & H1 & H2 & H3 & H4 & H5).
      assert (t < length turns) by (eapply nth_error_lt; eauto). destruct (final l) as [v|] eqn:Ef; [left; exists t, v; auto|right]. symmetry. apply (proj1 (chain_keeps _ _ _ HC)). exact Ef.
    - intros t u l v v' Hne H1 H2. exact (apart t u l Hne H1 H2).
  Qed.
End Chain.

(** ** Counters *)
Section Crew.
  Context {L V : Type}.
  Variable same : L -> L -> bool.
  Local Notation turn := (@turn L V).
  Local Notation prog := (@prog L V unit).
  (** the turns once the numbers are known *)
  Definition fixed (num : nat -> nat) (i : nat) (t : turn) : prog := match t with Plain p => p | Take k => k (num i) end.
  Definition fix_all (num : nat -> nat) (ts : list turn) : list prog := map (fun it => fixed num (fst it) (snd it)) (combine (seq 0 (length ts)) ts).
  Lemma combine_seq_nth {A} (l : list A) : forall b i, nth_error (combine (seq b (length l)) l) i = option_map (pair (b + i)) (nth_error l i).
  Proof. induction l as [|x l IH]; intros b [|i]; cbn; try reflexivity; [rewrite Nat.add_0_r; reflexivity|]. rewrite IH. replace (S b + i) with (b + S i) by lia. reflexivity. Qed.
  Lemma fix_nth num ts i : nth_error (fix_all num ts) i = option_map (fixed num i) (nth_error ts i).
  Proof. unfold fix_all. rewrite nth_error_map, combine_seq_nth. destruct (nth_error ts i); reflexivity. Qed.
  Lemma fix_length num ts : length (fix_all num ts) = length ts.
  Proof. unfold fix_all. rewrite map_length, combine_length, seq_length, Nat.min_id. reflexivity. Qed.
  Lemma nth_ext {A} (a b : list A) : length a = length b -> (forall i, nth_error a i = nth_error b i) -> a = b.
  Proof. revert b. induction a as [|x a IH]; intros [|y b] HL H; cbn in HL; try lia; [reflexivity|]. f_equal; [specialize (H 0); cbn in H; congruence|]. apply IH; [lia|]. intros i. exact (H (S i)). Qed.

  Variables (turns : list turn) (first : nat) (start : L -> option V).
  Definition taker (i : nat) : bool := match nth_error turns i with Some (Take _) => true | _ => false end.
  Definition numbers (num : nat -> nat) (drawn : list nat) : Prop := forall j i, nth_error drawn j = Some i -> num i = first + j.
  Definition follows (n : nat) (drawn : list nat) (ts : list turn) (c : nat) (s : L -> option V) : Prop :=
    length ts = length turns /\ c = first + length drawn /\ NoDup drawn /\ (forall i, In i drawn -> taker i = true) /\
    (forall i k, nth_error ts i = Some (Take k) <-> nth_error turns i = Some (Take k) /\ ~ In i drawn) /\
    (forall num, numbers num drawn -> exists m, steps same m (fix_all num turns, start) (fix_all num ts, s)).
  Lemma crew_follows n ts c s : works same n (turns, first, start) (ts, c, s) -> exists drawn, follows n drawn ts c s.
  Proof.
    intros HW. remember (turns, first, start) as a eqn:Ea. remember (ts, c, s) as b eqn:Eb. revert ts c s Eb. induction HW as [x|n x y z HW IH Hst]; intros ts c s Eb.
    - subst x. injection Eb as <- <- <-. exists []. split; [reflexivity|]. split; [cbn; lia|]. split; [constructor|]. split; [intros i []|]. split; [intros i k; cbn; tauto|]. intros num _. exists 0. constructor.
    - subst z. destruct y as [[ts1 c1] s1]. destruct (IH Ea _ _ _ eq_refl) as (drawn & HL & Hc & HN & Ht & Hk & Hs). inversion Hst as [i ts0 p c0 s0 p' s0' ts0' Hp Hp' Hu|i ts0 k c0 s0 ts0' Hp Hu]; subst.
      + exists drawn. split; [rewrite (upd_length _ _ _ _ Hu); exact HL|]. split; [reflexivity|]. split; [exact HN|]. split; [exact Ht|]. split.
        * intros j k. rewrite <- Hk. destruct (Nat.eq_dec j i) as [->|Hne]; [rewrite (upd_same _ _ _ _ Hu), Hp; split; discriminate|rewrite (upd_other _ _ _ _ _ Hu Hne); reflexivity].
        * intros num Hnum. destruct (Hs num Hnum) as [m Hm]. exists (S m). econstructor; [exact Hm|]. econstructor; [rewrite fix_nth, Hp; reflexivity|exact Hp'|].
          destruct (upd_some (fix_all num ts1) i p') as [q Hq]; [rewrite fix_length; eapply nth_error_lt; eauto|]. rewrite Hq. f_equal. apply nth_ext; [rewrite (upd_length _ _ _ _ Hq), !fix_length, (upd_length _ _ _ _ Hu); reflexivity|].
          intros j. rewrite fix_nth. destruct (Nat.eq_dec j i) as [->|Hne]; [rewrite (upd_same _ _ _ _ Hq), (upd_same _ _ _ _ Hu); reflexivity|rewrite (upd_other _ _ _ _ _ Hq Hne), (upd_other _ _ _ _ _ Hu Hne), fix_nth; reflexivity].
      + destruct (proj1 (Hk i k) Hp) as [Hti Hnd]. exists (drawn ++ [i]). split; [rewrite (upd_length _ _ _ _ Hu); exact HL|]. split; [rewrite app_length; cbn; lia|]. split; [apply NoDup_app_intro; [exact HN|constructor; [intros []|constructor]|intros x Hx [->|[]]; contradiction]|].
        split; [intros j Hj; apply in_app_or in Hj as [Hj|[<-|[]]]; [apply Ht; exact Hj|unfold taker; rewrite Hti; reflexivity]|]. split.
        * intros j q. rewrite in_app_iff. cbn. destruct (Nat.eq_dec j i) as [->|Hne]; [rewrite (upd_same _ _ _ _ Hu); split; [discriminate|intros [_ H]; tauto]|]. rewrite (upd_other _ _ _ _ _ Hu Hne), Hk. intuition congruence.
        * intros num Hnum. destruct (Hs num) as [m Hm]. { intros j q Hj. apply Hnum. rewrite nth_error_app1 by (eapply nth_error_lt; eauto). exact Hj. }
          exists m. replace (fix_all num ts) with (fix_all num ts1); [exact Hm|]. apply nth_ext; [rewrite !fix_length, (upd_length _ _ _ _ Hu); reflexivity|]. intros j. rewrite !fix_nth. destruct (Nat.eq_dec j i) as [->|Hne]; [|rewrite (upd_other _ _ _ _ _ Hu Hne); reflexivity].
          rewrite (upd_same _ _ _ _ Hu), Hp. cbn. rewrite (Hnum (length drawn) i) by (rewrite nth_error_app2, Nat.sub_diag by lia; reflexivity). reflexivity.
  Qed.

  (** programs that end after at most so many steps, whatever they read *)
  Fixpoint short (d : nat) (p : prog) : Prop :=
    match p with
    | Get _ k => match d with O => False | S d => forall v, short d (k v) end
    | Put _ _ k => match d with O => False | S d => short d k end
    | _ => True
    end.
  Definition brief (d : nat) (t : turn) : Prop := match t with Plain p => short d p | Take k => match d with O => False | S d => forall c, short d (k c) end end.
  Lemma works_bounded n ts c s ds : Forall2 brief ds turns -> works same n (turns, first, start) (ts, c, s) -> exists ds', Forall2 brief ds' ts /\ n + sum ds' <= sum ds.
  Proof.
    intros HF HW. remember (turns, first, start) as a eqn:Ea. remember (ts, c, s) as b eqn:Eb. revert ts c s Eb. induction HW as [x|n x y z HW IH Hst]; intros ts c s Eb.
    - subst x. injection Eb as <- <- <-. exists ds. split; [exact HF|lia].
    - subst z. destruct y as [[ts1 c1] s1]. destruct (IH Ea _ _ _ eq_refl) as (ds1 & HF1 & Hsum).
      assert (G : forall i t t', nth_error ts1 i = Some t -> upd ts1 i t' = Some ts -> (forall d, brief d t -> exists e, d = S e /\ brief e t') -> exists ds', Forall2 brief ds' ts /\ S n + sum ds' <= sum ds).
      { intros i t t' Hi Hu Hd. assert (exists ds', Forall2 brief ds' ts /\ sum ds1 = S (sum ds')) as (ds' & A & B); [|exists ds'; split; [exact A|lia]]. clear - HF1 Hi Hu Hd. revert i ts Hi Hu. induction HF1 as [|d t0 ds1 ts1 Hb HF IH]; intros [|i] ts Hi Hu; cbn in Hi; try discriminate.
        - injection Hi as ->. cbn in Hu. injection Hu as <-. destruct (Hd d Hb) as (e & -> & He). exists (e :: ds1). split; [constructor; assumption|reflexivity].
        - cbn in Hu. destruct (upd ts1 i t') as [r|] eqn:Er; [|discriminate]. injection Hu as <-. destruct (IH i r Hi Er) as (ds' & A & B). exists (d :: ds'). split; [constructor; assumption|]. cbn. unfold sum in B. lia. }
      inversion Hst as [i ts0 p c0 s0 p' s0' ts0' Hp Hp' Hu|i ts0 k c0 s0 ts0' Hp Hu]; subst.
      + apply (G i _ _ Hp Hu). intros d Hb. destruct p as [a|l k|l v k|]; cbn in Hp'; try discriminate; cbn in Hb; (destruct (s1 l) as [w|]; [|discriminate]); injection Hp' as <- <-; (destruct d as [|d]; [destruct Hb|]); exists d; (split; [reflexivity|]); cbn; [apply Hb|exact Hb].
      + apply (G i _ _ Hp Hu). intros d Hb. cbn in Hb. destruct d as [|d]; [destruct Hb|]. exists d. split; [reflexivity|]. apply Hb.
  Qed.

  Fixpoint place_of (i : nat) (l : list nat) : nat := match l with [] => 0 | x :: r => if x =? i then 0 else S (place_of i r) end.
  Definition number (o : list nat) (i : nat) : nat := first + place_of i o.
  Lemma place_nth l : NoDup l -> forall j i, nth_error l j = Some i -> place_of i l = j.
  Proof.
    induction 1 as [|x l Hx HN IH]; intros [|j] i Hj; cbn in *; try discriminate; [injection Hj as ->; rewrite Nat.eqb_refl; reflexivity|]. destruct (Nat.eqb_spec x i) as [->|Hne]; [destruct Hx; eapply nth_error_In; eauto|]. f_equal. apply IH. exact Hj.
  Qed.
  Lemma number_ok drawn rest : NoDup (drawn ++ rest) -> numbers (number (drawn ++ rest)) drawn.
  Proof. intros HN j i Hj. unfold number. f_equal. apply place_nth; [exact HN|]. rewrite nth_error_app1 by (eapply nth_error_lt; eauto). exact Hj. Qed.

  Definition takers : list nat := filter taker (seq 0 (length turns)).
  Variable final : list nat -> L -> option V.
  Hypothesis ends : exists ds, Forall2 brief ds turns.
  Hypothesis numbered : forall o, Permutation o takers -> safe_loop same race (fix_all (number o) turns) start (final o).
  Lemma crew_safe : safe_crew same turns first start (fun c s => c = first + length takers /\ exists o, Permutation o takers /\ forall l, s l = final o l).
  Proof using ends numbered.
    destruct ends as [ds Hds]. exists (sum ds). intros n ts c s HW. split; [destruct (works_bounded _ _ _ _ _ Hds HW) as (ds' & _ & Hsum); lia|]. destruct (crew_follows _ _ _ _ HW) as (drawn & HL & Hc & HN & Ht & Hk & Hs).
    set (rest := filter (fun i => negb (existsb (Nat.eqb i) drawn)) takers).
    assert (Hrest : forall i, In i rest <-> In i takers /\ ~ In i drawn).
    { intros i. unfold rest. rewrite filter_In, negb_true_iff. split; intros [A B]; (split; [exact A|]).
      - intros Hi. assert (existsb (Nat.eqb i) drawn = true); [|congruence]. apply existsb_exists. exists i. split; [exact Hi|apply Nat.eqb_refl].
      - destruct (existsb (Nat.eqb i) drawn) eqn:E; [|reflexivity]. apply existsb_exists in E as (j & Hj & E). apply Nat.eqb_eq in E. subst. contradiction. }
    assert (Hdt : forall i, In i drawn -> In i takers).
    { intros i Hi. apply filter_In. split; [|apply Ht; exact Hi]. apply in_seq. apply Ht in Hi. unfold taker in Hi. destruct (nth_error turns i) eqn:E; [|discriminate]. apply nth_error_lt in E. lia. }
    assert (HNt : NoDup takers) by (apply NoDup_filter, seq_NoDup).
    assert (HNo : NoDup (drawn ++ rest)). { apply NoDup_app_intro; [exact HN|apply NoDup_filter; exact HNt|]. intros i Hi Hi'. apply Hrest in Hi' as [_ Hi']. contradiction. }
    assert (HP : Permutation (drawn ++ rest) takers).
    { apply NoDup_Permutation; [exact HNo|exact HNt|]. intros i. rewrite in_app_iff, Hrest. split; [intros [Hi|[Hi _]]; auto|]. intros Hi. destruct (in_dec Nat.eq_dec i drawn); auto. }
    destruct (numbered _ HP) as [N HS]. destruct (Hs _ (number_ok _ _ HNo)) as [m Hm]. destruct (HS _ _ _ Hm) as (_ & H1 & H2 & H3). split; [|split].
    - intros i [p|k] Hi; [|right; left; eauto]. destruct (H1 i p) as [H|(p' & s' & H)]; [rewrite fix_nth, Hi; reflexivity|left; unfold over in H; congruence|right; right; eauto].
    - intros (l & a & b & (i & j & p & q & Hij & Hp & Hq & Ha & Hb) & Hab). apply H2. exists l, a, b. split; [|exact Hab].
      assert (G : forall i p (a : option V), nth_error (map outside ts) i = Some p -> about p l a -> nth_error (fix_all (number (drawn ++ rest)) ts) i = Some p).
      { intros i' p' a' Hi Hab'. rewrite nth_error_map in Hi. rewrite fix_nth. destruct (nth_error ts i') as [[p0|k]|]; cbn in Hi |- *; [exact Hi| |discriminate]. injection Hi as <-. inversion Hab'. }
      exists i, j, p, q. split; [exact Hij|]. split; [eapply G; eauto|]. split; [eapply G; eauto|]. auto.
    - intros HF. assert (Hall : rest = []).
      { destruct rest as [|i r] eqn:Er; [reflexivity|]. exfalso. destruct (proj1 (Hrest i) (or_introl eq_refl)) as [Hi Hni]. apply filter_In in Hi as [_ Hi]. unfold taker in Hi. destruct (nth_error turns i) as [[|k]|] eqn:E; try discriminate.
        pose proof (proj2 (Hk i k) (conj E Hni)) as Hts. rewrite Forall_forall in HF. apply nth_error_In in Hts. apply HF in Hts. discriminate. }
      split; [rewrite <- (Permutation_length HP), Hall, app_nil_r; exact Hc|]. exists (drawn ++ rest). split; [exact HP|]. apply H3. apply Forall_forall. intros p Hp. apply In_nth_error in Hp as [i Hi]. rewrite fix_nth in Hi. destruct (nth_error ts i) as [t|] eqn:E; [|discriminate].
      rewrite Forall_forall in HF. apply nth_error_In in E. apply HF in E. subst t. injection Hi as <-. reflexivity.
  Qed.
End Crew.
