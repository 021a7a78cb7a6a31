(** What the parallel loops leave does not depend on the order in which their turns come. *)
From Coq Require Import List ZArith QArith Bool Lia Sorting.Permutation.
From Verif.Model Require Import ListMem Mpi Run Subhalo Nest Unbind Merge Threads.
From Verif.Spec Require Import Members Forest Nesting Masking Sinking Races.
From Verif.Proofs Require Import ListMemProofs MpiProofs ListExtra MemberProofs LocalizeProofs NestProofs WalkProofs ThreadProofs DetectProofs.
Import ListNotations.
Local Open Scope nat_scope.

Section Machine.
  Context {L V : Type}.
  Variable same : L -> L -> bool.
  Local Notation code := (@prog L V unit).
  Lemma over_or (ps : list code) : Forall over ps \/ exists i p, nth_error ps i = Some p /\ ~ over p.
  Proof.
    induction ps as [|p ps [IH|(i & q & Hi & Hq)]]; [left; constructor| |right; exists (S i), q; auto].
    assert (over p \/ ~ over p) as [Hp|Hp]; [|left; constructor; assumption|right; exists 0, p; auto].
    destruct p as [[]| | |]; [left; reflexivity|right; discriminate..].
  Qed.
  Lemma safe_ends bad (turns : list code) start final : safe_loop same bad turns start final -> exists n (ps : list code) s, steps same n (turns, start) (ps, s) /\ Forall over ps.
  Proof.
    intros [N HN]. assert (Hgo : forall k n (ps : list code) s, N - n < k -> steps same n (turns, start) (ps, s) -> exists n' (ps' : list code) s', steps same n' (turns, start) (ps', s') /\ Forall over ps').
    { induction k as [|k IH]; intros n ps s Hk Hs; [lia|]. destruct (HN n ps s Hs) as (Hn & Hpr & _). destruct (over_or ps) as [Ho|(i & p & Hi & Hp)]; [eauto|].
      destruct (Hpr i p Hi) as [Ho|(p' & s' & Est)]; [contradiction|]. destruct (upd_some ps i p') as [ps' Eu]; [eapply nth_error_lt; eauto|].
      assert (Hs' : steps same (S n) (turns, start) (ps', s')) by (econstructor; [exact Hs|econstructor; eauto]). destruct (HN _ _ _ Hs') as (Hn' & _). apply (IH (S n) ps' s'); [lia|exact Hs']. }
    apply (Hgo (S (N - 0)) 0 turns start); [lia|constructor].
  Qed.
  (** A safe loop ends in one way. *)
  Lemma safe_same bad bad' (turns : list code) start f f' : safe_loop same bad turns start f -> safe_loop same bad' turns start f' -> forall l, f l = f' l.
  Proof.
    intros H1 H2 l. destruct (safe_ends _ _ _ _ H1) as (n & ps & s & Hs & Ho). destruct H1 as [N1 H1], H2 as [N2 H2].
    destruct (H1 _ _ _ Hs) as (_ & _ & _ & E1). destruct (H2 _ _ _ Hs) as (_ & _ & _ & E2). rewrite <- (E1 Ho), <- (E2 Ho). reflexivity.
  Qed.
End Machine.
Lemma zget_same {A} (a b : list A) : (forall i, zget a i = zget b i) -> a = b.
Proof. intros H. apply nth_error_ext. intros i. rewrite <- !zget_of_nat. apply H. Qed.
Lemma loop_same {A} bad bad' turns (start a b : list A) : safe_loop Z.eqb bad turns (zget start) (zget a) -> safe_loop Z.eqb bad' turns (zget start) (zget b) -> a = b.
Proof. intros H1 H2. apply zget_same. eapply safe_same; eassumption. Qed.

(** ** Loops whose turns change their own entry only *)
Section Own.
  Context {A : Type}.
  Variable h : nat -> A -> run A.
  Definition own_turn (i : nat) (l : list A) : run (list A) := match nth_error l i with Some s => rbind (h i s) (fun s' => of_opt (upd l i s')) | None => Crash end.
  Lemma own_result order : forall start out, NoDup order -> run_each order own_turn start = Done out ->
    length out = length start /\ forall i s, nth_error start i = Some s -> if in_dec Nat.eq_dec i order then exists u, h i s = Done u /\ nth_error out i = Some u else nth_error out i = Some s.
  Proof.
    induction order as [|k r IH]; intros start out Hn E; cbn [run_each] in E.
    - injection E as <-. split; [reflexivity|]. intros i s Hs. destruct (in_dec Nat.eq_dec i []) as [[]|_]. exact Hs.
    - inversion Hn as [|? ? Hk Hr]; subst. apply rbind_ends in E as (mid & E1 & E2). unfold own_turn in E1. destruct (nth_error start k) as [s0|] eqn:Ek; [|discriminate]. apply rbind_ends in E1 as (u0 & Eh & E1). apply of_opt_ends in E1.
      destruct (IH mid out Hr E2) as [HL HI]. split; [rewrite HL; eapply upd_length; eauto|]. intros i s Hs. destruct (Nat.eq_dec i k) as [->|Hne].
      + assert (s0 = s) by congruence. subst s0. specialize (HI k u0). rewrite (upd_same _ _ _ _ E1) in HI. specialize (HI eq_refl). destruct (in_dec Nat.eq_dec k r) as [Hc|_]; [contradiction|].
        destruct (in_dec Nat.eq_dec k (k :: r)) as [_|Hc]; [exists u0; auto|destruct Hc; left; reflexivity].
      + specialize (HI i s). rewrite (upd_other _ _ _ _ _ E1 Hne) in HI. specialize (HI Hs). destruct (in_dec Nat.eq_dec i r) as [Hi|Hi]; destruct (in_dec Nat.eq_dec i (k :: r)) as [Hc|Hc]; try exact HI; exfalso; [apply Hc; right; exact Hi|destruct Hc as [->|Hc]; auto].
  Qed.
  Lemma own_same o1 o2 start a b : NoDup o1 -> Permutation o1 o2 -> run_each o1 own_turn start = Done a -> run_each o2 own_turn start = Done b -> a = b.
  Proof.
    intros Hn HP E1 E2. destruct (own_result _ _ _ Hn E1) as [L1 H1]. destruct (own_result _ _ _ (Permutation_NoDup HP Hn) E2) as [L2 H2]. apply nth_error_ext. intros i.
    destruct (nth_error start i) as [s|] eqn:Es.
    - specialize (H1 i s Es). specialize (H2 i s Es). destruct (in_dec Nat.eq_dec i o1) as [Hi|Hi], (in_dec Nat.eq_dec i o2) as [Hi'|Hi'].
      + destruct H1 as (u & Eu & ->), H2 as (u' & Eu' & ->). congruence.
      + exfalso. apply Hi'. eapply Permutation_in; eauto.
      + exfalso. apply Hi. eapply Permutation_in; [symmetry; exact HP|exact Hi'].
      + congruence.
    - apply nth_error_None in Es. rewrite !(proj2 (nth_error_None _ _)) by lia. reflexivity.
  Qed.
End Own.
Lemma run_each_ext {A S} (f g : A -> S -> run S) l : (forall x s, f x s = g x s) -> forall s, run_each l f s = run_each l g s.
Proof. intros H. induction l as [|x l IH]; intros s; cbn; [reflexivity|]. rewrite H. destruct (g x s); cbn; auto. Qed.

Section Subs.
  Context {X R : Type}.
  Local Notation subs_t := (list (sub X R)).
  Variable f : sub X R -> run (sub X R).
  Lemma unbind_same o1 o2 (start a b : subs_t) : NoDup o1 -> Permutation o1 o2 -> run_each o1 (unbind_at_with f) start = Done a -> run_each o2 (unbind_at_with f) start = Done b -> a = b.
  Proof.
    intros Hn HP E1 E2. assert (HX : forall i l, unbind_at_with f i l = own_turn (fun _ => f) i l). { intros i l. unfold unbind_at_with, own_turn. destruct (nth_error l i) as [s|] eqn:Es; [|reflexivity]. destruct (f s); cbn; try reflexivity. unfold modify. rewrite Es. reflexivity. }
    rewrite (run_each_ext _ _ o1 HX) in E1. rewrite (run_each_ext _ _ o2 HX) in E2. eapply own_same; eassumption.
  Qed.
  Lemma merged_same tr flags o1 o2 (start a b : subs_t) : NoDup o1 -> Permutation o1 o2 -> unbind_merged f tr o1 flags start = Done a -> unbind_merged f tr o2 flags start = Done b -> a = b.
  Proof.
    intros Hn HP E1 E2. unfold unbind_merged in *. apply rbind_ends in E1 as (a' & E1 & Ea). apply rbind_ends in E2 as (b' & E2 & Eb). assert (a' = b'); [|congruence].
    assert (HX : forall i (l : subs_t), match nth_error flags i, nth_error l i with Some m, Some s => if (m : bool) then rbind (f s) (fun s' => of_opt (upd l i s')) else Done l | _, _ => Crash end = own_turn (fun i s => match nth_error flags i with Some true => f s | Some false => Done s | None => Crash end) i l).
    { intros i l. unfold own_turn. destruct (nth_error flags i) as [[|]|], (nth_error l i) as [s|] eqn:Es; try reflexivity. cbn [rbind]. rewrite (upd_self _ _ _ Es). reflexivity. }
    rewrite (run_each_ext _ _ o1 HX) in E1. rewrite (run_each_ext _ _ o2 HX) in E2. eapply own_same; eassumption.
  Qed.
End Subs.

Section Detect.
  Context {X R : Type}.
  Variable near : nat * list (Z * X) * R -> nat * list (Z * X) * R -> bool.
  Variable snap : Z.
  Variable g : list (sub X R).
  Hypothesis Hpar : forall p q c, lists g p c -> lists g q c -> p = q.
  Hypothesis Hex : forall p c, lists g p c -> exists s, zget g c = Some s.
  Hypothesis Hdep : forall i s, zget g i = Some s -> exists D r, (D < length g)%nat /\ above (lists g) i D r /\ forall p, ~ lists g p r.
  Lemma detect_same fuel o1 o2 o1' o2' : length g <= fuel -> Permutation o1 (seq 0 (length g)) -> Permutation o2 (seq 0 (length g)) -> Permutation o1' (seq 0 (length g)) -> Permutation o2' (seq 0 (length g)) ->
    detect_traps near snap fuel o1 o2 g = detect_traps near snap fuel o1' o2' g.
  Proof.
    intros Hf P1 P2 P1' P2'. destruct (detect_ok near snap g Hpar Hex Hdep fuel o1 o2 Hf P1 P2) as (a & mg & -> & La & Lm & Ha & Hm). destruct (detect_ok near snap g Hpar Hex Hdep fuel o1' o2' Hf P1' P2') as (b & mg' & -> & Lb & Lm' & Hb & Hm').
    f_equal. f_equal.
    - apply nth_error_ext. intros i. destruct (nth_error g i) as [s|] eqn:Es.
      + destruct (Ha i s Es) as (u & -> & Hu). destruct (Hb i s Es) as (u' & -> & Hu'). f_equal. unfold detected in *. destruct (s_sink s =? -1)%Z; [|congruence].
        destruct Hu as [(k & Hk & ->)|[Hk ->]], Hu' as [(k' & Hk' & ->)|[Hk' ->]]; [|exfalso; eapply Hk'; eauto|exfalso; eapply Hk; eauto|reflexivity]. rewrite (sinks_fun near g Hpar _ _ _ Hk Hk'). reflexivity.
      + apply nth_error_None in Es. rewrite !(proj2 (nth_error_None _ _)) by lia. reflexivity.
    - apply zget_same. intros k. destruct (zget mg k) as [b1|] eqn:E1.
      + pose proof (zget_some _ _ _ E1) as Hr. destruct (zget_in_range mg' k) as [b2 E2]; [lia|]. rewrite E2. f_equal. assert (A := Hm k b1 E1). assert (B := Hm' k b2 E2). destruct b1, b2; try reflexivity; [symmetry; apply B, A; reflexivity|apply A, B; reflexivity].
      + destruct (zget mg' k) as [b2|] eqn:E2; [|reflexivity]. pose proof (zget_some _ _ _ E2) as Hr. destruct (zget_in_range mg k) as [b1 E3]; [lia|]. congruence.
  Qed.
End Detect.
