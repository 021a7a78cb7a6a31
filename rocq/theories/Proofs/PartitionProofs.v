(** The partition by binding energy. *)
From Coq Require Import List ZArith Bool Lia Sorting.Permutation.
From Verif.Model Require Import ListMem Mpi Run Unbind.
From Verif.Proofs Require Import ListMemProofs ListExtra.
Import ListNotations.
Local Open Scope nat_scope.

Lemma upd_perm {A} (l l' : list A) i x y : upd l i x = Some l' -> nth_error l i = Some y -> Permutation (y :: l') (x :: l).
Proof.
  intros Hu Hy. pose proof (upd_lt _ _ _ _ Hu) as Hi. rewrite (upd_firstn_skipn l i x Hi) in Hu. injection Hu as <-.
  rewrite (nth_error_split2 l i y Hy) at 3. rewrite <- !Permutation_middle. constructor.
Qed.
Lemma move_void {A} (l l1 : list A) f b e tmp l' : f <> b -> nth_error l b = Some e -> upd l f e = Some l1 -> upd l f tmp = Some l' ->
  exists l2, upd l1 b tmp = Some l2 /\ Permutation l2 l'.
Proof.
  intros Hne He H1 H'. assert (Hb : b < length l1) by (rewrite (upd_length _ _ _ _ H1); eapply nth_error_lt; eauto).
  destruct (upd_some l1 b tmp Hb) as [l2 H2]. exists l2. split; [exact H2|].
  destruct (nth_error_in_range l f) as [lf Hf]; [eapply upd_lt; eauto|].
  assert (He1 : nth_error l1 b = Some e) by (rewrite (upd_other _ _ _ b _ H1); [exact He|lia]).
  pose proof (upd_perm _ _ _ _ _ H1 Hf) as P1. pose proof (upd_perm _ _ _ _ _ H2 He1) as P2. pose proof (upd_perm _ _ _ _ _ H' Hf) as P3.
  apply (Permutation_cons_inv (a := lf)). apply (Permutation_cons_inv (a := e)).
  transitivity (lf :: tmp :: l1); [rewrite perm_swap; apply perm_skip; exact P2|]. rewrite perm_swap. transitivity (tmp :: e :: l); [apply perm_skip; exact P1|].
  rewrite perm_swap. apply perm_skip. symmetry. exact P3.
Qed.

Section P.
  Context {E : Type}.
  Variables neg pos : E -> bool.
  Hypothesis one_sign : forall e, neg e = true -> pos e = false.
  Local Notation entry := (nat * E)%type.
  Variables (l0 : list entry) (len : nat).
  Definition tail_kept (l : list entry) : Prop := forall i, len <= i -> nth_error l i = nth_error l0 i.
  Definition st_ok (fwd : bool) (tmp : entry) (f b : nat) (l : list entry) : Prop :=
    f < b /\ b <= len /\ (fwd = false -> b < len) /\ len <= length l /\ tail_kept l /\
    (exists l', upd l (if fwd then f else b) tmp = Some l' /\ Permutation l' l0) /\
    (forall i e, i < f \/ (fwd = false /\ i = f) -> nth_error l i = Some e -> pos (snd e) = false) /\
    (forall i e, b < i \/ (fwd = true /\ i = b) -> i < len -> nth_error l i = Some e -> neg (snd e) = false).
  Definition split_ok (l : list entry) (n : nat) : Prop :=
    Permutation l l0 /\ tail_kept l /\ n <= len /\ (forall i e, i < n -> nth_error l i = Some e -> pos (snd e) = false) /\
    (forall i e, n <= i < len -> nth_error l i = Some e -> neg (snd e) = false).
  Lemma finish tmp f b l l' : st_ok true tmp f (S b) l -> b = f -> upd l f tmp = Some l' -> split_ok l' (if neg (snd tmp) then S b else b).
  Proof.
    intros (H1 & H2 & H3 & H4 & H5 & (l1 & Hu & HP) & H7 & H8) -> Hl. rewrite Hl in Hu. injection Hu as <-.
    split; [exact HP|]. split; [intros i Hi; rewrite (upd_other _ _ _ i _ Hl) by lia; apply H5; exact Hi|]. split; [destruct (neg (snd tmp)); lia|].
    assert (Hn : forall i, nth_error l' i = if i =? f then Some tmp else nth_error l i).
    { intros i. destruct (Nat.eqb_spec i f) as [->|]; [eapply upd_same; eauto|eapply upd_other; eauto]. }
    split; intros i e Hi He; rewrite Hn in He; destruct (Nat.eqb_spec i f).
    - injection He as <-. destruct (neg (snd tmp)) eqn:En; [apply one_sign; exact En|lia].
    - apply (H7 i e); [|exact He]. destruct (neg (snd tmp)); lia.
    - injection He as <-. destruct (neg (snd tmp)) eqn:En; [lia|reflexivity].
    - apply (H8 i e); [|lia|exact He]. destruct (neg (snd tmp)); [|destruct (Nat.eq_dec i (S f)); [right; auto|lia]]. destruct (Nat.eq_dec i (S f)); [right; auto|lia].
  Qed.
  Lemma finish_back tmp f b l l' : st_ok false tmp f b l -> S f = b -> upd l b tmp = Some l' -> split_ok l' (if neg (snd tmp) then S b else b).
  Proof.
    intros (H1 & H2 & H3 & H4 & H5 & (l1 & Hu & HP) & H7 & H8) <- Hl. rewrite Hl in Hu. injection Hu as <-. specialize (H3 eq_refl).
    split; [exact HP|]. split; [intros i Hi; rewrite (upd_other _ _ _ i _ Hl) by lia; apply H5; exact Hi|]. split; [destruct (neg (snd tmp)); lia|].
    assert (Hn : forall i, nth_error l' i = if i =? S f then Some tmp else nth_error l i).
    { intros i. destruct (Nat.eqb_spec i (S f)) as [->|]; [eapply upd_same; eauto|eapply upd_other; eauto]. }
    split; intros i e Hi He; rewrite Hn in He; destruct (Nat.eqb_spec i (S f)).
    - injection He as <-. destruct (neg (snd tmp)) eqn:En; [apply one_sign; exact En|lia].
    - apply (H7 i e); [|exact He]. destruct (neg (snd tmp)); destruct (Nat.eq_dec i f); try (right; auto; fail); lia.
    - injection He as <-. destruct (neg (snd tmp)) eqn:En; [lia|reflexivity].
    - apply (H8 i e); [|lia|exact He]. destruct (neg (snd tmp)); lia.
  Qed.
  Lemma part_loop_ok fuel : forall fwd tmp f b l, st_ok fwd tmp f b l -> b - f <= fuel -> exists l' n, part_loop neg pos fuel fwd tmp f b l = Done (l', n) /\ split_ok l' n.
  Proof.
    induction fuel as [|fuel IH]; intros fwd tmp f b l HS Hf; [destruct HS; lia|]. assert (HS' := HS). destruct HS' as (H1 & H2 & H3 & H4 & H5 & (l1 & Hu & HP) & H7 & H8). cbn [part_loop]. destruct fwd.
    - destruct b as [|b]; [lia|]. destruct (Nat.eqb_spec b f) as [Hb|Hb].
      + rewrite Hu. cbn. eexists _, _. split; [reflexivity|]. exact (finish tmp f b l l1 HS Hb Hu).
      + destruct (nth_error_in_range l b) as [e He]; [lia|]. rewrite He. destruct (neg (snd e)) eqn:En.
        * destruct (upd_some l f e) as [l2 H2u]; [lia|]. rewrite H2u. cbn. apply IH; [|lia].
          destruct (move_void l l2 f b e tmp l1 ltac:(lia) He H2u Hu) as (l3 & A & B).
          split; [lia|]. split; [lia|]. split; [intros _; lia|]. split; [rewrite (upd_length _ _ _ _ H2u); lia|]. split; [intros i Hi; rewrite (upd_other _ _ _ i _ H2u) by lia; apply H5; exact Hi|].
          split; [exists l3; split; [exact A|rewrite B; exact HP]|]. split.
          -- intros i x Hi Hx. destruct (Nat.eq_dec i f) as [->|]; [rewrite (upd_same _ _ _ _ H2u) in Hx; injection Hx as <-; apply one_sign; exact En|]. rewrite (upd_other _ _ _ i _ H2u) in Hx by lia. apply (H7 i x); [|exact Hx]. destruct Hi as [|[_ ?]]; lia.
          -- intros i x Hi Hl Hx. rewrite (upd_other _ _ _ i _ H2u) in Hx by (destruct Hi as [|[? _]]; [lia|discriminate]). apply (H8 i x); [|exact Hl|exact Hx]. destruct Hi as [|[? _]]; [|discriminate]. destruct (Nat.eq_dec i (S b)); [right; auto|left; lia].
        * apply IH; [|lia]. split; [lia|]. split; [lia|]. split; [discriminate|]. split; [lia|]. split; [exact H5|]. split; [exists l1; auto|]. split; [exact H7|].
          intros i x Hi Hl Hx. destruct (Nat.eq_dec i b) as [->|]; [congruence|]. apply (H8 i x); [|exact Hl|exact Hx]. destruct (Nat.eq_dec i (S b)); [right; auto|left; destruct Hi as [|[_ ?]]; lia].
    - specialize (H3 eq_refl). destruct (Nat.eqb_spec (S f) b) as [Hb|Hb].
      + rewrite Hu. cbn. eexists _, _. split; [reflexivity|]. exact (finish_back tmp f b l l1 HS Hb Hu).
      + destruct (nth_error_in_range l (S f)) as [e He]; [lia|]. rewrite He. destruct (pos (snd e)) eqn:Ep.
        * destruct (upd_some l b e) as [l2 H2u]; [lia|]. rewrite H2u. cbn. apply IH; [|lia].
          destruct (move_void l l2 b (S f) e tmp l1 ltac:(lia) He H2u Hu) as (l3 & A & B).
          split; [lia|]. split; [lia|]. split; [discriminate|]. split; [rewrite (upd_length _ _ _ _ H2u); lia|]. split; [intros i Hi; rewrite (upd_other _ _ _ i _ H2u) by lia; apply H5; exact Hi|].
          split; [exists l3; split; [exact A|rewrite B; exact HP]|]. split.
          -- intros i x Hi Hx. destruct Hi as [Hi|[? _]]; [|discriminate]. rewrite (upd_other _ _ _ i _ H2u) in Hx by lia. apply (H7 i x); [|exact Hx]. destruct (Nat.eq_dec i f); [right; auto|left; lia].
          -- intros i x Hi Hl Hx. destruct (Nat.eq_dec i b) as [->|].
             ++ rewrite (upd_same _ _ _ _ H2u) in Hx. injection Hx as <-. destruct (neg (snd e)) eqn:En; [|reflexivity]. apply one_sign in En. congruence.
             ++ rewrite (upd_other _ _ _ i _ H2u) in Hx by lia. apply (H8 i x); [|exact Hl|exact Hx]. left. destruct Hi as [|[_ ?]]; lia.
        * apply IH; [|lia]. split; [lia|]. split; [lia|]. split; [intros _; exact H3|]. split; [lia|]. split; [exact H5|]. split; [exists l1; auto|]. split; [|exact H8].
          intros i x Hi Hx. destruct (Nat.eq_dec i (S f)) as [->|]; [congruence|]. apply (H7 i x); [|exact Hx]. destruct (Nat.eq_dec i f); [right; auto|left; destruct Hi as [|[_ ?]]; lia].
  Qed.
  Lemma partition_ok : len <= length l0 -> exists l' n, partition_energy neg pos l0 len = Done (l', n) /\ split_ok l' n.
  Proof.
    intros HL. unfold partition_energy. destruct len as [|m] eqn:El.
    - exists l0, 0. split; [reflexivity|]. split; [reflexivity|]. rewrite El. split; [intros i _; reflexivity|]. split; [lia|]. split; intros; lia.
    - destruct (nth_error_in_range l0 0) as [e He]; [lia|]. rewrite He. destruct (Nat.eqb_spec m 0) as [->|Hm].
      + eexists _, _. split; [reflexivity|]. unfold split_ok, tail_kept. rewrite El. split; [reflexivity|]. split; [reflexivity|]. split; [destruct (neg (snd e)); lia|]. split; intros i x Hi Hx; assert (i = 0) by (destruct (neg (snd e)); lia); subst i; rewrite He in Hx; injection Hx as <-.
        * destruct (neg (snd e)) eqn:En; [apply one_sign; exact En|lia].
        * destruct (neg (snd e)) eqn:En; [lia|reflexivity].
      + apply part_loop_ok; [|lia]. split; [lia|]. split; [lia|]. split; [discriminate|]. split; [lia|]. split; [intros i _; reflexivity|]. split; [|split].
        * exists l0. split; [apply upd_self; exact He|reflexivity].
        * intros i x [|[? _]]; [lia|discriminate].
        * intros i x [|[_ ->]]; lia.
  Qed.
End P.
