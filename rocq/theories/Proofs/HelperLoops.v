(** FillHostTrackIds and DetectTraps, all turns at the same time. *)
From Coq Require Import List ZArith QArith Bool Lia Sorting.Permutation.
From Verif.Model Require Import ListMem Mpi Run Subhalo Nest Mask Unbind Merge Threads.
From Verif.Spec Require Import Forest Nesting Sinking Races.
From Verif.Proofs Require Import ListMemProofs MpiProofs ListExtra NestProofs DetectProofs ThreadProofs WalkProofs.
Import ListNotations.
Local Open Scope Z_scope.

Lemma cell_ok a b : cell_eqb a b = true <-> a = b.
Proof. destruct a, b; cbn; try (split; [discriminate|intros H; discriminate H]); rewrite Z.eqb_eq; (split; [intros ->; reflexivity|intros H; injection H as ->; reflexivity]). Qed.

Lemma none_iff2 {A B} (a : list A) (b : list B) : length a = length b -> forall i, zget a i = None <-> zget b i = None.
Proof. intros HL i. unfold zget. destruct (i <? 0); [split; reflexivity|]. rewrite !nth_error_None, HL. reflexivity. Qed.

Section Loops.
  Context {X R : Type}.
  Local Notation subs_t := (list (sub X R)).
  Variable near : nat * list (Z * X) * R -> nat * list (Z * X) * R -> bool.
  Variable snap : Z.
  Variable g : subs_t.
  Hypothesis Hpar : forall p q c, lists g p c -> lists g q c -> p = q.
  Hypothesis Hex : forall p c, lists g p c -> exists s, zget g c = Some s.
  Hypothesis Hdep : forall i s, zget g i = Some s -> exists D r, (D < length g)%nat /\ above (lists g) i D r /\ forall p, ~ lists g p r.
  Local Notation sinks := (sinks_by near (lists g) g).
  Local Notation value := (@value X R).

  Lemma turns_at {A} (f : nat -> A) n t p : nth_error (map f (seq 0 n)) t = Some p -> p = f t /\ (t < n)%nat.
  Proof.
    rewrite nth_error_map. intros H. destruct (nth_error (seq 0 n) t) as [k|] eqn:E; [|discriminate]. injection H as <-. pose proof (nth_error_lt _ _ _ E) as Hlt. rewrite seq_length in Hlt.
    rewrite nth_error_nth' with (d := O) in E by (rewrite seq_length; exact Hlt). rewrite seq_nth in E by exact Hlt. injection E as <-. auto.
  Qed.
  Lemma zget_repeat {A} (x : A) n i : zget (repeat x n) i = if (0 <=? i) && (i <? Z.of_nat n) then Some x else None.
  Proof.
    unfold zget. destruct (Z.ltb_spec i 0), (Z.leb_spec 0 i); try lia; cbn [andb]; [reflexivity|]. destruct (Z.ltb_spec i (Z.of_nat n)); [apply nth_error_repeat; lia|]. apply nth_error_None. rewrite repeat_length. lia.
  Qed.

  (** ** FillHostTrackIds *)
  Definition host_rd (t : nat) (l : cell) : Prop := l = CNest (Z.of_nat t).
  Definition host_wr (t : nat) (l : cell) (v : value) : Prop := exists c, l = CHost c /\ lists g (Z.of_nat t) c /\ v = VInt (Z.of_nat t).
  Lemma host_body t l : forall s, (forall c, In c l -> lists g (Z.of_nat t) c /\ s (CHost c) <> None) ->
    exists n, wp cell_eqb (host_rd t) (host_wr t) (peach l (fun c => Put (CHost c) (VInt (Z.of_nat t)) (Ret tt))) n s (fun _ x => forall c, In c l \/ s (CHost c) = Some (VInt (Z.of_nat t)) -> x (CHost c) = Some (VInt (Z.of_nat t))).
  Proof.
    induction l as [|c l IH]; intros s H.
    - exists O. split; [reflexivity|]. intros c [[]|E]. exact E.
    - cbn. destruct (IH (put cell_eqb s (CHost c) (VInt (Z.of_nat t)))) as [n Hn].
      + intros d Hd. destruct (H d (or_intror Hd)) as [H1 H2]. split; [exact H1|]. unfold put. destruct (cell_eqb _ _); [discriminate|exact H2].
      + exists (S n), n. split; [reflexivity|]. split; [exists c; split; [reflexivity|]; split; [apply H; left; reflexivity|reflexivity]|]. split; [apply H; left; reflexivity|].
        unfold peach in Hn. cbn. eapply wp_mono; [|exact Hn]. cbn beta. intros _ x Hx d Hd. apply Hx. unfold put. destruct (cell_eqb (CHost d) (CHost c)) eqn:E; [right; reflexivity|].
        destruct Hd as [[->|Hd]|Hd]; [cbn in E; rewrite Z.eqb_refl in E; discriminate|left; exact Hd|right; exact Hd].
  Qed.
  Lemma host_loop hosts mg : length hosts = length g -> (forall c s, zget g c = Some s -> exists v, zget hosts c = Some v /\ host_of g c v) ->
    safe_loop cell_eqb race (host_turns (length g)) (memory g g (repeat (-1) (length g)) mg) (memory g g hosts mg).
  Proof using Hpar Hex Hdep.
    intros HL Hh. assert (Hval : forall t c, lists g (Z.of_nat t) c -> zget hosts c = Some (Z.of_nat t)).
    { intros t c Hl. destruct (Hex _ _ Hl) as [s Hs]. destruct (Hh c s Hs) as (v & Hv & [Hv'|[_ Hno]]); [rewrite Hv; f_equal; eapply Hpar; eauto|destruct (Hno _ Hl)]. }
    apply (together_free cell_eqb cell_ok host_rd host_wr).
    - intros t p Hp. apply turns_at in Hp as [-> Ht]. destruct (nth_error_in_range g t Ht) as [s Hs]. rewrite <- zget_of_nat in Hs.
      destruct (host_body t (s_nest s) (memory g g (repeat (-1) (length g)) mg)) as [n Hn].
      + intros c Hc. assert (Hl : lists g (Z.of_nat t) c) by (exists s; auto). split; [exact Hl|]. destruct (Hex _ _ Hl) as [u Hu]. apply zget_some in Hu. cbn. destruct (zget_in_range (repeat (-1) (length g)) c) as [w ->]; [rewrite repeat_length; exact Hu|discriminate].
      + exists (S n). cbn [host_turn wp]. exists n, (VList (s_nest s)). split; [reflexivity|]. split; [reflexivity|]. split; [cbn; rewrite Hs; reflexivity|]. eapply wp_mono; [|exact Hn].
        cbn beta. intros a x Hx l v (c & -> & Hl & ->). rewrite Hx; [cbn; rewrite (Hval t c Hl); reflexivity|]. left. destruct Hl as (u & Hu & Hc). congruence.
    - intros t u l v _ (c & -> & _) H. discriminate.
    - intros t u l v v' Hne (c & -> & H1 & _) (d & E & H2 & _). injection E as <-. exfalso. apply Hne. apply Nat2Z.inj. eapply Hpar; eauto.
    - intros l. destruct l as [i|i|i|i|i|i|c|i]; try (right; reflexivity). destruct (zget g c) as [s|] eqn:Es.
      + destruct (Hh c s Es) as (v & Hv & [Hl|[-> _]]).
        * left. pose proof Hl as (u & Hu & _). apply zget_some in Hu. exists (Z.to_nat v), (VInt v). unfold host_turns. rewrite map_length, seq_length. split; [lia|]. exists c. rewrite Z2Nat.id by lia. auto.
        * right. cbn. rewrite Hv, zget_repeat. apply zget_some in Es. replace (0 <=? c) with true by (symmetry; apply Z.leb_le; lia). replace (c <? Z.of_nat (length g)) with true by (symmetry; apply Z.ltb_lt; lia). reflexivity.
      + right. cbn. assert (zget hosts c = None) as -> by (apply (none_iff2 hosts g HL); exact Es). symmetry. destruct (zget (repeat (-1) (length g)) c) eqn:E; [|reflexivity]. apply zget_some in E. rewrite repeat_length in E. destruct (zget_in_range g c E). congruence.
    - intros t u l v v' Hne (c & -> & H1 & _) (d & E & H2 & _). injection E as <-. apply Hne. apply Nat2Z.inj. eapply Hpar; eauto.
  Qed.

  (** ** DetectTraps *)
  Variable hosts : list Z.
  Hypothesis HLh : length hosts = length g.
  Hypothesis Hh : forall c s, zget g c = Some s -> exists v, zget hosts c = Some v /\ host_of g c v.
  Variables (a : subs_t) (mg : list bool).
  Hypothesis HLa : length a = length g.
  Hypothesis HLm : length mg = length g.
  Hypothesis Ha : forall i s, nth_error g i = Some s -> exists u, nth_error a i = Some u /\ detected snap sinks (Z.of_nat i) s u.
  Hypothesis Hm : forall k b, zget mg k = Some b -> (b = true <-> to_merge near g k (fun _ => True)).
  Definition trap_rd (t : nat) (l : cell) : Prop := match l with CSink i | CSnap i => i = Z.of_nat t | CMerged _ => False | _ => True end.
  Definition trap_wr (t : nat) (l : cell) (v : value) : Prop := exists s k, nth_error g t = Some s /\ s_sink s = -1 /\ sinks (Z.of_nat t) k /\
    (l = CSink (Z.of_nat t) /\ v = VInt k \/ l = CSnap (Z.of_nat t) /\ v = VInt snap \/ l = CMerged k /\ v = VBool true /\ (1 < s_nbound s)%nat).
  Local Notation start := (memory g g hosts (repeat false (length g))).
  Local Notation final := (memory a g hosts mg).
  Lemma trap_final t l v : trap_wr t l v -> final l = Some v.
  Proof using All.
    intros (s & k & Hs & Es & Hk & Hl). destruct (Ha t s Hs) as (u & Hu & Hd). unfold detected in Hd. rewrite Es in Hd. cbn in Hd. destruct Hd as [(k' & Hk' & ->)|[Hno _]]; [|destruct (Hno k Hk)].
    assert (k' = k) by (eapply sinks_fun; eauto). subst k'. destruct Hl as [[-> ->]|[[-> ->]|(-> & -> & Hb)]]; cbn; rewrite ?zget_of_nat, ?Hu; cbn; try reflexivity.
    pose proof Hk as (d & _ & (? & w & _ & Hw & _) & _). apply zget_some in Hw. rewrite <- HLm in Hw. destruct (zget_in_range mg k Hw) as [b Hb']. rewrite Hb'. cbn. repeat f_equal. apply (Hm k b Hb'). exists t, s. auto.
  Qed.
  Lemma walk_wp t s : nth_error g t = Some s -> s_sink s = -1 -> forall fuel h o, find_sink near fuel hosts g g s h = Done o ->
    match o with Some k => sinks (Z.of_nat t) k | None => forall k, ~ sinks (Z.of_nat t) k end ->
    exists n, wp cell_eqb (trap_rd t) (trap_wr t) (walk_up near snap fuel (Z.of_nat t) h) n start (reaches trap_wr final t).
  Proof using All.
    intros Hs Es. assert (Hz : zget g (Z.of_nat t) = Some s) by (rewrite zget_of_nat; exact Hs). induction fuel as [|f IH]; intros h o E Ho.
    - cbn [find_sink walk_up] in *. destruct (h <? 0); [|discriminate]. injection E as <-. exists O. split; [reflexivity|]. intros l v (s' & k & _ & _ & Hk & _). destruct (Ho k Hk).
    - cbn [find_sink walk_up] in *. destruct (h <? 0) eqn:Eh. { injection E as <-. exists O. split; [reflexivity|]. intros l v (s' & k & _ & _ & Hk & _). destruct (Ho k Hk). }
      destruct (zget g h) as [u|] eqn:Eu; [|discriminate]. destruct (zget hosts h) as [up|] eqn:Eup; [|discriminate].
      assert (Hup : find_sink near f hosts g g s up = Done o -> exists n, wp cell_eqb (trap_rd t) (trap_wr t) (Get (CHost h) (fun w => match w with VInt w => walk_up near snap f (Z.of_nat t) w | _ => Fail end)) n start (reaches trap_wr final t)).
      { intros E'. destruct (IH up o E' Ho) as [n Hn]. exists (S n). cbn [wp]. exists n, (VInt up). split; [reflexivity|]. split; [exact Logic.I|]. split; [cbn; rewrite Eup; reflexivity|exact Hn]. }
      assert (Hget : forall P, (exists n, wp cell_eqb (trap_rd t) (trap_wr t) (P : prog unit) n start (reaches trap_wr final t)) -> forall l v (k : value -> prog unit), trap_rd t l -> start l = Some v -> k v = P -> exists n, wp cell_eqb (trap_rd t) (trap_wr t) (Get l k) n start (reaches trap_wr final t)).
      { intros P [n Hn] l v k H1 H2 <-. exists (S n). cbn [wp]. exists n, v. auto. }
      eapply Hget; [|exact Logic.I|cbn; rewrite Eu; reflexivity|reflexivity]. destruct (1 <? s_nbound u)%nat; [|apply Hup; exact E]. cbn [andb] in E.
      eapply Hget; [|exact Logic.I|cbn; rewrite Hz; reflexivity|reflexivity]. eapply Hget; [|exact Logic.I|cbn; rewrite Eu; reflexivity|reflexivity]. destruct (near (core s) (core u)); [|apply Hup; exact E].
      injection E as <-. assert (W1 : trap_wr t (CSink (Z.of_nat t)) (VInt h)) by (exists s, h; repeat (split; [assumption|]); auto 6). assert (W2 : trap_wr t (CSnap (Z.of_nat t)) (VInt snap)) by (exists s, h; repeat (split; [assumption|]); auto 6).
      assert (D1 : start (CSink (Z.of_nat t)) <> None) by (cbn; rewrite Hz; discriminate). assert (D2 : start (CSnap (Z.of_nat t)) <> None) by (cbn; rewrite Hz; discriminate).
      destruct (Nat.ltb_spec 1 (s_nbound s)) as [Hb|Hb].
      + assert (W3 : trap_wr t (CMerged h) (VBool true)) by (exists s, h; repeat (split; [assumption|]); auto 8). assert (D3 : start (CMerged h) <> None).
        { cbn. pose proof (zget_some _ _ _ Eu) as Hr. destruct (zget_in_range (repeat false (length g)) h) as [w ->]; [rewrite repeat_length; exact Hr|discriminate]. }
        exists 4%nat. cbn [wp]. exists 3%nat. split; [reflexivity|]. split; [exact W1|]. split; [exact D1|]. exists 2%nat. split; [reflexivity|]. split; [exact W2|]. split; [exact D2|].
        exists 1%nat, (VNat (s_nbound s)). split; [reflexivity|]. split; [exact Logic.I|]. split; [cbn; rewrite Hz; reflexivity|]. rewrite (proj2 (Nat.ltb_lt _ _) Hb). cbn [wp]. exists O. split; [reflexivity|]. split; [exact W3|]. split; [exact D3|]. split; [reflexivity|].
        intros l v Hl. rewrite (trap_final t l v Hl). destruct Hl as (s' & k & Hs' & _ & Hk & Hl). assert (k = h) by (eapply sinks_fun; eauto). subst k. unfold put. destruct Hl as [[-> ->]|[[-> ->]|(-> & -> & _)]]; cbn; rewrite ?Z.eqb_refl; reflexivity.
      + exists 3%nat. cbn [wp]. exists 2%nat. split; [reflexivity|]. split; [exact W1|]. split; [exact D1|]. exists 1%nat. split; [reflexivity|]. split; [exact W2|]. split; [exact D2|].
        exists O, (VNat (s_nbound s)). split; [reflexivity|]. split; [exact Logic.I|]. split; [cbn; rewrite Hz; reflexivity|]. rewrite (proj2 (Nat.ltb_ge _ _) Hb). cbn [wp]. split; [reflexivity|].
        intros l v Hl. rewrite (trap_final t l v Hl). destruct Hl as (s' & k & Hs' & _ & Hk & Hl). assert (k = h) by (eapply sinks_fun; eauto). subst k. assert (s' = s) by congruence. subst s'. unfold put. destruct Hl as [[-> ->]|[[-> ->]|(-> & -> & Hb')]]; cbn; rewrite ?Z.eqb_refl; try reflexivity. lia.
  Qed.
  Lemma trap_loop fuel : (length g <= fuel)%nat -> safe_loop cell_eqb clash (detect_turns near snap fuel (length g)) start final.
  Proof using All.
    intros Hf. apply (together cell_eqb cell_ok trap_rd trap_wr).
    - intros t p Hp. apply turns_at in Hp as [-> Ht]. destruct (nth_error_in_range g t Ht) as [s Hs]. assert (Hz : zget g (Z.of_nat t) = Some s) by (rewrite zget_of_nat; exact Hs). unfold detect_turn. destruct (Z.eqb_spec (s_sink s) (-1)) as [Es|Es].
      + destruct (Hh _ _ Hz) as (v & Hv & Hho). destruct (Hdep _ _ Hz) as (D & r & HD & HDr & Hr).
        destruct (find_sink_ok near g Hpar Hex Hdep hosts g (Z.of_nat t) s D r Hh) with (n := (D - 0)%nat) (e := O) (m := Z.of_nat t) (v := v) (fuel := fuel) as (o & Eo & Ho); try assumption; try lia; [intros k w Hw; eauto|constructor|].
        destruct (walk_wp t s Hs Es fuel v o Eo Ho) as [n Hn]. exists (S (S n)). cbn [wp]. exists (S n), (VInt (s_sink s)). split; [reflexivity|]. split; [reflexivity|]. split; [cbn; rewrite Hz; reflexivity|]. rewrite Es. cbn [Z.eqb negb Pos.eqb wp].
        exists n, (VInt v). split; [reflexivity|]. split; [exact Logic.I|]. split; [cbn; rewrite Hv; reflexivity|exact Hn].
      + exists 1%nat. cbn [wp]. exists O, (VInt (s_sink s)). split; [reflexivity|]. split; [reflexivity|]. split; [cbn; rewrite Hz; reflexivity|]. rewrite (proj2 (Z.eqb_neq _ _) Es). cbn [negb wp]. split; [reflexivity|].
        intros l v (s' & k & Hs' & Es' & _). congruence.
    - intros t u l v Hne (s & k & _ & _ & _ & Hl) Hr. destruct Hl as [[-> _]|[[-> _]|(-> & _)]]; cbn in Hr; [apply Hne; lia..|exact Hr].
    - intros t u l v v' _ H _. apply (trap_final t). exact H.
    - intros l. assert (Hsame : forall i, exists o o', zget g i = o /\ zget a i = o' /\ (o = None /\ o' = None \/ exists s u, o = Some s /\ o' = Some u /\ (u = s \/ s_sink s = -1 /\ exists k, sinks i k /\ u = set_sink k snap s))).
      { intros i. exists (zget g i), (zget a i). split; [reflexivity|]. split; [reflexivity|]. destruct (zget g i) as [s|] eqn:Es; [right|left; split; [reflexivity|apply (none_iff2 a g HLa); exact Es]]. pose proof (zget_some _ _ _ Es) as Hr. rewrite zget_nat in Es by lia. destruct (Ha _ _ Es) as (u & Hu & Hd). rewrite zget_nat by lia. rewrite Z2Nat.id in Hd by lia.
        exists s, u. split; [reflexivity|]. split; [exact Hu|]. unfold detected in Hd. destruct (Z.eqb_spec (s_sink s) (-1)); [|left; exact Hd]. destruct Hd as [(k & Hk & ->)|[_ ->]]; [right; eauto|left; reflexivity]. }
      assert (Hwr : forall i s k, zget g i = Some s -> s_sink s = -1 -> sinks i k -> forall l (v : value), (l = CSink i /\ v = VInt k \/ l = CSnap i /\ v = VInt snap \/ l = CMerged k /\ v = VBool true /\ (1 < s_nbound s)%nat) -> exists t (v : value), (t < length (detect_turns near snap fuel (length g)))%nat /\ trap_wr t l v).
      { intros i s k Hs Es Hk l' v Hl. pose proof (zget_some _ _ _ Hs) as Hr. exists (Z.to_nat i), v. unfold detect_turns. rewrite map_length, seq_length. split; [lia|]. exists s, k. rewrite Z2Nat.id by lia. rewrite zget_nat in Hs by lia. auto. }
      destruct l as [i|i|i|i|i|i|i|i]; try (right; reflexivity); cbn.
      1-5: destruct (Hsame i) as (o & o' & E & E' & [[-> ->]|(s & u & -> & -> & [->|(Es & k & Hk & ->)])]); rewrite E, E'; try (right; reflexivity).
      + left. eapply (Hwr i s k E Es Hk); eauto.
      + left. eapply (Hwr i s k E Es Hk); eauto.
      + destruct (zget mg i) as [[|]|] eqn:Eb.
        * left. destruct (proj1 (Hm i true Eb) eq_refl) as (j & s & _ & Hj & Es & Hb & Hk). rewrite <- zget_of_nat in Hj. eapply (Hwr _ s i Hj Es Hk); eauto 8.
        * right. apply zget_some in Eb. rewrite HLm in Eb. rewrite zget_repeat. replace (0 <=? i) with true by (symmetry; apply Z.leb_le; lia). replace (i <? Z.of_nat (length g)) with true by (symmetry; apply Z.ltb_lt; lia). reflexivity.
        * right. destruct (zget (repeat false (length g)) i) eqn:E; [|reflexivity]. apply zget_some in E. rewrite repeat_length, <- HLm in E. destruct (zget_in_range mg i E). congruence.
  Qed.
End Loops.
