(** The parallel loop of FeedCentrals: no race on the centrals, the halos and the new subhalos. *)
From Coq Require Import List ZArith Bool Lia Sorting.Permutation.
From Verif.Model Require Import ListMem Mpi Run Subhalo Threads UpdateThreads.
From Verif.Spec Require Import Races Counters.
From Verif.Proofs Require Import ListMemProofs ListExtra ThreadProofs CrewProofs CentralProofs.
Import ListNotations.

Section FeedLoop.
  Context {X R H : Type}.
  Variables (centre : H -> R -> R) (snap : Z) (fresh : R).
  Variables (table : list (list nat)) (subs : list (sub X R)) (halos : list (list (Z * X) * H)).
  Hypothesis Htable : length table = S (length halos).
  Hypothesis Hdisj : forall g g' m l l', nth_error table g = Some l -> nth_error table g' = Some l' -> In m l -> In m l' -> g = g'.
  Hypothesis Hhead : forall g m0 rest, nth_error table (S g) = Some (m0 :: rest) -> exists c, nth_error subs m0 = Some c /\ s_parts c <> [].
  Local Notation turns := (@feed_turns X R H centre snap (tl table)).
  Local Notation nsub := (length subs).
  Local Notation shelf st := (stock (@f_subs X R H st) (f_halos st)).
  Local Notation empty := (is_empty_group table).

  Lemma place_ok a b : place_eqb a b = true <-> a = b.
  Proof. destruct a, b; cbn; try (split; discriminate); rewrite Nat.eqb_eq; split; intros E; [subst; reflexivity|injection E; auto|subst; reflexivity|injection E; auto]. Qed.
  Lemma tl_nth h : nth_error (tl table) h = nth_error table (S h).
  Proof. clear. destruct table; [destruct h; reflexivity|reflexivity]. Qed.
  Lemma turns_length : length turns = length halos.
  Proof. unfold feed_turns. rewrite map_length, combine_length, seq_length, Nat.min_id. assert (G : forall t : list (list nat), length t = S (length halos) -> length (tl t) = length halos) by (intros [|x t]; cbn; lia). exact (G table Htable). Qed.
  Lemma turn_nth h : nth_error turns h = option_map (fun g => match g with [] => Take (UpdateThreads.newborn centre snap h) | m0 :: _ => Plain (UpdateThreads.fed h m0) end) (nth_error table (S h)).
  Proof. unfold feed_turns. rewrite nth_error_map, combine_seq_nth, tl_nth. destruct (nth_error table (S h)) as [[|m0 r]|]; reflexivity. Qed.
  Lemma taker_empty h : taker turns h = empty h.
  Proof. unfold taker. rewrite turn_nth. unfold is_empty_group. destruct (nth_error table (S h)) as [[|m0 r]|]; reflexivity. Qed.
  Lemma takers_empty : takers turns = filter empty (seq 0 (length halos)).
  Proof. unfold takers. rewrite turns_length. apply filter_ext. exact taker_empty. Qed.

  Section Order.
    Variable o : list nat.
    Hypothesis Ho : Permutation o (takers turns).
    Definition owner (h : nat) : nat := match nth_error table (S h) with Some (m0 :: _) => m0 | _ => number nsub o h end.
    Definition place_reg (h : nat) (l : place) : Prop := h < length halos /\ (l = Halo h \/ l = Sub (owner h)).
    Lemma o_nodup : NoDup o.
    Proof. eapply Permutation_NoDup; [symmetry; exact Ho|]. apply NoDup_filter, seq_NoDup. Qed.
    Lemma number_big h : nsub <= number nsub o h.
    Proof. unfold number. lia. Qed.
    Lemma number_inj h h' : In h o -> In h' o -> number nsub o h = number nsub o h' -> h = h'.
    Proof.
      intros H1 H2 E. apply In_nth_error in H1 as [j Hj]. apply In_nth_error in H2 as [k Hk]. unfold number in E. rewrite (place_nth o o_nodup j h Hj), (place_nth o o_nodup k h' Hk) in E. assert (j = k) by lia. subst. congruence.
    Qed.
    Lemma place_apart t u l : t <> u -> place_reg t l -> ~ place_reg u l.
    Proof.
      intros Hne [Ht Hl] [Hu Hl']. destruct Hl as [E0|E0]; subst l; destruct Hl' as [E|E]; try discriminate; [injection E as E; contradiction|].
      injection E as E. unfold owner in E. destruct (nth_error_in_range table (S t)) as [gt Hgt]; [lia|]. destruct (nth_error_in_range table (S u)) as [gu Hgu]; [lia|]. rewrite Hgt, Hgu in E.
      assert (Hino : forall h, h < length halos -> nth_error table (S h) = Some [] -> In h o).
      { intros h Hh Hg. eapply Permutation_in; [symmetry; exact Ho|]. rewrite takers_empty. apply filter_In. split; [apply in_seq; lia|]. unfold is_empty_group. rewrite Hg. reflexivity. }
      destruct gt as [|m0 r], gu as [|m1 r'].
      - apply Hne, number_inj; [apply Hino; assumption|apply Hino; assumption|exact E].
      - destruct (Hhead u m1 r' Hgu) as (c & Hc & _). pose proof (nth_error_lt _ _ _ Hc). pose proof (number_big t). lia.
      - destruct (Hhead t m0 r Hgt) as (c & Hc & _). pose proof (nth_error_lt _ _ _ Hc). pose proof (number_big u). lia.
      - subst m1. apply Hne. assert (S t = S u); [|lia]. eapply (Hdisj (S t) (S u) m0); eauto; left; reflexivity.
    Qed.
    Lemma stock_upd (ss ss' : list (sub X R)) (hs hs' : list (list (Z * X) * H)) i s h w : upd ss i s = Some ss' -> upd hs h w = Some hs' ->
      forall l, put place_eqb (put place_eqb (stock ss hs) (Sub i) (VSub s)) (Halo h) (VHalo w) l = stock ss' hs' l.
    Proof.
      intros H1 H2 [j|k]; unfold put; cbn.
      - destruct (Nat.eqb_spec j i) as [->|Hne]; [rewrite (upd_same _ _ _ _ H1); reflexivity|rewrite (upd_other _ _ _ _ _ H1 Hne); reflexivity].
      - destruct (Nat.eqb_spec k h) as [->|Hne]; [rewrite (upd_same _ _ _ _ H2); reflexivity|rewrite (upd_other _ _ _ _ _ H2 Hne); reflexivity].
    Qed.
    Lemma feed_turn h (st st' : @feed_state X R H) : h < length halos -> (empty h = true -> number nsub o h = f_npro st) -> feed_one centre snap table h st = Some st' ->
      (exists p n, nth_error (fix_all (number nsub o) turns) h = Some p /\ wp place_eqb (place_reg h) (fun l _ => place_reg h l) p n (shelf st) (fun _ x => forall l, x l = shelf st' l)) /\
      f_npro st' = f_npro st + (if empty h then 1 else 0).
    Proof.
      intros Hh Hnum Hf. unfold feed_one in Hf. rewrite fix_nth, turn_nth.
      assert (Hrh : place_reg h (Halo h)) by (split; [exact Hh|auto]). assert (Hro : place_reg h (Sub (owner h))) by (split; [exact Hh|auto]).
      unfold is_empty_group in *. unfold owner in Hro. destruct (nth_error table (S h)) as [g|]; [|discriminate]. destruct (nth_error (f_halos st) h) as [[hp hh]|] eqn:Eh; [|discriminate]. destruct g as [|m0 r].
      - rewrite (Hnum eq_refl) in *. destruct (nth_error (f_subs st) (f_npro st)) as [c|] eqn:Ec; [|discriminate].
        match type of Hf with match upd ?a ?b ?x with _ => _ end = _ => destruct (upd a b x) as [ss'|] eqn:E1; [|discriminate] end.
        match type of Hf with match upd ?a ?b ?x with _ => _ end = _ => destruct (upd a b x) as [hs'|] eqn:E2; [|discriminate] end.
        injection Hf as <-. cbn [f_npro f_subs f_halos]. split; [|lia]. eexists _, 4. split; [cbn; rewrite (Hnum eq_refl); reflexivity|]. unfold UpdateThreads.newborn. cbn [wp].
        exists 3, (VSub c). split; [reflexivity|]. split; [exact Hro|]. split; [cbn; rewrite Ec; reflexivity|]. exists 2, (VHalo (hp, hh)). split; [reflexivity|]. split; [exact Hrh|]. split; [cbn; rewrite Eh; reflexivity|].
        exists 1. split; [reflexivity|]. split; [exact Hro|]. split; [cbn; rewrite Ec; discriminate|]. exists 0. split; [reflexivity|]. split; [exact Hrh|]. split; [unfold put; cbn; rewrite Eh; discriminate|]. split; [reflexivity|]. apply stock_upd; assumption.
      - destruct (nth_error (f_subs st) m0) as [c|] eqn:Ec; [|discriminate]. destruct (s_parts c) as [|p0 pr] eqn:Ep; [discriminate|]. destruct (lead_with (fst p0) hp) as [parts'|] eqn:El; [|discriminate].
        match type of Hf with match upd ?a ?b ?x with _ => _ end = _ => destruct (upd a b x) as [ss'|] eqn:E1; [|discriminate] end.
        match type of Hf with match upd ?a ?b ?x with _ => _ end = _ => destruct (upd a b x) as [hs'|] eqn:E2; [|discriminate] end.
        injection Hf as <-. cbn [f_npro f_subs f_halos]. split; [|lia]. eexists _, 4. split; [cbn; reflexivity|]. unfold UpdateThreads.fed. cbn [wp].
        exists 3, (VSub c). split; [reflexivity|]. split; [exact Hro|]. split; [cbn; rewrite Ec; reflexivity|]. exists 2, (VHalo (hp, hh)). split; [reflexivity|]. split; [exact Hrh|]. split; [cbn; rewrite Eh; reflexivity|].
        rewrite Ep, El. cbn [wp].
        exists 1. split; [reflexivity|]. split; [exact Hro|]. split; [cbn; rewrite Ec; discriminate|]. exists 0. split; [reflexivity|]. split; [exact Hrh|]. split; [unfold put; cbn; rewrite Eh; discriminate|]. split; [reflexivity|]. apply stock_upd; assumption.
    Qed.
    Lemma feed_chain l : forall st st', (forall h, In h l -> h < length halos) -> (forall j h, nth_error (filter empty l) j = Some h -> number nsub o h = f_npro st + j) ->
      for_each l (feed_one centre snap table) st = Some st' ->
      chain place_eqb (fix_all (number nsub o) turns) place_reg l (shelf st) (shelf st') /\ f_npro st' = f_npro st + length (filter empty l).
    Proof.
      induction l as [|h l IH]; intros st st' Hb Hnum Hf; cbn [for_each] in Hf; [injection Hf as <-; split; [constructor; reflexivity|cbn; lia]|].
      destruct (feed_one centre snap table h st) as [st1|] eqn:E1; [|discriminate].
      destruct (feed_turn h st st1) as [(p & n & Hp & HW) Hn]; [apply Hb; left; reflexivity| |exact E1|].
      - intros He. specialize (Hnum 0 h). cbn in Hnum. rewrite He in Hnum. rewrite (Hnum eq_refl). lia.
      - destruct (IH st1 st') as [HC Hn']; [intros k Hk; apply Hb; right; exact Hk| |exact Hf|].
        + intros j k Hj. cbn in Hnum. destruct (empty h); [rewrite (Hnum (S j) k Hj)|rewrite (Hnum j k Hj)]; lia.
        + split; [econstructor; eauto|]. cbn. destruct (empty h); cbn; lia.
    Qed.
    Definition others : list nat := filter (fun h => negb (empty h)) (seq 0 (length halos)).
    Lemma order_perm : Permutation (o ++ others) (seq 0 (length halos)).
    Proof.
      assert (G : forall l, Permutation (filter empty l ++ filter (fun h => negb (empty h)) l) l).
      { induction l as [|h l IH]; [reflexivity|]. cbn. destruct (empty h); cbn; [constructor; exact IH|]. symmetry. apply Permutation_cons_app. symmetry. exact IH. }
      etransitivity; [|apply (G (seq 0 (length halos)))]. apply Permutation_app; [|reflexivity]. rewrite <- takers_empty. exact Ho.
    Qed.
    Lemma order_empty : filter empty (o ++ others) = o.
    Proof.
      rewrite filter_app. assert (A : filter empty o = o).
      { assert (G : forall h, In h o -> empty h = true) by (intros h Hh; apply (Permutation_in _ Ho) in Hh; rewrite takers_empty in Hh; apply filter_In in Hh; tauto). clear - G. induction o as [|h l IH]; [reflexivity|]. cbn. rewrite (G h (or_introl eq_refl)), IH; [reflexivity|]. intros k Hk. apply G. right. exact Hk. }
      assert (B : forall l, filter empty (filter (fun h => negb (empty h)) l) = []). { induction l as [|h l IH]; [reflexivity|]. cbn. destruct (empty h) eqn:E; cbn; [exact IH|rewrite E; exact IH]. }
      unfold others. rewrite A, B, app_nil_r. reflexivity.
    Qed.
    Lemma feed_in_order : exists st, feed_centrals centre snap fresh (o ++ others) table subs halos = Some st /\ f_npro st = nsub + length o /\
      safe_loop place_eqb race (fix_all (number nsub o) turns) (stock (subs ++ repeat (new_sub fresh) (count_empty table)) halos) (shelf st).
    Proof.
      destruct (feed_spec centre snap fresh table subs halos Htable Hdisj Hhead _ order_perm) as (st & Hf & _ & _). exists st. split; [exact Hf|].
      unfold feed_centrals in Hf. edestruct (feed_chain (o ++ others)) as [HC Hn]; [| |exact Hf|].
      - intros h Hh. apply (Permutation_in _ order_perm) in Hh. apply in_seq in Hh. lia.
      - intros j h Hj. rewrite order_empty in Hj. cbn [f_npro]. unfold number. rewrite (place_nth o o_nodup j h Hj). reflexivity.
      - rewrite order_empty in Hn. split; [exact Hn|]. eapply chain_safe; [exact place_ok|exact place_apart| |exact HC]. rewrite fix_length, turns_length. exact order_perm.
    Qed.
  End Order.

  Lemma feed_brief : exists ds, Forall2 brief ds turns.
  Proof.
    assert (G : forall ts : list (@turn place (@content X R H)), (forall t, In t ts -> brief 5 t) -> exists ds, Forall2 brief ds ts).
    { induction ts as [|t ts IH]; intros Hb; [exists []; constructor|]. destruct IH as [ds Hd]; [intros u Hu; apply Hb; right; exact Hu|]. exists (5 :: ds). constructor; [apply Hb; left; reflexivity|exact Hd]. }
    apply G. intros t Ht. apply In_nth_error in Ht as [h Ht]. rewrite turn_nth in Ht. destruct (nth_error table (S h)) as [[|m0 r]|]; [| |discriminate]; injection Ht as <-; cbn.
    - intros c [s|w] [s'|[hp hh]]; cbn; exact I.
    - intros [s|w] [s'|[hp hh]]; cbn; try exact I. destruct (s_parts s) as [|p0 pr]; [exact I|]. destruct (lead_with (fst p0) hp); exact I.
  Qed.

  Lemma feed_loop_safe :
    safe_crew place_eqb turns nsub (stock (subs ++ repeat (new_sub fresh) (count_empty table)) halos)
      (fun c s => exists order st, Permutation order (seq 0 (length halos)) /\ feed_centrals centre snap fresh order table subs halos = Some st /\
         c = f_npro st /\ forall l, s l = shelf st l).
  Proof.
    set (final := fun o => match feed_centrals centre snap fresh (o ++ others) table subs halos with Some st => shelf st | None => fun _ => None end).
    destruct (crew_safe place_eqb turns nsub (stock (subs ++ repeat (new_sub fresh) (count_empty table)) halos) final feed_brief) as [N HN].
    - intros o Ho. destruct (feed_in_order o Ho) as (st & Hf & _ & Hs). unfold final. rewrite Hf. exact Hs.
    - exists N. intros n ts c s HW. destruct (HN n ts c s HW) as (A & B & C & D). split; [exact A|]. split; [exact B|]. split; [exact C|]. intros Hall. destruct (D Hall) as (Hc & o & Ho & Hs).
      destruct (feed_in_order o Ho) as (st & Hf & Hn & _). exists (o ++ others), st. split; [apply order_perm; exact Ho|]. split; [exact Hf|]. split; [rewrite Hc, Hn, (Permutation_length Ho); reflexivity|].
      intros l. rewrite Hs. unfold final. rewrite Hf. reflexivity.
  Qed.
End FeedLoop.
