(** What the work on a snapshot leaves alone, and where particles and sinks come from: read off the model step by step, for
    any outcome that is [Done]. *)
From Coq Require Import List ZArith QArith Bool Lia Sorting.Permutation.
From Verif.Model Require Import ListMem Mpi Run Subhalo Nest Mask Unbind Merge Work Variants.
From Verif.Proofs Require Import ListMemProofs MpiProofs ListExtra.
Import ListNotations.
Local Open Scope nat_scope.

Lemma rbind_done {A B} (r : run A) (f : A -> run B) b : rbind r f = Done b -> exists a, r = Done a /\ f a = Done b.
Proof. destruct r; cbn; intros E; try discriminate. eauto. Qed.
Lemma of_opt_done {A} (o : option A) a : of_opt o = Done a -> o = Some a.
Proof. destruct o; cbn; congruence. Qed.
Lemma run_each_inv {A S} (I : S -> Prop) (body : A -> S -> run S) l : (forall x s s', In x l -> I s -> body x s = Done s' -> I s') ->
  forall s s', I s -> run_each l body s = Done s' -> I s'.
Proof.
  induction l as [|x r IH]; intros HB s s' Hs E; cbn in E; [congruence|]. apply rbind_done in E as (a & E1 & E2).
  refine (IH _ a s' _ E2); [intros y u u' Hy; apply HB; right; exact Hy|eapply HB; [left; reflexivity|exact Hs|exact E1]].
Qed.
Lemma for_each_inv {A S} (I : S -> Prop) (body : A -> S -> option S) l : (forall x s s', In x l -> I s -> body x s = Some s' -> I s') ->
  forall s s', I s -> for_each l body s = Some s' -> I s'.
Proof.
  induction l as [|x r IH]; intros HB s s' Hs E; cbn in E; [congruence|]. destruct (body x s) as [a|] eqn:E1; [|discriminate].
  refine (IH _ a s' _ E); [intros y u u' Hy; apply HB; right; exact Hy|eapply HB; [left; reflexivity|exact Hs|exact E1]].
Qed.

Section S.
  Context {X R En : Type}.
  Local Notation subs_t := (list (sub X R)).
  Variable P : Z * X -> Prop.
  Variable snap : Z.
  Variable n : nat.
  Hypothesis snap_ok : (0 <= snap)%Z.
  Variable base : subs_t.

  (** The members no step of the work writes. *)
  Definition unwritten (b s : sub X R) : Prop :=
    s_track s = s_track b /\ s_host s = s_host b /\ s_depth s = s_depth b /\ s_lastmax s = s_lastmax b /\ s_snapmax s = s_snapmax b /\
    s_snapiso s = s_snapiso b /\ s_birth s = s_birth b.
  Definition sink_known (s : sub X R) : Prop := (s_snapsink s < snap)%Z \/ (s_snapsink s = snap /\ (0 <= s_sink s < Z.of_nat n)%Z).
  Definition good (i : nat) (b s : sub X R) : Prop :=
    unwritten b s /\ Forall P (s_parts s) /\ sink_known s /\ (n <= i -> s_nest s = []).
  Definition inv (l : subs_t) : Prop := length l = length base /\ forall i b s, nth_error base i = Some b -> nth_error l i = Some s -> good i b s.
  (** [s'] may replace [s]. *)
  Definition fits (i : nat) (s s' : sub X R) : Prop := forall b, good i b s -> good i b s'.

  Lemma inv_at l i s : inv l -> nth_error l i = Some s -> exists b, nth_error base i = Some b /\ good i b s.
  Proof. intros [HL H] Hs. destruct (nth_error_in_range base i) as [b Hb]; [rewrite <- HL; eapply nth_error_lt; eauto|]. eauto. Qed.
  Lemma inv_parts l i s : inv l -> nth_error l i = Some s -> Forall P (s_parts s).
  Proof. intros H Hs. destruct (inv_at l i s H Hs) as (b & _ & _ & G & _). exact G. Qed.
  Lemma inv_parts_z l i s : inv l -> zget l i = Some s -> Forall P (s_parts s).
  Proof. intros H Hs. pose proof (zget_some _ _ _ Hs). rewrite zget_nat in Hs by lia. eapply inv_parts; eauto. Qed.
  Lemma inv_upd l i s s' l' : inv l -> nth_error l i = Some s -> fits i s s' -> upd l i s' = Some l' -> inv l'.
  Proof.
    intros [HL H] Hs Hf E. split; [rewrite <- HL; eapply upd_length; eauto|]. intros j b t Hb Ht. destruct (Nat.eq_dec j i) as [->|Hne].
    - rewrite (upd_same _ _ _ _ E) in Ht. injection Ht as <-. apply Hf. eauto.
    - rewrite (upd_other _ _ _ _ _ E) in Ht by congruence. eauto.
  Qed.
  Lemma inv_modify l i f l' : inv l -> (forall s, nth_error l i = Some s -> fits i s (f s)) -> modify l i f = Some l' -> inv l'.
  Proof. intros H Hf. unfold modify. destruct (nth_error l i) as [s|] eqn:Es; [|discriminate]. eapply inv_upd; eauto. Qed.
  Lemma inv_zmodify l i f l' : inv l -> (forall s, zget l i = Some s -> fits (Z.to_nat i) s (f s)) -> zmodify l i f = Some l' -> inv l'.
  Proof. intros H Hf. unfold zmodify. destruct (Z.ltb_spec i 0); [discriminate|]. apply inv_modify; [exact H|]. intros s Hs. apply Hf. rewrite zget_nat by lia. exact Hs. Qed.
  Lemma inv_zupd l i s s' l' : inv l -> zget l i = Some s -> fits (Z.to_nat i) s s' -> zupd l i s' = Some l' -> inv l'.
  Proof. intros H Hs Hf. unfold zupd. destruct (Z.ltb_spec i 0); [discriminate|]. rewrite zget_nat in Hs by lia. eapply inv_upd; eauto. Qed.

  Lemma fits_parts i s l : (Forall P (s_parts s) -> Forall P l) -> fits i s (set_parts l s).
  Proof. intros Hl b (A & B & C & D). split; [exact A|]. split; [exact (Hl B)|]. split; [exact C|exact D]. Qed.
  Lemma fits_nest i s l : i < n -> fits i s (set_nest l s).
  Proof. intros Hi b (A & B & C & D). split; [exact A|]. split; [exact B|]. split; [exact C|]. lia. Qed.
  Lemma fits_trans i a b c : fits i a b -> fits i b c -> fits i a c.
  Proof. unfold fits. auto. Qed.
  Lemma fits_same i s s' : s_track s' = s_track s -> s_host s' = s_host s -> s_depth s' = s_depth s -> s_lastmax s' = s_lastmax s -> s_snapmax s' = s_snapmax s ->
    s_snapiso s' = s_snapiso s -> s_birth s' = s_birth s -> s_nest s' = s_nest s -> (Forall P (s_parts s) -> Forall P (s_parts s')) -> (sink_known s -> sink_known s') -> fits i s s'.
  Proof.
    intros E1 E2 E3 E4 E5 E6 E7 E8 HP HK b ((A1 & A2 & A3 & A4 & A5 & A6 & A7) & B & C & D). split; [unfold unwritten; repeat split; congruence|]. split; [auto|]. split; [auto|]. rewrite E8. exact D.
  Qed.

  (** ** Masking *)
  Section Halos.
    Variables groups heads : list (list nat).
    Hypothesis small : forall c g, In (c :: g) groups -> c < n.
    Lemma glue_one_inv g hs l l' m : (forall c r, g = c :: r -> c < n) -> inv l -> glue_one g hs l = Some (l', m) -> inv l'.
    Proof.
      intros Hg H. unfold glue_one. destruct g as [|c r]; [congruence|]. destruct (nth_error l c) as [s|] eqn:Es; [|discriminate]. destruct hs as [|h0 others]; [discriminate|].
      destruct (modify l c _) as [l1|] eqn:Em; [|discriminate]. intros G. injection G as <- _. eapply inv_modify; [exact H| |exact Em]. intros s0 _. apply fits_nest. eapply Hg; reflexivity.
    Qed.
    Lemma unglue_one_inv g k l l' : (forall c r, g = c :: r -> c < n) -> inv l -> unglue_one g k l = Some l' -> inv l'.
    Proof.
      intros Hg H. unfold unglue_one. destruct g as [|c r]; [congruence|]. destruct (nth_error l c) as [s|] eqn:Es; [|discriminate]. intros Em. eapply inv_modify; [exact H| |exact Em]. intros s0 _. apply fits_nest. eapply Hg; reflexivity.
    Qed.
    Lemma glue_inv : forall gs hs l l' ms, (forall c g, In (c :: g) gs -> c < n) -> inv l -> glue gs hs l = Some (l', ms) -> inv l'.
    Proof.
      induction gs as [|g gs IH]; intros hs l l' ms Hs H E0; cbn in E0; [congruence|]. destruct hs as [|h hr]; [discriminate|]. destruct (glue_one g h l) as [[l1 m]|] eqn:E1; [|discriminate].
      destruct (glue gs hr l1) as [[l2 ns]|] eqn:E2; [|discriminate]. injection E0 as <- _. eapply IH; [intros c r Hc; apply (Hs c r); right; exact Hc| |exact E2].
      eapply glue_one_inv; [|exact H|exact E1]. intros c r ->. apply (Hs c r). left. reflexivity.
    Qed.
    Lemma unglue_inv : forall gs ms l l', (forall c g, In (c :: g) gs -> c < n) -> inv l -> unglue gs ms l = Some l' -> inv l'.
    Proof.
      induction gs as [|g gs IH]; intros ms l l' Hs H E0; cbn in E0; [congruence|]. destruct ms as [|m mr]; [discriminate|]. destruct (unglue_one g m l) as [l1|] eqn:E1; [|discriminate].
      eapply IH; [intros c r Hc; apply (Hs c r); right; exact Hc| |exact E0]. eapply unglue_one_inv; [|exact H|exact E1]. intros c r ->. apply (Hs c r). left. reflexivity.
    Qed.
    Lemma over_halos_inv body order l l' : (forall c l l', inv l -> body c l = Done l' -> inv l') -> inv l -> over_halos body order groups heads l = Done l' -> inv l'.
    Proof.
      intros HB H. unfold over_halos. apply run_each_inv; [|exact H]. intros h a a' _ Ha E0. destruct (nth_error groups h) as [g|] eqn:Eg; [|discriminate]. destruct (nth_error heads h) as [hs|]; [|discriminate].
      unfold halo_work in E0. destruct g as [|c r]; [congruence|]. assert (Hc : forall c0 r0, c :: r = c0 :: r0 -> c0 < n) by (intros c0 r0 G; injection G as <- <-; apply (small c r); eapply nth_error_In; eauto).
      destruct (glue_one (c :: r) hs a) as [[a1 k]|] eqn:E1; [|discriminate]. apply rbind_done in E0 as (a2 & E2 & E3). apply of_opt_done in E3.
      eapply unglue_one_inv; [exact Hc| |exact E3]. eapply HB; [|exact E2]. eapply glue_one_inv; [exact Hc|exact Ha|exact E1].
    Qed.
    Lemma mask_parts_sub (l : list (Z * X)) : forall excl, incl (snd (mask_parts excl l)) l.
    Proof.
      induction l as [|p l IH]; intros excl; cbn [mask_parts]; [intros x []|]. destruct (existsb _ excl); [intros x Hx; right; eapply IH; exact Hx|].
      specialize (IH (fst p :: excl)). destruct (mask_parts (fst p :: excl) l) as [e k]. cbn in *. intros x [<-|Hx]; [left; reflexivity|right; apply IH; exact Hx].
    Qed.
    Lemma Forall_incl (l l' : list (Z * X)) : incl l l' -> Forall P l' -> Forall P l.
    Proof. intros Hi H. rewrite Forall_forall in *. auto. Qed.
    Lemma mask_inv fuel : forall p st st', inv (snd st) -> mask fuel p st = Done st' -> inv (snd st').
    Proof.
      induction fuel as [|f IH]; intros p st st' H E0; cbn in E0; [discriminate|]. destruct (zget (snd st) p) as [s|]; [|discriminate]. apply rbind_done in E0 as (st1 & E1 & E2).
      assert (H1 : inv (snd st1)) by (revert E1; apply (run_each_inv (fun st => inv (snd st))); [intros; eapply IH; eauto|exact H]).
      destruct (zget (snd st1) p) as [s1|] eqn:Es; [|discriminate]. destruct (s_nbound s1 <=? 1); [injection E2 as <-; exact H1|].
      destruct (mask_parts (fst st1) (s_parts s1)) as [ex kept] eqn:Em. apply rbind_done in E2 as (a & E3 & E4). apply of_opt_done in E3. injection E4 as <-. cbn. eapply inv_zmodify; [exact H1| |exact E3].
      intros s0 Hs0. apply fits_parts. intros _. eapply Forall_incl; [|eapply inv_parts_z; [exact H1|exact Es]]. pose proof (mask_parts_sub (s_parts s1) (fst st1)) as G. rewrite Em in G. exact G.
    Qed.
    Lemma mask_halos_inv fuel order l l' : inv l -> mask_halos fuel order groups heads l = Done l' -> inv l'.
    Proof.
      intros H. unfold mask_halos. apply over_halos_inv; [|exact H]. intros c a a' Ha E0. apply rbind_done in E0 as (st & E1 & E2). injection E2 as <-. eapply mask_inv; [|exact E1]. exact Ha.
    Qed.
  End Halos.

  (** ** Unbinding *)
  Variables neg pos : En -> bool.
  Variable sorter : sort_site -> list (nat * En) -> list (nat * En).
  Variable shuffle : list (Z * X) -> list (Z * X).
  Variable energy : list (Z * X) * R -> nat -> list (nat * En) -> nat -> En.
  Variable inner : list (Z * X) * R -> list (nat * En) -> nat -> En.
  Variable no_energy : En.
  Variable rest_of : list (Z * X) -> nat -> R -> R.
  Variable pmass : Z * X -> Q.
  Variables (min_part : nat) (converged : nat -> nat -> bool) (max_sample : nat) (refine : bool) (allowed : nat -> nat).
  Hypothesis shuffle_ok : forall l, Permutation (shuffle l) l.
  Local Notation unbind := (unbind neg pos sorter shuffle energy inner no_energy rest_of pmass min_part converged max_sample refine snap).
  Local Notation recursive_unbind := (recursive_with (Unbind.unbind neg pos sorter shuffle energy inner no_energy rest_of pmass min_part converged max_sample refine snap)).
  Local Notation unbind_at := (unbind_at_with (Unbind.unbind neg pos sorter shuffle energy inner no_energy rest_of pmass min_part converged max_sample refine snap)).
  Local Notation refine_particles := (refine_particles neg pos sorter shuffle energy inner no_energy rest_of pmass min_part converged max_sample refine allowed snap).

  Lemma to_front_incl id (l : list (Z * X)) : incl (to_front id l) l.
  Proof.
    unfold to_front. destruct (find_id id l) as [i|]; [|apply incl_refl]. destruct (nth_error l i) as [p|] eqn:Ep; [|apply incl_refl]. destruct (nth_error l 0) as [q|] eqn:Eq; [|apply incl_refl].
    destruct (upd l i q) as [l1|] eqn:E1; [|apply incl_refl]. destruct (upd l1 0 p) as [l2|] eqn:E2; [|apply incl_refl].
    assert (G : forall (a b : list (Z * X)) j x, upd a j x = Some b -> incl b (x :: a)).
    { clear. intros a b j x E0 y Hy. apply In_nth_error in Hy as [k Hk]. destruct (Nat.eq_dec k j) as [->|Hne]; [rewrite (upd_same _ _ _ _ E0) in Hk; injection Hk as ->; left; reflexivity|].
      rewrite (upd_other _ _ _ _ _ E0) in Hk by congruence. right. eapply nth_error_In; eauto. }
    intros x Hx. apply (G _ _ _ _ E2) in Hx as [<-|Hx]; [eapply nth_error_In; eauto|]. apply (G _ _ _ _ E1) in Hx as [<-|Hx]; [eapply nth_error_In; eauto|exact Hx].
  Qed.
  Lemma die_fits i s : fits i s (die snap s).
  Proof. unfold die. destruct (alive s); [|intros b H; exact H]. apply fits_same; auto. Qed.
  Lemma unbind_fits i s s' : unbind s = Done s' -> fits i s s'.
  Proof.
    unfold Unbind.unbind, unbind_by. set (s0 := if length (s_parts s) <? min_part then die snap s else s). assert (H0 : fits i s s0) by (unfold s0; destruct (_ <? _); [apply die_fits|intros b H; exact H]).
    assert (Ep : s_parts s0 = s_parts s) by (unfold s0, die; destruct (_ <? _); [destruct (alive s)|]; reflexivity). clearbody s0. destruct (s_parts s0) as [|old [|p2 rest]] eqn:El.
    - intros G. injection G as <-. eapply fits_trans; [exact H0|]. apply fits_same; cbn; auto.
    - intros G. injection G as <-. eapply fits_trans; [exact H0|]. apply fits_same; cbn; auto.
    - set (parts := if _ && _ then shuffle (old :: p2 :: rest) else old :: p2 :: rest).
      assert (Hpm : Permutation parts (s_parts s0)) by (unfold parts; rewrite El; destruct (_ && _); [apply shuffle_ok|reflexivity]). clearbody parts.
      assert (HPp : Forall P (s_parts s0) -> Forall P parts) by (intros G; eapply Permutation_Forall; [apply Permutation_sym; exact Hpm|exact G]).
      intros E0. apply rbind_done in E0 as (e & _ & E2). destruct e as [|l nb].
      + injection E2 as <-. eapply fits_trans; [exact H0|]. unfold die. destruct (alive (set_parts parts s0)); apply fits_same; cbn; auto;
          intros G; (eapply Forall_incl; [apply to_front_incl|apply HPp; exact G]).
      + destruct (mapM _ l) as [parts'|] eqn:Em; [|discriminate]. injection E2 as <-. eapply fits_trans; [exact H0|].
        assert (Hin : incl parts' parts). { intros x Hx. apply In_nth_error in Hx as [k Hk]. destruct (nth_error l k) as [[j y]|] eqn:Ek; [|apply nth_error_None in Ek; apply mapM_length in Em; apply nth_error_lt in Hk; lia].
          destruct (mapM_nth _ _ _ _ _ Em Ek) as (x' & E3 & E4). cbn in E3. assert (x' = x) by congruence. subst. eapply nth_error_In; eauto. }
        destruct (trapped _); apply fits_same; cbn; auto; try (intros G; eapply Forall_incl; [exact Hin|apply HPp; exact G]). intros _. left. cbn. lia.
  Qed.
  Lemma firstn_incl {A} k (l : list A) : incl (firstn k l) l.
  Proof. intros x Hx. rewrite <- (firstn_skipn k l). apply in_or_app. left. exact Hx. Qed.
  Lemma truncate_fits i s : fits i s (truncate allowed s).
  Proof. unfold truncate. apply fits_parts. intros G. eapply Forall_incl; [apply firstn_incl|exact G]. Qed.
  Lemma inv_map f l : (forall i s, fits i s (f s)) -> inv l -> inv (map f l).
  Proof. intros Hf [HL H]. split; [rewrite map_length; exact HL|]. intros i b s Hb Hs. rewrite nth_error_map in Hs. destruct (nth_error l i) as [t|] eqn:Et; [|discriminate]. injection Hs as <-. apply Hf. eauto. Qed.
  Lemma recursive_unbind_inv fuel : forall p l l', inv l -> recursive_unbind fuel p l = Done l' -> inv l'.
  Proof.
    induction fuel as [|f IH]; intros p l l' H E0; cbn [recursive_with] in E0; [discriminate|]. destruct (zget l p) as [s|] eqn:Es; [|discriminate]. apply rbind_done in E0 as (l1 & E1 & E2).
    assert (H1 : inv l1).
    { revert E1. apply run_each_inv; [|exact H]. intros c a a' _ Ha E0. apply rbind_done in E0 as (a1 & Ea & Eb). assert (Ha1 : inv a1) by (eapply IH; eauto).
      destruct (zget a1 c) as [sc|] eqn:Ec; [|discriminate]. destruct (_ <? _); [discriminate|]. apply of_opt_done in Eb. eapply inv_zmodify; [exact Ha1| |exact Eb]. intros s0 _. apply fits_parts. intros G.
      apply Forall_app. split; [exact G|]. eapply Forall_incl; [|eapply inv_parts_z; [exact Ha1|exact Ec]]. intros x Hx. rewrite <- (firstn_skipn (s_nbound sc) (s_parts sc)). apply in_or_app. right. exact Hx. }
    destruct (zget l1 p) as [s1|] eqn:Es1; [|discriminate]. apply rbind_done in E2 as (s2 & E3 & E4). apply of_opt_done in E4. eapply inv_zmodify; [exact H1| |exact E4].
    intros s0 Hs0. assert (s0 = s1) by congruence. subst s0. destruct (s_nbound s <=? 1).
    - apply (unbind_fits (Z.to_nat p)) in E3. eapply fits_trans; [|eapply fits_trans; [exact E3|]].
      + apply fits_parts. intros _. eapply inv_parts_z; [exact H|exact Es].
      + apply fits_parts. intros _. eapply inv_parts_z; [exact H1|exact Es1].
    - apply unbind_fits. exact E3.
  Qed.
  Section Table.
  Variables table heads : list (list nat).
  Hypothesis small : forall c g, In (c :: g) (tl table) -> c < n.
  Lemma refine_inv fuel order order2 l l' : inv l -> refine_particles fuel order order2 table heads l = Done l' -> inv l'.
  Proof.
    intros H E0. unfold Unbind.refine_particles, refine_with in E0. apply rbind_done in E0 as (a & E1 & E2). apply rbind_done in E2 as (b & E2 & E3). injection E3 as <-. apply inv_map; [apply truncate_fits|].
    assert (Ha : inv a) by (eapply over_halos_inv; [exact small| |exact H|exact E1]; intros; eapply recursive_unbind_inv; eauto).
    revert E2. apply run_each_inv; [|exact Ha]. intros i u u' _ Hu E0. unfold unbind_at_with in E0. destruct (nth_error u i) as [s|] eqn:Es; [|discriminate]. apply rbind_done in E0 as (s' & E4 & E5). apply of_opt_done in E5.
    eapply inv_modify; [exact Hu| |exact E5]. intros s0 Hs0. assert (s0 = s) by congruence. subst. eapply unbind_fits; exact E4.
  Qed.

  (** ** Merging *)
  Variable near : nat * list (Z * X) * R -> nat * list (Z * X) * R -> bool.
  Lemma fill_hosts_small order l hosts : inv l -> length base = length l -> fill_hosts order l = Some hosts -> forall c h, zget hosts c = Some h -> (h < Z.of_nat n)%Z.
  Proof.
    intros H HL. unfold fill_hosts. apply (for_each_inv (fun hosts => forall c h, zget hosts c = Some h -> (h < Z.of_nat n)%Z)).
    - intros i hs hs' _ Hh E0. destruct (nth_error l i) as [s|] eqn:Es; [|discriminate]. revert Hh E0. apply (for_each_inv (fun hosts => forall c h, zget hosts c = Some h -> (h < Z.of_nat n)%Z)).
      intros c a a' Hc Ha E0 j h Hj. assert (Hi : i < n). { destruct (inv_at l i s H Es) as (b & _ & _ & _ & _ & Hn). destruct (Nat.lt_ge_cases i n) as [|Hge]; [assumption|]. rewrite (Hn Hge) in Hc. destruct Hc. }
      unfold zupd in E0. destruct (Z.ltb_spec c 0); [discriminate|]. pose proof (zget_some _ _ _ Hj) as Hr. rewrite zget_nat in Hj by lia. destruct (Nat.eq_dec (Z.to_nat j) (Z.to_nat c)) as [Ej|Ej].
      + rewrite Ej, (upd_same _ _ _ _ E0) in Hj. injection Hj as <-. lia.
      + rewrite (upd_other _ _ _ _ _ E0) in Hj by congruence. apply (Ha j). rewrite zget_nat by lia. exact Hj.
    - intros c h Hc. pose proof (zget_some _ _ _ Hc) as Hr. rewrite zget_nat in Hc by lia. apply nth_error_In in Hc. apply repeat_spec in Hc. subst. lia.
  Qed.
  Lemma find_sink_small hosts cores subs sat : (forall c h, zget hosts c = Some h -> (h < Z.of_nat n)%Z) -> forall fuel h k, (h < Z.of_nat n)%Z ->
    find_sink near fuel hosts cores subs sat h = Done (Some k) -> (0 <= k < Z.of_nat n)%Z.
  Proof.
    intros Hh. induction fuel as [|f IH]; intros h k Hlt E0; cbn [find_sink] in E0; destruct (Z.ltb_spec h 0); try discriminate. destruct (zget subs h) as [host|]; [|discriminate]. destruct (zget cores h) as [c|]; [|discriminate].
    destruct (zget hosts h) as [up|] eqn:Eu; [|discriminate]. destruct (_ && _); [injection E0 as <-; lia|]. eapply IH; [|exact E0]. eapply Hh; exact Eu.
  Qed.
  Lemma detect_inv fuel o1 o2 l d : inv l -> detect_traps near snap fuel o1 o2 l = Done d -> inv (fst d).
  Proof.
    intros H. unfold detect_traps. destruct (fill_hosts o1 l) as [hosts|] eqn:Eh; [|discriminate]. assert (Hh := fill_hosts_small o1 l hosts H (eq_sym (proj1 H)) Eh).
    apply (run_each_inv (fun d => inv (fst d))); [|exact H]. intros i st st' _ Hst E0. unfold detect_one in E0. destruct (nth_error (fst st) i) as [s|] eqn:Es; [|discriminate]. destruct (nth_error hosts i) as [h|] eqn:Ei; [|discriminate].
    destruct (trapped s); [injection E0 as <-; exact Hst|]. apply rbind_done in E0 as (r & E1 & E2). destruct r as [k|]; [|injection E2 as <-; exact Hst].
    destruct (modify (fst st) i (set_sink k snap)) as [l1|] eqn:Em; [|discriminate]. destruct (if (1 <? s_nbound s)%nat then _ else _) as [m|]; [|discriminate]. injection E2 as <-. cbn.
    assert (Hk : (0 <= k < Z.of_nat n)%Z) by (eapply find_sink_small; [exact Hh| |exact E1]; apply (Hh (Z.of_nat i)); rewrite zget_nat, Nat2Z.id by lia; exact Ei).
    eapply inv_modify; [exact Hst| |exact Em]. intros s0 _. apply fits_same; cbn; auto. intros _. right. cbn. auto.
  Qed.
  Lemma new_parts_incl (a b : list (Z * X)) : incl (new_parts a b) b.
  Proof. unfold new_parts. apply mask_parts_sub. Qed.
  Lemma merge_at_inv p l l' : inv l -> merge_at pmass snap p l = Done l' -> inv l'.
  Proof.
    intros H. unfold merge_at. destruct (zget l p) as [s|] eqn:Es; [|discriminate]. destruct (trapped s && alive s) eqn:Eta; [|congruence]. destruct (zget l (s_sink s)) as [host|] eqn:Eh; [|discriminate].
    unfold merge_to. destruct (s_nbound s <=? 1).
    - intros E0. apply rbind_done in E0 as (l1 & E1 & E2). apply of_opt_done in E1, E2. assert (H1 : inv l1) by (eapply inv_zupd; [exact H|exact Eh| |exact E1]; intros b G; exact G).
      unfold zupd in E1, E2. destruct (Z.ltb_spec p 0); [discriminate|]. destruct (Z.ltb_spec (s_sink s) 0); [discriminate|].
      destruct (nth_error_in_range l1 (Z.to_nat p)) as [t Ht]; [rewrite (upd_length _ _ _ _ E1); rewrite zget_nat in Es by lia; eapply nth_error_lt; eauto|].
      eapply inv_upd; [exact H1|exact Ht| |exact E2]. assert (Et : t = s). { rewrite zget_nat in Es, Eh by lia. destruct (Nat.eq_dec (Z.to_nat p) (Z.to_nat (s_sink s))) as [Eq|Ne]; [rewrite Eq, (upd_same _ _ _ _ E1) in Ht; rewrite Eq in Es; congruence|rewrite (upd_other _ _ _ _ _ E1) in Ht by congruence; congruence]. }
      subst t. apply fits_same; auto.
    - destruct (s_parts s) as [|x r] eqn:Ep; [discriminate|]. intros E0. apply rbind_done in E0 as (l1 & E1 & E2). apply of_opt_done in E1, E2.
      assert (HPs : Forall P (s_parts s)) by (eapply inv_parts_z; [exact H|exact Es]).
      assert (H1 : inv l1). { eapply inv_zupd; [exact H|exact Eh| |exact E1]. apply fits_same; cbn; auto. intros G. apply Forall_app. split; [exact G|]. eapply Forall_incl; [apply new_parts_incl|rewrite Ep in HPs; exact HPs]. }
      unfold zupd in E1, E2. destruct (Z.ltb_spec p 0); [discriminate|]. destruct (Z.ltb_spec (s_sink s) 0); [discriminate|].
      destruct (nth_error_in_range l1 (Z.to_nat p)) as [t Ht]; [rewrite (upd_length _ _ _ _ E1); rewrite zget_nat in Es by lia; eapply nth_error_lt; eauto|].
      eapply inv_upd; [exact H1|exact Ht| |exact E2]. rewrite zget_nat in Es, Eh by lia.
      assert (HPx : P x) by (rewrite Ep in HPs; inversion HPs; assumption).
      destruct (Nat.eq_dec (Z.to_nat p) (Z.to_nat (s_sink s))) as [Eq|Ne].
      + rewrite Eq, (upd_same _ _ _ _ E1) in Ht. rewrite Eq in Es. assert (host = s) by congruence. subst host. injection Ht as <-. apply fits_same; cbn; auto.
      + rewrite (upd_other _ _ _ _ _ E1) in Ht by congruence. assert (t = s) by congruence. subst t. apply fits_same; cbn; auto.
  Qed.
  Lemma merge_rec_inv fuel : forall p l l', inv l -> merge_rec pmass snap fuel p l = Done l' -> inv l'.
  Proof.
    induction fuel as [|f IH]; intros p l l' H E0; cbn [merge_rec] in E0; [discriminate|]. destruct (zget l p) as [s|]; [|discriminate]. apply rbind_done in E0 as (l1 & E1 & E2). eapply merge_at_inv; [|exact E2].
    revert E1. apply run_each_inv; [intros; eapply IH; eauto|exact H].
  Qed.
  Lemma unbind_merged_inv order m l l' : length m = length l -> inv l -> unbind_merged unbind (truncate allowed) order m l = Done l' -> inv l'.
  Proof.
    intros Hm H E0. unfold unbind_merged in E0. apply rbind_done in E0 as (l1 & E1 & E2). injection E2 as <-.
    assert (H1 : inv l1). { revert E1. apply run_each_inv; [|exact H]. intros i a a' _ Ha E0. destruct (nth_error m i) as [mi|]; [|discriminate]. destruct (nth_error a i) as [s|] eqn:Es; [|discriminate].
      destruct mi; [|congruence]. apply rbind_done in E0 as (s' & E2 & E3). apply of_opt_done in E3. eapply inv_upd; [exact Ha|exact Es| |exact E3]. eapply unbind_fits; exact E2. }
    destruct H1 as [L1 H1]. split; [rewrite map_length, combine_length; destruct H as [L _]; lia|]. intros i b s Hb Hs. rewrite nth_error_map in Hs. destruct (nth_error (combine l1 m) i) as [[t k]|] eqn:Ec; [|discriminate].
    injection Hs as <-. apply combine_nth_error_inv in Ec as [Ec _]. cbn. destruct k; [apply truncate_fits|]; eauto.
  Qed.
  Lemma detect_flags fuel o1 o2 l d : detect_traps near snap fuel o1 o2 l = Done d -> length (snd d) = length l.
  Proof.
    unfold detect_traps. destruct (fill_hosts o1 l) as [hosts|]; [|discriminate]. apply (run_each_inv (fun d => length (snd d) = length l)); [|cbn; apply repeat_length].
    intros i st st' _ Hst E0. unfold detect_one in E0. destruct (nth_error (fst st) i) as [s|]; [|discriminate]. destruct (nth_error hosts i) as [h|]; [|discriminate].
    destruct (trapped s); [injection E0 as <-; exact Hst|]. apply rbind_done in E0 as (r & E1 & E2). destruct r as [k|]; [|injection E2 as <-; exact Hst].
    destruct (modify (fst st) i (set_sink k snap)) as [l1|]; [|discriminate]. destruct (1 <? s_nbound s)%nat.
    - destruct (zupd (snd st) k true) as [m|] eqn:Em; [|discriminate]. injection E2 as <-. cbn. unfold zupd in Em. destruct (_ <? 0)%Z; [discriminate|]. rewrite (upd_length _ _ _ _ Em). exact Hst.
    - injection E2 as <-. exact Hst.
  Qed.
  Lemma merge_inv mt fuel o1 o2 o3 o4 l l' : inv l -> merge_subhalos near pmass snap unbind (truncate allowed) mt fuel o1 o2 o3 o4 table heads l = Done l' -> inv l'.
  Proof.
    intros H. unfold merge_subhalos. destruct (glue (tl table) heads l) as [[gl szs]|] eqn:Eg; [|discriminate]. intros E0. apply rbind_done in E0 as (d & E1 & E2). apply rbind_done in E2 as (l2 & E2 & E3). apply of_opt_done in E3.
    assert (Hg : inv gl) by (eapply glue_inv; [exact small|exact H|exact Eg]). assert (Hd := detect_inv _ _ _ _ _ Hg E1). assert (HF := detect_flags _ _ _ _ _ E1).
    eapply unglue_inv; [exact small| |exact E3]. destruct mt; [|injection E2 as <-; exact Hd]. apply rbind_done in E2 as (l3 & E4 & E5).
    assert (H3 : inv l3). { revert E4. apply run_each_inv; [|exact Hd]. intros h a a' _ Ha E0. destruct (nth_error (tl table) h) as [[|c r]|]; [congruence| |discriminate]. eapply merge_rec_inv; eauto. }
    eapply unbind_merged_inv; [|exact H3|exact E5]. destruct H3 as [L3 _], Hg as [Lg _]. lia.
  Qed.
  Lemma work_inv mt fuel oh oh2 os o1 o2 o3 o4 l l' : inv l ->
    work neg pos sorter shuffle energy inner no_energy rest_of pmass min_part converged max_sample refine allowed snap near mt fuel oh oh2 os o1 o2 o3 o4 table heads l = Done l' -> inv l'.
  Proof.
    intros H E0. unfold work, work_with in E0. apply rbind_done in E0 as (a & E1 & E2). apply rbind_done in E2 as (b & E2 & E3). eapply merge_inv; [|exact E3]. eapply refine_inv; [|exact E2]. eapply mask_halos_inv; [exact small|exact H|exact E1].
  Qed.

  (** ** The same with inclusive masses *)
  Lemma merge_at_inclusive_inv p l l' : inv l -> merge_at_inclusive pmass snap p l = Done l' -> inv l'.
  Proof.
    intros H. unfold merge_at_inclusive. destruct (zget l p) as [s|] eqn:Es; [|discriminate]. destruct (trapped s && alive s); [|congruence]. destruct (zget l (s_sink s)); [|discriminate].
    unfold merge_to_inclusive. assert (HPs : Forall P (s_parts s)) by (eapply inv_parts_z; [exact H|exact Es]). destruct (s_nbound s <=? 1); [|destruct (s_parts s) as [|x r] eqn:Ep; [discriminate|]];
      intros E0; apply of_opt_done in E0; (eapply inv_zupd; [exact H|exact Es| |exact E0]); apply fits_same; cbn; auto.
    intros _. inversion HPs; auto.
  Qed.
  Lemma merge_rec_inclusive_inv fuel : forall p l l', inv l -> merge_rec_inclusive pmass snap fuel p l = Done l' -> inv l'.
  Proof.
    induction fuel as [|f IH]; intros p l l' H E0; cbn [merge_rec_inclusive] in E0; [discriminate|]. destruct (zget l p) as [s|]; [|discriminate]. apply rbind_done in E0 as (l1 & E1 & E2). eapply merge_at_inclusive_inv; [|exact E2].
    revert E1. apply run_each_inv; [intros; eapply IH; eauto|exact H].
  Qed.
  Lemma refine_inclusive_inv order l l' : inv l -> refine_inclusive unbind (truncate allowed) order l = Done l' -> inv l'.
  Proof.
    intros H. unfold refine_inclusive. apply run_each_inv; [|exact H]. intros i a a' _ Ha E0. destruct (nth_error a i) as [s|] eqn:Es; [|discriminate]. apply rbind_done in E0 as (s' & E1 & E2). apply of_opt_done in E2.
    eapply inv_upd; [exact Ha|exact Es| |exact E2]. eapply fits_trans; [eapply unbind_fits; exact E1|apply truncate_fits].
  Qed.
  Lemma work_inclusive_inv mt fuel os o1 o2 o3 o4 l l' : inv l -> work_inclusive unbind (truncate allowed) near pmass snap mt fuel os o1 o2 o3 o4 table heads l = Done l' -> inv l'.
  Proof.
    intros H0 E. unfold work_inclusive in E. apply rbind_done in E as (b & E1 & E). assert (H : inv b) by (eapply refine_inclusive_inv; [exact H0|exact E1]). clear E1 H0. revert E.
    unfold merge_inclusive. destruct (glue (tl table) heads b) as [[gl szs]|] eqn:Eg; [|discriminate]. intros E0. apply rbind_done in E0 as (d & E1 & E2). apply rbind_done in E2 as (l2 & E2 & E3). apply of_opt_done in E3.
    assert (Hg : inv gl) by (eapply glue_inv; [exact small|exact H|exact Eg]). assert (Hd := detect_inv _ _ _ _ _ Hg E1). assert (HF := detect_flags _ _ _ _ _ E1).
    eapply unglue_inv; [exact small| |exact E3]. destruct mt; [|injection E2 as <-; exact Hd]. apply rbind_done in E2 as (l3 & E4 & E5).
    assert (H3 : inv l3). { revert E4. apply run_each_inv; [|exact Hd]. intros h a a' _ Ha E0. destruct (nth_error (tl table) h) as [[|c r]|]; [congruence| |discriminate]. eapply merge_rec_inclusive_inv; eauto. }
    eapply unbind_merged_inv; [|exact H3|exact E5]. destruct H3 as [L3 _], Hg as [Lg _]. lia.
  Qed.
  End Table.
End S.
