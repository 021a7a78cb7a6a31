(** The parallel loops of PurgeMostBoundParticles, GlueHeadNests and UnglueHeadNests stay apart. *)
From Coq Require Import List ZArith Bool Lia Sorting.Permutation.
From Verif.Model Require Import ListMem Run Subhalo Nest Threads TableThreads.
From Verif.Model Require Purge.
From Verif.Spec Require Import Races.
From Verif.Spec Require Purge.
From Verif.Proofs Require Import ListMemProofs ListExtra NestProofs ThreadProofs WalkProofs UpdateLoops GlueProofs.
From Verif.Proofs Require PurgeProofs.
Import ListNotations.
Local Open Scope Z_scope.

Lemma concat_apart {A} (ls : list (list A)) t u g h x : NoDup (concat ls) -> nth_error ls t = Some g -> nth_error ls u = Some h -> In x g -> In x h -> t = u.
Proof.
  revert t u. induction ls as [|l ls IH]; intros t u ND Eg Eh Hg Hh; [destruct t; discriminate|]. cbn in ND.
  assert (Hrest : forall k y, nth_error ls k = Some y -> In x y -> ~ In x l).
  { intros k y Ey Hy Hl. eapply NoDup_app_disjoint; [exact ND|exact Hl|]. apply in_concat. exists y. split; [eapply nth_error_In, Ey|exact Hy]. }
  destruct t as [|t], u as [|u]; cbn in Eg, Eh; [reflexivity| | |].
  - injection Eg as <-. exfalso. exact (Hrest _ _ Eh Hh Hg).
  - injection Eh as <-. exfalso. exact (Hrest _ _ Eg Hg Hh).
  - f_equal. apply (IH t u); auto. eapply NoDup_app_remove_l, ND.
Qed.

Lemma zupd_of_nat {A} (l : list A) i x : zupd l (Z.of_nat i) x = upd l i x.
Proof. unfold zupd. destruct (Z.ltb_spec (Z.of_nat i) 0); [lia|]. rewrite Nat2Z.id. reflexivity. Qed.

Section Purge.
  Context {P V : Type}.
  Variables (p_id : P -> Z) (p_pos p_vel : P -> V).
  Local Notation sub := (Purge.sub P V).
  Local Notation turn := (Purge.turn p_id p_pos p_vel).
  Lemma turn_run m (l l' : list sub) ex ex' : turn m (l, ex) = Some (l', ex') -> lexec (purge_member p_id p_pos p_vel m ex) l = Some (l', ex') /\ length l' = length l /\ (m < length l)%nat.
  Proof.
    unfold Purge.turn, purge_member. cbn [lexec]. rewrite zget_of_nat. destruct (nth_error l m) as [s|] eqn:Es; [|discriminate]. assert (Hm := nth_error_lt _ _ _ Es). destruct (1 <? Purge.u_nbound s) eqn:En.
    - destruct (Purge.promote _ _ _ ex s 0 _) as [s'|]; [|discriminate]. destruct (upd l m s') as [l1|] eqn:Eu; [|discriminate]. intros E. injection E as <- <-. cbn [lexec]. rewrite zupd_of_nat, Eu. split; [reflexivity|]. split; [eapply upd_length; eauto|exact Hm].
    - intros E. injection E as <- <-. auto.
  Qed.
  Lemma members_run g : forall (l l' : list sub) ex ex', for_each g turn (l, ex) = Some (l', ex') ->
    lexec (pfold g (purge_member p_id p_pos p_vel) ex) l = Some (l', ex') /\ length l' = length l /\ forall m, In m g -> (m < length l)%nat.
  Proof.
    induction g as [|m g IH]; intros l l' ex ex' E; cbn [for_each] in E.
    - injection E as <- <-. cbn. split; [reflexivity|]. split; [reflexivity|]. intros ? [].
    - destruct (turn m (l, ex)) as [[l1 ex1]|] eqn:E1; [|discriminate]. destruct (turn_run _ _ _ _ _ E1) as (X1 & L1 & M1). destruct (IH _ _ _ _ E) as (X2 & L2 & M2).
      cbn [pfold]. rewrite lexec_bind, X1. split; [exact X2|]. split; [congruence|]. intros k [<-|Hk]; [exact M1|]. rewrite <- L1. apply M2. exact Hk.
  Qed.
  Lemma reads_run g (l : list sub) : (forall m, In m g -> (m < length l)%nat) -> lexec (peach g (fun m => Get (Z.of_nat m) (fun _ => Ret tt))) l = Some (l, tt).
  Proof.
    unfold peach. induction g as [|m g IH]; intros H; [reflexivity|]. cbn [pfold lexec pbind]. rewrite zget_of_nat. destruct (nth_error_in_range l m) as [s ->]; [apply H; left; reflexivity|]. apply IH. intros k Hk. apply H. right. exact Hk.
  Qed.
  Lemma purge_run g (l l' : list sub) : Purge.purge_group p_id p_pos p_vel g l = Some l' -> lexec (purge_turn p_id p_pos p_vel g) l = Some (l', tt).
  Proof.
    unfold Purge.purge_group. destruct (for_each (rev g) turn (l, [])) as [[l1 ex1]|] eqn:E; [|discriminate]. intros E'. injection E' as ->. destruct (members_run _ _ _ _ _ E) as (X & _ & M).
    unfold purge_turn. rewrite lexec_bind, reads_run by (intros m Hm; apply M, in_rev; rewrite rev_involutive; exact Hm). rewrite lexec_bind, X. reflexivity.
  Qed.
  Lemma pfold_foot {A B} (T : Z -> Prop) (body : B -> A -> @prog Z sub A) xs : (forall x a cur, In x xs -> foot T (body x a) cur (fun _ _ => True)) -> forall a cur, foot T (pfold xs body a) cur (fun _ _ => True).
  Proof. induction xs as [|x xs IH]; intros H a cur; [exact Logic.I|]. cbn [pfold]. apply foot_bind. eapply foot_mono; [|apply H; left; reflexivity]. cbn beta. intros b c _. apply IH. intros y b' c' Hy. apply H. right. exact Hy. Qed.
  Lemma purge_foot g (cur : list sub) : foot (fun i => In i (map Z.of_nat g)) (purge_turn p_id p_pos p_vel g) cur (fun _ _ => True).
  Proof.
    unfold purge_turn. apply foot_bind. eapply foot_mono; [|apply pfold_foot]; cbn beta.
    - intros [] c _. apply foot_bind. eapply foot_mono; [|apply pfold_foot]; [intros; exact Logic.I|].
      intros m ex c' Hm. apply in_rev in Hm. apply (in_map Z.of_nat) in Hm. unfold purge_member. cbn [foot]. intros s _. split; [exact Hm|]. destruct (1 <? Purge.u_nbound s); [|exact Logic.I]. destruct (Purge.promote _ _ _ ex s 0 _); cbn; auto.
    - intros m [] c' Hm. apply (in_map Z.of_nat) in Hm. cbn. auto.
  Qed.
  Lemma purge_loop groups (start : list sub) : Spec.Purge.members_ok groups start ->
    exists out, Purge.purge p_id p_pos p_vel groups start = Some out /\ safe_loop Z.eqb race (purge_turns p_id p_pos p_vel groups) (zget start) (zget out).
  Proof.
    intros HM. destruct (PurgeProofs.purge_ok p_id p_pos p_vel groups start HM) as (out & E & _). exists out. split; [exact E|]. unfold Purge.purge in E. apply UpdateLoops.each_done in E. rewrite <- index_run in E.
    eapply (loop_safe _ (fun t => match nth_error groups t with Some g => map Z.of_nat g | None => [] end) _ (seq 0 (length groups)) start out); [|intros t u i Htu Hi Hi'|intros t p a b Hp|intros t p cur Hp _ _|exact E].
    - unfold purge_turns. rewrite map_length. reflexivity.
    - destruct (nth_error groups t) as [g|] eqn:Eg; [|destruct Hi]. destruct (nth_error groups u) as [h|] eqn:Eh; [|destruct Hi']. apply in_map_iff in Hi as (x & <- & Hx). apply in_map_iff in Hi' as (y & Ey & Hy). apply Nat2Z.inj in Ey. subst y. apply Htu. exact (concat_apart _ _ _ _ _ _ (proj1 HM) Eg Eh Hx Hy).
    - cbn beta. unfold purge_turns in Hp. rewrite nth_error_map in Hp. destruct (nth_error groups t) as [g|]; [|discriminate]. injection Hp as <-. intros Eb. apply of_opt_ends in Eb. apply purge_run. exact Eb.
    - unfold purge_turns in Hp. rewrite nth_error_map in Hp. destruct (nth_error groups t) as [g|]; [|discriminate]. injection Hp as <-. apply purge_foot.
  Qed.
End Purge.

Section Glue.
  Context {X R : Type}.
  Local Notation subs_t := (list (sub X R)).
  Lemma spot_eqb_eq a b : spot_eqb a b = true <-> a = b.
  Proof. destruct a, b; cbn; try rewrite Nat.eqb_eq; split; intros H; try discriminate; congruence. Qed.
  Lemma centrals_once groups t u c r r' : NoDup (centrals groups) -> nth_error groups t = Some (c :: r) -> nth_error groups u = Some (c :: r') -> t = u.
  Proof.
    intros ND Et Eu. apply (concat_apart (map first_of groups) t u [c] [c] c ND); [rewrite nth_error_map, Et; reflexivity|rewrite nth_error_map, Eu; reflexivity|left; reflexivity|left; reflexivity].
  Qed.
  (** what a turn may access *)
  Definition mine (groups : list (list nat)) (t : nat) (m : spot) : Prop :=
    match m with Body c => exists r, nth_error groups t = Some (c :: r) | Size h => h = t /\ (t < length groups)%nat end.
  Lemma mine_apart groups t u m : NoDup (centrals groups) -> t <> u -> mine groups t m -> ~ mine groups u m.
  Proof. intros ND Htu. destruct m as [c|h]; cbn; [intros [r Er] [r' Er']; apply Htu; eapply centrals_once; eauto|intros [-> _] [-> _]; congruence]. Qed.

  Lemma nth_error_combine {A B} (l : list A) : forall (l' : list B) i, nth_error (combine l l') i = match nth_error l i, nth_error l' i with Some a, Some b => Some (a, b) | _, _ => None end.
  Proof. induction l as [|a l IH]; intros [|b l'] [|i]; cbn; try reflexivity; [destruct (nth_error l i); reflexivity|apply IH]. Qed.
  Lemma nth_error_seq0 n t : nth_error (seq 0 n) t = if (t <? n)%nat then Some t else None.
  Proof. destruct (Nat.ltb_spec t n); [rewrite nth_error_nth' with (d := O) by (rewrite seq_length; lia); rewrite seq_nth by lia; reflexivity|apply nth_error_None; rewrite seq_length; lia]. Qed.

  Lemma glue_loop groups heads (subs : subs_t) junk : NoDup (centrals groups) -> length heads = length groups -> length junk = length groups ->
    (forall k c rest, nth_error groups k = Some (c :: rest) -> (c < length subs)%nat /\ nth_error heads k <> Some []) ->
    exists glued sizes, glue groups heads subs = Some (glued, sizes) /\ safe_loop spot_eqb race (glue_turns groups heads) (spots subs junk) (spots glued sizes).
  Proof.
    intros ND HL HJ Hok. destruct (glue_spec groups heads subs ND HL Hok) as (g & sz & E & H1 & H2 & H3 & H4). exists g, sz. split; [exact E|].
    assert (H5 : forall k, nth_error groups k = Some [] -> nth_error sz k = Some O).
    { clear - E. revert heads subs g sz E. induction groups as [|x gr IH]; intros heads subs g sz E [|k] Hk; try discriminate; destruct heads as [|h hr]; try discriminate; cbn in E.
      - cbn in Hk. injection Hk as ->. cbn in E. destruct (glue gr hr subs) as [[? ?]|]; [|discriminate]. injection E as <- <-. reflexivity.
      - destruct (glue_one x h subs) as [[s1 n]|]; [|discriminate]. destruct (glue gr hr s1) as [[s2 ns]|] eqn:E2; [|discriminate]. injection E as <- <-. cbn in *. eapply IH; eauto. }
    apply (together_free spot_eqb spot_eqb_eq (fun t m => mine groups t m) (fun t m _ => mine groups t m)).
    - intros t p Hp. unfold glue_turns in Hp. rewrite nth_error_map, !nth_error_combine, nth_error_seq0 in Hp. destruct (Nat.ltb_spec t (length groups)) as [Ht|]; [|discriminate].
      destruct (nth_error groups t) as [gr|] eqn:Eg; [|discriminate]. destruct (nth_error heads t) as [hd|] eqn:Eh; [|discriminate]. cbn in Hp. injection Hp as <-.
      destruct (nth_error_in_range junk t ltac:(lia)) as [j Hj].
      assert (Hsz : mine groups t (Size t)) by (cbn; auto).
      destruct gr as [|c r]; cbn [glue_turn].
      + exists 1%nat. cbn [wp]. exists 0%nat. split; [reflexivity|]. split; [exact Hsz|]. split; [cbn; rewrite Hj; discriminate|]. split; [reflexivity|].
        intros m v Hm. destruct m as [c|h]; [destruct Hm as [r Hr]; congruence|]. destruct Hm as [-> _]. rewrite put_here by exact spot_eqb_eq. cbn. rewrite (H5 t Eg). reflexivity.
      + destruct (Hok t c r Eg) as [Hc Hh]. destruct hd as [|h0 others]; [congruence|]. destruct (nth_error_in_range subs c Hc) as [s Hs]. destruct (H4 t c r h0 others s Eg Eh Hs) as [Hg Hn].
        assert (Hb : mine groups t (Body c)) by (cbn; eauto).
        exists 4%nat. cbn [wp]. exists 3%nat, (MSub s). split; [reflexivity|]. split; [exact Hb|]. split; [cbn; rewrite Hs; reflexivity|]. cbn [wp]. exists 2%nat. split; [reflexivity|]. split; [exact Hsz|]. split; [cbn; rewrite Hj; discriminate|].
        exists 1%nat, (MSub s). split; [reflexivity|]. split; [exact Hb|]. split; [rewrite (put_there spot_eqb spot_eqb_eq) by discriminate; cbn; rewrite Hs; reflexivity|]. cbn [wp]. exists 0%nat. split; [reflexivity|]. split; [exact Hb|].
        split; [rewrite (put_there spot_eqb spot_eqb_eq) by discriminate; cbn; rewrite Hs; discriminate|]. split; [reflexivity|].
        intros m v Hm. destruct m as [c'|h].
        * destruct Hm as [r' Hr]. assert (c' = c) by congruence. subst c'. rewrite (put_here spot_eqb spot_eqb_eq). cbn. rewrite Hg. reflexivity.
        * destruct Hm as [-> _]. rewrite (put_there spot_eqb spot_eqb_eq) by discriminate. rewrite (put_here spot_eqb spot_eqb_eq). cbn. rewrite Hn. reflexivity.
    - intros t u m v Htu Hw Hr. exact (mine_apart _ _ _ _ ND Htu Hw Hr).
    - intros t u m v v' Htu Hw Hr. destruct (mine_apart _ _ _ _ ND Htu Hw Hr).
    - intros [c|h].
      + destruct (in_dec Nat.eq_dec c (centrals groups)) as [Hc|Hc]; [|right; cbn; rewrite (H3 c Hc); reflexivity]. apply centrals_in in Hc as (k & r & Hk). left. exists k, (MSize 0). split; [|cbn; eauto].
        unfold glue_turns. rewrite map_length, !combine_length, seq_length. apply nth_error_lt in Hk. lia.
      + destruct (Nat.lt_ge_cases h (length groups)) as [Hh|Hh]; [left; exists h, (MSize 0); split; [unfold glue_turns; rewrite map_length, !combine_length, seq_length; lia|cbn; auto]|]. right. cbn. rewrite !(proj2 (nth_error_None _ _)) by lia. reflexivity.
    - intros t u m v v' Htu Hw Hr. exact (mine_apart _ _ _ _ ND Htu Hw Hr).
  Qed.

  Lemma unglue_loop groups sizes (subs : subs_t) : NoDup (centrals groups) -> length sizes = length groups ->
    (forall k c rest, nth_error groups k = Some (c :: rest) -> (c < length subs)%nat) ->
    (forall k c rest n s, nth_error groups k = Some (c :: rest) -> nth_error sizes k = Some n -> nth_error subs c = Some s -> (n <= length (s_nest s))%nat) ->
    exists out, unglue groups sizes subs = Some out /\ safe_loop spot_eqb race (unglue_turns groups) (spots subs sizes) (spots out sizes).
  Proof.
    intros ND HL Hok Hsz. destruct (unglue_spec groups sizes subs ND HL Hok Hsz) as (out & E & H1 & H2 & H3). exists out. split; [exact E|].
    apply (together_free spot_eqb spot_eqb_eq (fun t m => mine groups t m) (fun t m _ => mine groups t m)).
    - intros t p Hp. unfold unglue_turns in Hp. rewrite nth_error_map, !nth_error_combine, nth_error_seq0 in Hp. destruct (Nat.ltb_spec t (length groups)) as [Ht|]; [|discriminate].
      destruct (nth_error groups t) as [gr|] eqn:Eg; [|discriminate]. cbn in Hp. injection Hp as <-. destruct (nth_error_in_range sizes t ltac:(lia)) as [n Hn].
      assert (Hz : mine groups t (Size t)) by (cbn; auto).
      destruct gr as [|c r]; cbn [unglue_turn].
      + exists 0%nat. split; [reflexivity|]. intros m v Hm. destruct m as [c|h]; [destruct Hm as [r Hr]; congruence|]. destruct Hm as [-> _]. reflexivity.
      + destruct (nth_error_in_range subs c (Hok t c r Eg)) as [s Hs]. assert (Hb : mine groups t (Body c)) by (cbn; eauto). pose proof (Hsz t c r n s Eg Hn Hs) as Hle.
        exists 3%nat. cbn [wp]. exists 2%nat, (MSize n). split; [reflexivity|]. split; [exact Hz|]. split; [cbn; rewrite Hn; reflexivity|]. cbn [wp]. exists 1%nat, (MSub s). split; [reflexivity|]. split; [exact Hb|]. split; [cbn; rewrite Hs; reflexivity|].
        cbn [wp]. exists 0%nat. split; [reflexivity|]. split; [exact Hb|]. split; [cbn; rewrite Hs; discriminate|]. split; [reflexivity|]. intros m v Hm. destruct m as [c'|h].
        * destruct Hm as [r' Hr]. assert (c' = c) by congruence. subst c'. rewrite (put_here spot_eqb spot_eqb_eq). cbn. rewrite (H3 t c r n s Eg Hn Hs). cbn. rewrite firstn_app. replace (n - length (s_nest s))%nat with 0%nat by lia. cbn [firstn]. rewrite app_nil_r. reflexivity.
        * destruct Hm as [-> _]. rewrite (put_there spot_eqb spot_eqb_eq) by discriminate. reflexivity.
    - intros t u m v Htu Hw Hr. exact (mine_apart _ _ _ _ ND Htu Hw Hr).
    - intros t u m v v' Htu Hw Hr. destruct (mine_apart _ _ _ _ ND Htu Hw Hr).
    - intros [c|h]; [|right; reflexivity].
      destruct (in_dec Nat.eq_dec c (centrals groups)) as [Hc|Hc]; [|right; cbn; rewrite (H2 c Hc); reflexivity]. apply centrals_in in Hc as (k & r & Hk). left. exists k, (MSize 0). split; [|cbn; eauto].
      unfold unglue_turns. rewrite map_length, !combine_length, seq_length. apply nth_error_lt in Hk. lia.
    - intros t u m v v' Htu Hw Hr. exact (mine_apart _ _ _ _ ND Htu Hw Hr).
  Qed.
End Glue.
