(** Merging of sinking subhalos, members before their parents. *)
From Coq Require Import List ZArith QArith Bool Lia Sorting.Permutation.
From Verif.Model Require Import ListMem Mpi Run Subhalo Nest Mask Unbind Merge.
From Verif.Spec Require Import Forest Nesting Masking Sinking.
From Verif.Proofs Require Import ListMemProofs MpiProofs ListExtra MemberProofs TreeProofs NestProofs NestProofs2 NestProofs3 NestProofs4 NestProofs5 LocalizeProofs ForestSteps HistorySteps ReachProofs GlueProofs GlueTree HaloWork MaskProofs.
Import ListNotations.
Local Open Scope Z_scope.

Lemma sublist_in {A} (l m : list A) x : sublist l m -> In x l -> In x m.
Proof. intros H. induction H; cbn; intuition. Qed.

Section Merge.
  Context {X R : Type}.
  Local Notation subs_t := (list (sub X R)).
  Variable pmass : Z * X -> Q.
  Variable snap : Z.

  (** ** The recursion is a loop over the members, children first *)
  Lemma merge_at_nests p (a b : subs_t) : merge_at pmass snap p a = Done b -> forall i l, local_nest a i l -> local_nest b i l.
  Proof.
    unfold merge_at. destruct (zget a p) as [s|] eqn:Es; [|discriminate]. destruct (trapped s && alive s); [|intros E; injection E as <-; auto].
    destruct (zget a (s_sink s)) as [h|] eqn:Eh; [|discriminate]. destruct (merge_to pmass s h) as [[s' h']|] eqn:Em; [|discriminate].
    assert (Hn : s_nest s' = s_nest s /\ s_nest h' = s_nest h). { unfold merge_to in Em. destruct (s_nbound s <=? 1)%nat; [injection Em as <- <-; auto|]. destruct (s_parts s); [discriminate|]. injection Em as <- <-. auto. } destruct Hn as [Hn1 Hn2].
    destruct (zupd a (s_sink s) h') as [a1|] eqn:E1; [|discriminate]. cbn. destruct (zupd a1 p (set_death snap s')) as [a2|] eqn:E2; [|discriminate]. cbn. intros E. injection E as <-.
    intros i l (u & Hu & El). unfold local_nest. rewrite (zget_zupd _ _ _ _ _ E2), (zget_zupd _ _ _ _ _ E1). destruct (Z.eqb_spec i p) as [->|]; [exists (set_death snap s'); split; [reflexivity|]; cbn; congruence|].
    destruct (Z.eqb_spec i (s_sink s)) as [->|]; [exists h'; split; [reflexivity|]; congruence|eauto].
  Qed.
  Lemma merge_list_nests l : forall a b : subs_t, run_each l (merge_at pmass snap) a = Done b -> forall i m, local_nest a i m -> local_nest b i m.
  Proof.
    induction l as [|p l IH]; intros a b E i m H; cbn in E; [injection E as <-; exact H|]. destruct (merge_at pmass snap p a) as [a1| |] eqn:E1; try discriminate. eapply IH; [exact E|]. eapply merge_at_nests; eauto.
  Qed.
  Lemma merge_tree t : forall fuel (a : subs_t), (height t <= fuel)%nat -> represents (local_nest a) t -> merge_rec pmass snap fuel (label t) a = run_each (post t) (merge_at pmass snap) a.
  Proof.
    induction t as [p ts IH] using tree_rect'. intros fuel a Hf HR. destruct fuel as [|f]; [cbn in Hf; lia|]. rewrite Forall_forall in IH. apply represents_node_inv in HR as [(s & Hs & Es) HRt]. cbn [label merge_rec post]. rewrite Hs, Es, run_each_app.
    assert (Hh : forall t, In t ts -> (height t <= f)%nat) by (intros t Ht; pose proof (height_branch p ts t Ht); lia).
    assert (HE : run_each (map label ts) (merge_rec pmass snap f) a = run_each (flat_map post ts) (merge_at pmass snap) a).
    { clear Hs Es Hf. revert a HRt. induction ts as [|t l IHl]; intros a HRt; [reflexivity|]. cbn. inversion HRt as [|? ? H1 H2]; subst. rewrite run_each_app, (IH t (or_introl eq_refl) f a (Hh t (or_introl eq_refl)) H1).
      destruct (run_each (post t) (merge_at pmass snap) a) as [a1| |] eqn:E1; cbn [rbind]; try reflexivity. apply IHl; [intros; apply IH; [right; assumption|assumption..]|intros; apply Hh; right; assumption|].
      rewrite Forall_forall in H2 |- *. intros u Hu. eapply represents_ext; [apply H2; exact Hu|]. intros i m _. eapply merge_list_nests; eauto. }
    rewrite HE. destruct (run_each (flat_map post ts) (merge_at pmass snap) a) as [a1| |]; [|reflexivity..]. cbn [rbind run_each]. destruct (merge_at pmass snap p a1); reflexivity.
  Qed.

  (** ** Chains *)
  Inductive joins_in (P : Z -> Prop) (a : subs_t) : Z -> Z -> Prop :=
  | jin_here i : joins_in P a i i
  | jin_step i s j : P i -> zget a i = Some s -> sinking s -> (1 < s_nbound s)%nat -> joins_in P a (s_sink s) j -> joins_in P a i j.
  Lemma joins_mono (P Q : Z -> Prop) a i j : (forall x, P x -> Q x) -> joins_in P a i j -> joins_in Q a i j.
  Proof. intros H J. induction J; [constructor|econstructor; eauto]. Qed.
  Lemma joins_snoc (P : Z -> Prop) a i j s : joins_in P a i j -> P j -> zget a j = Some s -> sinking s -> (1 < s_nbound s)%nat -> joins_in P a i (s_sink s).
  Proof. intros J. induction J as [i|i u j Pi Hu S1 S2 J IH]; intros; [eapply jin_step; eauto; constructor|eapply jin_step; eauto]. Qed.
  Lemma joins_stuck (P : Z -> Prop) a i j : ~ P i -> joins_in P a i j -> j = i.
  Proof. intros H J. inversion J; [reflexivity|contradiction]. Qed.
  Lemma joins_add (P : Z -> Prop) a p s : ~ P p -> zget a p = Some s -> sinking s -> (1 < s_nbound s)%nat -> ~ P (s_sink s) -> s_sink s <> p ->
    forall k i, joins_in (fun x => P x \/ x = p) a k i <-> joins_in P a k i \/ (i = s_sink s /\ joins_in P a k p).
  Proof.
    intros Hp Hs Hsk Hnb Hq Hne k i. split.
    - intros J. induction J as [i|k u i Pk Hu S1 S2 J IH]; [left; constructor|]. destruct Pk as [Pk| ->].
      + destruct IH as [IH|[-> IH]]; [left; econstructor; eauto|right; split; [reflexivity|econstructor; eauto]].
      + assert (u = s) by congruence. subst u. right. split; [|constructor]. eapply joins_stuck; [|exact J]. intros [H|H]; contradiction.
    - intros [J|[-> J]]; [eapply joins_mono; [|exact J]; auto|]. eapply joins_snoc; [eapply joins_mono; [|exact J]; auto|right; reflexivity|exact Hs|exact Hsk|exact Hnb].
  Qed.
  Lemma joins_same (P : Z -> Prop) a p s : zget a p = Some s -> ~ (sinking s /\ (1 < s_nbound s)%nat) -> forall k i, joins_in (fun x => P x \/ x = p) a k i <-> joins_in P a k i.
  Proof.
    intros Hs Hn k i. split; [|apply joins_mono; auto]. intros J. induction J as [i|k u i Pk Hu S1 S2 J IH]; [constructor|]. destruct Pk as [Pk| ->]; [econstructor; eauto|]. exfalso. apply Hn. assert (u = s) by congruence. subst. auto.
  Qed.
  Lemma joins_ext (P Q : Z -> Prop) a k i : (forall x, P x <-> Q x) -> joins_in P a k i <-> joins_in Q a k i.
  Proof. intros H. split; apply joins_mono; intros x; apply H. Qed.

  Lemma joins_last (P : Z -> Prop) a k i : joins_in P a k i -> k = i \/ exists m u, P m /\ zget a m = Some u /\ sinking u /\ (1 < s_nbound u)%nat /\ s_sink u = i.
  Proof. intros J. induction J as [|k u i Pk Hu S1 S2 J [IH|IH]]; [left; reflexivity|right; exists k, u; auto|right; exact IH]. Qed.
  Definition gathered (P : Z -> Prop) (a : subs_t) (i : Z) (s u : sub X R) : Prop :=
    (exists extra n, u = set_nbound n (set_parts (s_parts s ++ extra) s) /\ (s_nbound s <= n)%nat /\ NoDup (map fst extra) /\ (forall id, In id (map fst extra) -> ~ In id (part_ids s)) /\
      (forall p, In p extra -> exists k w, joins_in P a k i /\ zget a k = Some w /\ In p (s_parts w))) /\
    (forall id, In id (part_ids u) <-> exists k w, joins_in P a k i /\ zget a k = Some w /\ In id (part_ids w)) /\
    ((forall k, joins_in P a k i -> k = i) -> u = s).
  Lemma gathered_ext (P Q : Z -> Prop) a i s u : (forall k, joins_in P a k i <-> joins_in Q a k i) -> gathered P a i s u -> gathered Q a i s u.
  Proof.
    intros H ((ex & n & E & L & A & B & C) & D & F). split; [exists ex, n; split; [exact E|]; split; [exact L|]; split; [exact A|]; split; [exact B|]; intros p Hp; destruct (C p Hp) as (k & w & J & K); exists k, w; split; [apply H; exact J|exact K]|].
    split; [|intros HF; apply F; intros k J; apply HF; apply H; exact J]. intros id. rewrite D. split; intros (k & w & J & K); exists k, w; (split; [apply H; exact J|exact K]).
  Qed.

  Section L.
  Variable a : subs_t.
  Variable L : list Z.
  Hypothesis Hnd : NoDup L.
  Hypothesis Hin : forall i, In i L -> exists s, zget a i = Some s.
  Hypothesis Hsink : forall i s, In i L -> zget a i = Some s -> sinking s -> before L i (s_sink s) /\ exists u, zget a (s_sink s) = Some u /\ (1 < s_nbound u)%nat.
  Hypothesis Hparts : forall i s, In i L -> zget a i = Some s -> sinking s -> (1 < s_nbound s)%nat -> s_parts s <> [].

  Lemma before_split (pre : list Z) p q y : L = pre ++ p :: q -> before L p y -> In y q /\ y <> p /\ ~ In y pre.
  Proof.
    intros EL Hb. rewrite EL in Hb, Hnd. assert (Hy : In y q).
    { apply before_app in Hb as [Hb|[Hb|[Hb _]]].
      - exfalso. apply before_in_r in Hb as [Hb _]. eapply NoDup_app_disjoint; [exact Hnd|exact Hb|left; reflexivity].
      - apply before_cons in Hb as [[_ H]|Hb]; [exact H|]. apply before_in_r in Hb. apply Hb.
      - exfalso. eapply NoDup_app_disjoint; [exact Hnd|exact Hb|left; reflexivity]. }
    split; [exact Hy|]. split.
    - intros ->. apply NoDup_app_remove_l in Hnd. inversion Hnd; contradiction.
    - intros H. eapply NoDup_app_disjoint; [exact Hnd|exact H|right; exact Hy].
  Qed.

  Definition Inv (pre : list Z) (cur : subs_t) : Prop := length cur = length a /\
    forall i s, zget a i = Some s -> exists u, zget cur i = Some u /\ (In i pre -> sinking s -> remains pmass snap s u) /\ (~ (In i pre /\ sinking s) -> gathered (fun x => In x pre) a i s u).
  Lemma sinking_dec (s : sub X R) : trapped s && alive s = true <-> sinking s.
  Proof. unfold trapped, alive, sinking. rewrite andb_true_iff, negb_true_iff, Z.eqb_neq, Z.eqb_eq. reflexivity. Qed.
  Lemma merge_list : exists b, run_each L (merge_at pmass snap) a = Done b /\ Inv L b.
  Proof.
    destruct (run_each_inv Inv (merge_at pmass snap) L [] a) as (b & E & HI); [| |exists b; auto].
    - split; [reflexivity|]. intros i s Hs. exists s. split; [exact Hs|]. split; [intros []|]. intros _.
      assert (Hj : forall k, joins_in (fun x => In x []) a k i -> k = i) by (intros k J; inversion J; subst; [reflexivity|contradiction]).
      split; [|split; [|auto]].
      + exists [], (s_nbound s). rewrite app_nil_r. split; [destruct s; reflexivity|]. split; [lia|]. split; [constructor|]. split; intros ? [].
      + intros id. split; [intros H; exists i, s; split; [constructor|auto]|]. intros (k & w & J & Hw & H). rewrite (Hj k J) in Hw. congruence.
    - intros pre p q cur EL (HL & HI). cbn [app] in EL. assert (HpL : In p L) by (rewrite EL; apply in_or_app; right; left; reflexivity). destruct (Hin p HpL) as [s Hs].
      assert (Hpp : ~ In p pre). { intros H. rewrite EL in Hnd. eapply NoDup_app_disjoint; [exact Hnd|exact H|left; reflexivity]. }
      destruct (HI p s Hs) as (w & Hw & _ & Hgw). specialize (Hgw (fun H => Hpp (proj1 H))). assert (Hgw' := Hgw). destruct Hgw' as ((ex & n & Ew & Hn & Hex1 & Hex2 & Hex3) & Hall & Halone).
      assert (Hpre : forall x, In x (pre ++ [p]) <-> In x pre \/ x = p). { intros x. rewrite in_app_iff. cbn. intuition congruence. }
      assert (Hsk : trapped w && alive w = trapped s && alive s) by (rewrite Ew; reflexivity). unfold merge_at. rewrite Hw, Hsk. destruct (trapped s && alive s) eqn:Et.
      + apply sinking_dec in Et. destruct (Hsink p s HpL Hs Et) as (Hbef & h & Hh & Hhn). destruct (before_split pre p q _ EL Hbef) as (Hyq & Hyp & Hypre).
        assert (Esk : s_sink w = s_sink s) by (rewrite Ew; reflexivity). rewrite Esk. set (y := s_sink s) in *.
        destruct (HI y h Hh) as (v & Hv & _ & Hgv). specialize (Hgv (fun H => Hypre (proj1 H))). rewrite Hv.
        destruct (Nat.leb_spec (s_nbound s) 1) as [Hle|Hgt].
        * (* only the death is recorded *)
          assert (Halo : w = s). { apply Halone. intros k J. destruct (joins_last _ _ _ _ J) as [E|(m & u & Hm & Hu & S1 & S2 & Em)]; [exact E|exfalso].
            destruct (Hsink m u) as (_ & u' & Hu' & Hnb); [rewrite EL; apply in_or_app; left; exact Hm|exact Hu|exact S1|]. rewrite Em in Hu'. assert (u' = s) by congruence. subst. lia. }
          subst w. rewrite Halo in Hw. unfold merge_to. replace (s_nbound s <=? 1)%nat with true by (symmetry; apply Nat.leb_le; exact Hle). rewrite Halo. replace (s_nbound s <=? 1)%nat with true by (symmetry; apply Nat.leb_le; exact Hle).
          destruct (zupd_some cur y v (zget_some _ _ _ Hv)) as [c1 E1]. rewrite E1. cbn [of_opt rbind]. destruct (zupd_some c1 p (set_death snap s)) as [c2 E2]; [rewrite (zupd_length _ _ _ _ E1); eapply zget_some; eauto|]. rewrite E2. cbn [of_opt].
          exists c2. split; [reflexivity|]. split; [rewrite (zupd_length _ _ _ _ E2), (zupd_length _ _ _ _ E1); exact HL|].
          assert (Hj := joins_same (fun x => In x pre) a p s Hs ltac:(lia)).
          intros i si Hsi. rewrite (zget_zupd _ _ _ _ _ E2). destruct (Z.eqb_spec i p) as [->|Hip].
          -- assert (si = s) by congruence. subst si. exists (set_death snap s). split; [reflexivity|]. split.
             ++ intros _ _. unfold remains. replace (s_nbound s <=? 1)%nat with true by (symmetry; apply Nat.leb_le; exact Hle). reflexivity.
             ++ intros Hc. exfalso. apply Hc. split; [apply Hpre; right; reflexivity|exact Et].
          -- rewrite (zget_zupd _ _ _ _ _ E1). destruct (HI i si Hsi) as (u & Hu & A & B). exists u. split; [destruct (Z.eqb_spec i y) as [->|]; [congruence|exact Hu]|]. split.
             ++ intros Hi. apply Hpre in Hi as [Hi|Hi]; [auto|contradiction].
             ++ intros Hc. eapply gathered_ext; [|apply B; intros [H1 H2]; apply Hc; split; [apply Hpre; left; exact H1|exact H2]]. intros k. rewrite <- Hj. apply joins_ext. intros x. symmetry. apply Hpre.
        * (* the particles move *)
          destruct (s_parts s) as [|p0 r0] eqn:Ep0; [exfalso; eapply (Hparts p s); eauto|].
          assert (Enw : s_nbound w = n) by (rewrite Ew; reflexivity). assert (Epw : s_parts w = p0 :: r0 ++ ex) by (rewrite Ew; reflexivity).
          unfold merge_to. rewrite Enw. replace (n <=? 1)%nat with false by (symmetry; apply Nat.leb_gt; lia). rewrite Epw.
          set (w' := set_mass _ _). set (new := new_parts (s_parts v) (p0 :: r0 ++ ex)). set (v' := set_nbound _ _).
          destruct (zupd_some cur y v' (zget_some _ _ _ Hv)) as [c1 E1]. rewrite E1. cbn [of_opt rbind]. destruct (zupd_some c1 p (set_death snap w')) as [c2 E2]; [rewrite (zupd_length _ _ _ _ E1); eapply zget_some; eauto|]. rewrite E2. cbn [of_opt].
          exists c2. split; [reflexivity|]. split; [rewrite (zupd_length _ _ _ _ E2), (zupd_length _ _ _ _ E1); exact HL|].
          assert (Hj := joins_add (fun x => In x pre) a p s Hpp Hs Et Hgt Hypre Hyp). fold y in Hj.
          assert (Hj' : forall k i, joins_in (fun x => In x (pre ++ [p])) a k i <-> joins_in (fun x => In x pre) a k i \/ i = y /\ joins_in (fun x => In x pre) a k p) by (intros k i; rewrite <- Hj; apply joins_ext; exact Hpre).
          intros i si Hsi. rewrite (zget_zupd _ _ _ _ _ E2). destruct (Z.eqb_spec i p) as [->|Hip].
          -- assert (si = s) by congruence. subst si. exists (set_death snap w'). split; [reflexivity|]. split.
             ++ intros _ _. unfold remains. replace (s_nbound s <=? 1)%nat with false by (symmetry; apply Nat.leb_gt; exact Hgt). exists p0, r0. split; [exact Ep0|]. unfold w'. rewrite Ew. reflexivity.
             ++ intros Hc. exfalso. apply Hc. split; [apply Hpre; right; reflexivity|exact Et].
          -- rewrite (zget_zupd _ _ _ _ _ E1). destruct (Z.eqb_spec i y) as [->|Hiy].
             ++ assert (si = h) by congruence. subst si. exists v'. split; [reflexivity|]. split; [intros Hi; apply Hpre in Hi as [Hi|Hi]; contradiction|]. intros _.
                destruct Hgv as ((exv & nv & Ev & Hnv & Hv1 & Hv2 & Hv3) & Hallv & Halonev).
                assert (Epv : s_parts v = s_parts h ++ exv) by (rewrite Ev; reflexivity).
                destruct (mask_parts (map fst (s_parts v)) (p0 :: r0 ++ ex)) as [e' kept] eqn:Ek. assert (Enew : new = kept) by (unfold new, new_parts; rewrite Ek; reflexivity).
                destruct (mask_parts_spec _ _ _ _ Ek) as (K1 & K2 & K3 & _). rewrite <- Enew in K1, K2, K3. rewrite <- Epw in K1, K3.
                split; [|split].
                ** exists (exv ++ new), (s_nbound v + n)%nat. split; [unfold v'; rewrite Epv, <- app_assoc, Ev; reflexivity|]. split; [rewrite Ev; cbn; lia|]. rewrite map_app. split; [|split].
                   --- apply NoDup_app_intro; [exact Hv1|exact K2|]. intros id H1 H2. apply K3 in H2 as [_ H2]. apply H2. rewrite Epv, map_app. apply in_or_app. right. exact H1.
                   --- intros id Hid. apply in_app_or in Hid as [Hid|Hid]; [apply Hv2; exact Hid|]. apply K3 in Hid as [_ H2]. intros Hc. apply H2. rewrite Epv, map_app. apply in_or_app. left. exact Hc.
                   --- intros x Hx. apply in_app_or in Hx as [Hx|Hx].
                       +++ destruct (Hv3 x Hx) as (k & z & J & K). exists k, z. split; [apply Hj'; left; exact J|exact K].
                       +++ apply (sublist_in _ _ _ K1) in Hx. rewrite Ew in Hx. cbn in Hx. change (In x ((p0 :: r0) ++ ex)) in Hx. apply in_app_or in Hx as [Hx|Hx].
                           *** exists p, s. split; [apply Hj'; right; split; [reflexivity|constructor]|]. split; [exact Hs|]. rewrite Ep0. exact Hx.
                           *** destruct (Hex3 x Hx) as (k & z & J & K). exists k, z. split; [apply Hj'; right; auto|exact K].
                ** intros id. assert (Hiv : In id (part_ids v') <-> In id (part_ids v) \/ In id (part_ids w)).
                   { unfold part_ids, v'. cbn. rewrite map_app, in_app_iff, K3. split; [tauto|]. intros [H|H]; [tauto|]. destruct (in_dec Z.eq_dec id (map fst (s_parts v))); [tauto|right; auto]. }
                   rewrite Hiv, Hallv, Hall. split.
                   --- intros [(k & z & J & K)|(k & z & J & K)]; exists k, z; (split; [apply Hj'|exact K]); auto.
                   --- intros (k & z & J & K). apply Hj' in J as [J|[_ J]]; [left|right]; eauto.
                ** intros Hc. exfalso. apply Hyp. symmetry. apply Hc. apply Hj'. right. split; [reflexivity|constructor].
             ++ destruct (HI i si Hsi) as (u & Hu & A & B). exists u. split; [exact Hu|]. split.
                ** intros Hi. apply Hpre in Hi as [Hi|Hi]; [auto|contradiction].
                ** intros Hc. eapply gathered_ext; [|apply B; intros [H1 H2]; apply Hc; split; [apply Hpre; left; exact H1|exact H2]]. intros k. rewrite Hj'. tauto.
      + assert (Hns : ~ sinking s) by (intros H; apply sinking_dec in H; congruence). exists cur. split; [reflexivity|]. split; [exact HL|]. assert (Hj := joins_same (fun x => In x pre) a p s Hs ltac:(tauto)).
        intros i si Hsi. destruct (HI i si Hsi) as (u & Hu & A & B). exists u. split; [exact Hu|]. split.
        * intros Hi. apply Hpre in Hi as [Hi|Hi]; [auto|]. subst i. assert (si = s) by congruence. subst si. contradiction.
        * intros Hc. eapply gathered_ext; [|apply B; intros [H1 H2]; apply Hc; split; [apply Hpre; left; exact H1|exact H2]]. intros k. rewrite <- Hj. apply joins_ext. intros x. symmetry. apply Hpre.
  Qed.
  End L.
End Merge.
