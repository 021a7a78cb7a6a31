(** Work on a snapshot in a build with inclusive masses. *)
From Coq Require Import List ZArith QArith Bool Lia Sorting.Permutation.
From Verif.Model Require Import ListMem Mpi Run Hash Subhalo Nest Mask Unbind Merge Variants.
From Verif.Spec Require Import Members Forest Nesting Masking Sinking Inclusive.
From Verif.Proofs Require Import ListMemProofs MpiProofs ListExtra MemberProofs TreeProofs NestProofs NestProofs2 NestProofs3 NestProofs4 NestProofs5 LocalizeProofs ForestSteps HistorySteps ReachProofs GlueProofs GlueTree HaloWork MaskProofs DetectProofs MergeProofs MergeFinal.
Import ListNotations.
Local Open Scope Z_scope.

Section Merge.
  Context {X R : Type}.
  Local Notation subs_t := (list (sub X R)).
  Variable pmass : Z * X -> Q.
  Variable snap : Z.
  Local Notation at_ := (merge_at_inclusive pmass snap).
  Local Notation rec_ := (merge_rec_inclusive pmass snap).
  Lemma at_nests p (a b : subs_t) : at_ p a = Done b -> forall i l, local_nest a i l -> local_nest b i l.
  Proof.
    unfold merge_at_inclusive. destruct (zget a p) as [s|] eqn:Es; [|discriminate]. destruct (trapped s && alive s); [|intros E; injection E as <-; auto].
    destruct (zget a (s_sink s)) as [h|] eqn:Eh; [|discriminate]. destruct (merge_to_inclusive pmass s) as [s'|] eqn:Em; [|discriminate].
    assert (Hn : s_nest s' = s_nest s). { unfold merge_to_inclusive in Em. destruct (s_nbound s <=? 1)%nat; [injection Em as <-; auto|]. destruct (s_parts s); [discriminate|]. injection Em as <-. auto. }
    destruct (zupd a p (set_death snap s')) as [a2|] eqn:E2; [|discriminate]. cbn. intros E. injection E as <-.
    intros i l (u & Hu & El). unfold local_nest. rewrite (zget_zupd _ _ _ _ _ E2). destruct (Z.eqb_spec i p) as [->|]; [exists (set_death snap s'); split; [reflexivity|]; cbn; congruence|eauto].
  Qed.
  Lemma at_list_nests l : forall a b : subs_t, run_each l at_ a = Done b -> forall i m, local_nest a i m -> local_nest b i m.
  Proof.
    induction l as [|p l IH]; intros a b E i m H; cbn in E; [injection E as <-; exact H|]. destruct (at_ p a) as [a1| |] eqn:E1; try discriminate. eapply IH; [exact E|]. eapply at_nests; eauto.
  Qed.
  Lemma at_tree t : forall fuel (a : subs_t), (height t <= fuel)%nat -> represents (local_nest a) t -> rec_ fuel (label t) a = run_each (post t) at_ a.
  Proof.
    induction t as [p ts IH] using tree_rect'. intros fuel a Hf HR. destruct fuel as [|f]; [cbn in Hf; lia|]. rewrite Forall_forall in IH. apply represents_node_inv in HR as [(s & Hs & Es) HRt]. cbn [label merge_rec_inclusive post]. rewrite Hs, Es, run_each_app.
    assert (Hh : forall t, In t ts -> (height t <= f)%nat) by (intros t Ht; pose proof (height_branch p ts t Ht); lia).
    assert (HE : run_each (map label ts) (rec_ f) a = run_each (flat_map post ts) at_ a).
    { clear Hs Es Hf. revert a HRt. induction ts as [|t l IHl]; intros a HRt; [reflexivity|]. cbn. inversion HRt as [|? ? H1 H2]; subst. rewrite run_each_app, (IH t (or_introl eq_refl) f a (Hh t (or_introl eq_refl)) H1).
      destruct (run_each (post t) at_ a) as [a1| |] eqn:E1; cbn [rbind]; try reflexivity. apply IHl; [intros; apply IH; [right; assumption|assumption..]|intros; apply Hh; right; assumption|].
      rewrite Forall_forall in H2 |- *. intros u Hu. eapply represents_ext; [apply H2; exact Hu|]. intros i m _. eapply at_list_nests; eauto. }
    rewrite HE. destruct (run_each (flat_map post ts) at_ a) as [a1| |]; [|reflexivity..]. cbn [rbind run_each]. destruct (at_ p a1); reflexivity.
  Qed.
  Lemma at_list (a : subs_t) (L : list Z) : NoDup L -> (forall i, In i L -> exists s, zget a i = Some s) ->
    (forall i s, In i L -> zget a i = Some s -> sinking s -> (exists u, zget a (s_sink s) = Some u) /\ ((1 < s_nbound s)%nat -> s_parts s <> [])) ->
    exists b, run_each L at_ a = Done b /\ length b = length a /\
      forall i s, zget a i = Some s -> exists u, zget b i = Some u /\ (In i L -> sinking s -> remains pmass snap s u) /\ (~ (In i L /\ sinking s) -> u = s).
  Proof.
    intros Hnd Hin Hsk. set (P := fun (pre : list Z) (cur : subs_t) => length cur = length a /\ forall i s, zget a i = Some s -> exists u, zget cur i = Some u /\ (In i pre -> sinking s -> remains pmass snap s u) /\ (~ (In i pre /\ sinking s) -> u = s)).
    destruct (run_each_inv P at_ L [] a) as (b & E & HI); [| |exists b; split; [exact E|exact HI]].
    - split; [reflexivity|]. intros i s Hs. exists s. split; [exact Hs|]. split; [intros []|reflexivity].
    - intros pre p q cur EL (HL & HI). cbn [app] in EL. assert (HpL : In p L) by (rewrite EL; apply in_or_app; right; left; reflexivity). destruct (Hin p HpL) as [s Hs].
      assert (Hpp : ~ In p pre). { intros H. rewrite EL in Hnd. eapply NoDup_app_disjoint; [exact Hnd|exact H|left; reflexivity]. }
      assert (Hpre : forall x, In x (pre ++ [p]) <-> In x pre \/ x = p). { intros x. rewrite in_app_iff. cbn. intuition congruence. }
      destruct (HI p s Hs) as (w & Hw & _ & Ew). rewrite (Ew (fun H => Hpp (proj1 H))) in Hw. clear w Ew. unfold merge_at_inclusive. rewrite Hw. destruct (trapped s && alive s) eqn:Et.
      + apply sinking_dec in Et. destruct (Hsk p s HpL Hs Et) as ((h & Hh) & Hne). destruct (HI _ _ Hh) as (v & Hv & _). rewrite Hv.
        assert (Hm : exists s', merge_to_inclusive pmass s = Some s' /\ remains pmass snap s (set_death snap s')).
        { unfold merge_to_inclusive, remains. destruct (Nat.leb_spec (s_nbound s) 1) as [Hb|Hb]; [eauto|]. destruct (s_parts s) as [|x r]; [destruct (Hne Hb); reflexivity|]. eexists. split; [reflexivity|]. exists x, r. split; reflexivity. }
        destruct Hm as (s' & -> & Hrem). destruct (zupd_some cur p (set_death snap s') (zget_some _ _ _ Hw)) as [c2 E2]. rewrite E2. cbn [of_opt]. exists c2. split; [reflexivity|]. split; [rewrite (zupd_length _ _ _ _ E2); exact HL|].
        intros i si Hsi. rewrite (zget_zupd _ _ _ _ _ E2). destruct (Z.eqb_spec i p) as [->|Hip].
        * assert (si = s) by congruence. subst si. exists (set_death snap s'). split; [reflexivity|]. split; [auto|]. intros Hc. exfalso. apply Hc. split; [apply Hpre; auto|exact Et].
        * destruct (HI i si Hsi) as (u & Hu & A & B). exists u. split; [exact Hu|]. rewrite !Hpre. split; [intros [H|H]; [auto|contradiction]|]. intros Hc. apply B. tauto.
      + assert (Hns : ~ sinking s) by (intros H; apply sinking_dec in H; congruence). exists cur. split; [reflexivity|]. split; [exact HL|].
        intros i si Hsi. destruct (HI i si Hsi) as (u & Hu & A & B). exists u. split; [exact Hu|]. rewrite !Hpre. split.
        * intros [H|H]; [auto|]. subst i. assert (si = s) by congruence. subst si. contradiction.
        * intros Hc. apply B. tauto.
  Qed.
End Merge.

Section W.
  Context {X R : Type}.
  Local Notation subs_t := (list (sub X R)).
  Variable unb : sub X R -> run (sub X R).
  Variable U : sub X R -> sub X R -> Prop.
  Variable tr : sub X R -> sub X R.
  Hypothesis unb_ok : forall s, exists s', unb s = Done s' /\ U s s'.
  Lemma refine_alone order (b : subs_t) : Permutation order (seq 0 (length b)) -> exists out, refine_inclusive unb tr order b = Done out /\ refined_alone U tr b out.
  Proof.
    intros Ho. unfold refine_inclusive.
    set (P := fun (pre : list nat) (l : subs_t) => length l = length b /\ forall i s, nth_error b i = Some s -> exists v, nth_error l i = Some v /\ (In i pre -> exists u, U s u /\ v = tr u) /\ (~ In i pre -> v = s)).
    match goal with |- context [run_each order ?f b] => destruct (run_each_inv P f order [] b) as (out & E & HL & H1) end.
    - split; [reflexivity|]. intros i s Hs. exists s. split; [exact Hs|]. split; [intros []|reflexivity].
    - intros pre i q l Eo (H1 & H2). cbn [app] in Eo. assert (Hi : (i < length b)%nat). { assert (In i (seq 0 (length b))) as Hin by (apply (Permutation_in _ Ho); rewrite Eo; apply in_or_app; right; left; reflexivity). apply in_seq in Hin. lia. }
      assert (Hnp : ~ In i pre). { intros Hin. assert (NoDup order) as Hno by (eapply Permutation_NoDup; [symmetry; exact Ho|apply seq_NoDup]). rewrite Eo in Hno. eapply NoDup_app_disjoint; [exact Hno|exact Hin|left; reflexivity]. }
      destruct (nth_error_in_range b i Hi) as [s Hs]. destruct (H2 i s Hs) as (u & Hu & _ & Hus). rewrite (Hus Hnp) in Hu. clear u Hus. rewrite Hu.
      assert (Hpre : forall x, In x (pre ++ [i]) <-> In x pre \/ x = i). { intros x. rewrite in_app_iff. cbn. intuition congruence. }
      destruct (unb_ok s) as (u & Eu & HU). rewrite Eu. cbn [rbind]. destruct (upd_some l i (tr u)) as [l' El]; [lia|]. rewrite El. cbn [of_opt]. exists l'. split; [reflexivity|]. split; [rewrite (upd_length _ _ _ _ El); exact H1|].
      intros j sj Hj. destruct (Nat.eq_dec j i) as [->|Hne].
      + exists (tr u). split; [eapply upd_same; eauto|]. assert (sj = s) by congruence. subst sj. split; [eauto|]. intros Hc. exfalso. apply Hc, Hpre. auto.
      + destruct (H2 j sj Hj) as (u' & Hu' & A & B). exists u'. split; [rewrite (upd_other _ _ _ _ _ El); assumption|]. rewrite !Hpre. split; [intros [H|H]; [auto|contradiction]|]. intros Hc. apply B. tauto.
    - exists out. split; [exact E|]. cbn [app] in H1. apply Forall2_of_nth; [congruence|]. intros i s v Hs Hv. destruct (H1 i s Hs) as (v' & Hv' & A & _). assert (v' = v) by congruence. subst v'. apply A. apply (Permutation_in _ (Permutation_sym Ho)). apply in_seq. pose proof (nth_error_lt _ _ _ Hs). lia.
  Qed.

  Variable near : nat * list (Z * X) * R -> nat * list (Z * X) * R -> bool.
  Variable pmass : Z * X -> Q.
  Variable snap : Z.
  Hypothesis U_nest : forall s u, U s u -> s_nest u = s_nest s.
  Hypothesis U_renest : forall l s u, U (set_nest l s) u -> U s (set_nest (s_nest s) u).
  Hypothesis tr_nest : forall l s, tr (set_nest l s) = set_nest l (tr s).
  Hypothesis tr_nest' : forall s, s_nest (tr s) = s_nest s.

  Variables (moved : subs_t) (nh : nat) (table : list (list nat)) (subs : subs_t) (ts : list tree) (heads : list (list nat)).
  Hypothesis HN : nested_as moved nh table subs ts.
  Hypothesis Hheads : mapM (heads_of subs) (tl table) = Some heads.
  Hypothesis Hhosts : Forall (fun s => (-1 <= s_host s < Z.of_nat nh)%Z) moved.
  Variable merge_trapped : bool.
  Hypothesis Hold : forall i s, zget subs i = Some s -> s_sink s <> -1 -> s_death s <> -1.
  Hypothesis Hlive : forall i s, zget subs i = Some s -> (1 < s_nbound s)%nat -> s_death s = -1 /\ s_parts s <> [].
  Lemma merge_alone fuel o1 o2 o3 o4 : 0 <= snap -> (length subs <= fuel)%nat -> Permutation o1 (seq 0 (length subs)) -> Permutation o2 (seq 0 (length subs)) -> Permutation o3 (seq 0 nh) -> Permutation o4 (seq 0 (length subs)) ->
    exists marked out, merge_inclusive unb tr near pmass snap merge_trapped fuel o1 o2 o3 o4 table heads subs = Done out /\ length marked = length subs /\ length out = length subs /\
      (forall i s, zget subs i = Some s -> exists u, zget marked i = Some u /\ detected snap (sinks_to near heads subs) i s u) /\
      (if merge_trapped then after_merge_alone pmass U tr snap marked out else out = marked).
  Proof.
    destruct (glued_trees _ _ _ _ _ _ HN Hheads) as (g & sizes & Eg & _).
    pose proof (g_par _ _ _ _ _ _ HN Hheads Hhosts _ _ Eg) as par. pose proof (g_ex _ _ _ _ _ _ HN Hheads Hhosts _ _ Eg) as ex. pose proof (g_dep _ _ _ _ _ _ HN Hheads Hhosts _ _ Eg) as dep.
    pose proof (unglue_ok _ _ _ _ _ _ HN Hheads _ _ Eg snap unb U tr unb_ok U_nest U_renest tr_nest tr_nest' Hold Hlive) as ung. pose proof (sinks_g _ _ _ _ _ _ HN Hheads _ _ Eg near unb U tr unb_ok U_nest U_renest tr_nest tr_nest' Hold Hlive) as sg. pose proof (fields_same _ _ _ _ _ _ HN Hheads _ _ Eg) as same.
    intros Hsnap Hf Ho1 Ho2 Ho3 Ho4. destruct (g_all _ _ _ _ _ _ HN Hheads _ _ Eg) as (HL & HLz & Hg3 & Hg4 & Hget & Htree & _).
    assert (HgetZ : forall i s, zget subs i = Some s -> exists l, zget g i = Some (set_nest l s)). { intros i s Hs. pose proof (zget_some _ _ _ Hs). rewrite zget_nat in * by lia. apply Hget. exact Hs. }
    unfold merge_inclusive. rewrite Eg. destruct (detect_ok near snap g par ex dep fuel o1 o2) as (a & mg & Ed & HLa & HLm & Ha & Hmg); [rewrite HL; assumption..|]. rewrite Ed. cbn [rbind fst snd].
    set (marked := renest subs a). assert (HLk : length marked = length subs) by (apply renest_length; congruence).
    assert (Hak : forall i s, zget subs i = Some s -> exists l u, zget g i = Some (set_nest l s) /\ zget a i = Some u /\ zget marked i = Some (set_nest (s_nest s) u) /\ detected snap (sinks_by near (lists g) g) i (set_nest l s) u).
    { intros i s Hs. destruct (HgetZ i s Hs) as (l & Hl). pose proof (zget_some _ _ _ Hs). assert (Hl' := Hl). rewrite zget_nat in Hl' by lia. destruct (Ha _ _ Hl') as (u & Hu & Hd). replace (Z.of_nat (Z.to_nat i)) with i in Hd by lia. assert (Hu' : zget a i = Some u) by (rewrite zget_nat by lia; exact Hu).
      exists l, u. split; [exact Hl|]. split; [exact Hu'|]. split; [apply renest_get; assumption|exact Hd]. }
    assert (Hdet : forall i s, zget subs i = Some s -> exists u, zget marked i = Some u /\ detected snap (sinks_to near heads subs) i s u).
    { intros i s Hs. destruct (Hak i s Hs) as (l & u & _ & _ & Hm & Hd). eexists. split; [exact Hm|]. unfold detected in *. cbn [s_sink set_nest] in Hd. destruct (s_sink s =? -1).
      - destruct Hd as [(k & Hk & ->)|[Hk ->]]; [left; exists k; split; [apply sg; exact Hk|destruct s; reflexivity]|right]. split; [intros k Hc; apply (Hk k); apply sg; exact Hc|destruct s; reflexivity].
      - rewrite Hd. destruct s; reflexivity. }
    assert (Hnests : forall i l, local_nest g i l -> local_nest a i l).
    { intros i l (s & Hs & El). pose proof (zget_some _ _ _ Hs). unfold local_nest. rewrite zget_nat in * by lia. destruct (Ha _ _ Hs) as (u & Hu & Hd). exists u. split; [exact Hu|]. unfold detected in Hd. destruct (s_sink s =? -1); [destruct Hd as [(k & _ & ->)|[_ ->]]|rewrite Hd]; exact El. }
    destruct merge_trapped.
    2:{ cbn [rbind]. rewrite (ung a ltac:(congruence) Hnests). cbn [of_opt]. exists marked, marked. auto. }
    destruct (merge_halos_by _ _ _ _ _ _ HN Hheads Hhosts _ _ Eg snap (merge_at_inclusive pmass snap) (merge_rec_inclusive pmass snap) fuel o3) as (L & HndL & HinL & HbL & Hrun); [apply at_list_nests|intros; apply at_tree; assumption|lia|eapply Permutation_NoDup; [symmetry; exact Ho3|apply seq_NoDup]|intros h Hh; apply (Permutation_in _ Ho3), in_seq in Hh; lia|]. rewrite (Hrun a Hnests).
    (* newly trapped ones *)
    assert (Hnew : forall i s, zget a i = Some s -> sinking s -> exists s0, zget subs i = Some s0 /\ s_sink s0 = -1 /\ sinks_by near (lists g) g i (s_sink s) /\ s_nbound s0 = s_nbound s /\ s_parts s0 = s_parts s).
    { intros i s Hs [Hk Hd]. destruct (zget_in_range subs i) as [s0 H0]; [rewrite <- HL, <- HLa; eapply zget_some; eauto|]. exists s0. split; [exact H0|]. destruct (Hak i s0 H0) as (l & u & _ & Hu & _ & Hdt). assert (u = s) by congruence. subst u. unfold detected in Hdt. cbn [s_sink set_nest] in Hdt.
      destruct (Z.eqb_spec (s_sink s0) (-1)) as [E|E].
      - split; [exact E|]. destruct Hdt as [(k & Hk' & ->)|[_ ->]]; [cbn; auto|]. cbn in Hk. contradiction.
      - exfalso. subst s. cbn in *. eapply Hold; eauto. }
    assert (HL4 : forall i s, zget a i = Some s -> sinking s -> In i L).
    { intros i s Hs Hk. destruct (Hnew i s Hs Hk) as (s0 & _ & _ & (d & Hab & _) & _). assert (Hpar := above_parent _ _ _ _ Hab).
      destruct Hpar as [p Hp]. destruct (listed_group _ _ _ _ _ _ HN Hheads Hhosts _ _ Eg p i Hp) as (h & c0 & rest & t & Hg & _ & Hc & _). apply HinL. exists h, (c0 :: rest). split; [|auto]. apply (Permutation_in _ (Permutation_sym Ho3)). apply in_seq. pose proof (nth_error_lt _ _ _ Hg). assert (length table = S nh) by apply HN. lia. }
    destruct (at_list pmass snap a L) as (b & Eb & HLb & HIb).
    { exact HndL. }
    { intros i Hi. apply HinL in Hi as (h & gr & _ & Hg & Hi). apply in_map_iff in Hi as (n & <- & Hn). destruct (table_member _ _ _ _ _ HN _ _ n Hg Hn) as (s & Hs & _). apply zget_in_range. apply nth_error_lt in Hs. rewrite HLa. lia. }
    { intros i s Hi Hs Hk. destruct (Hnew i s Hs Hk) as (s0 & H0 & _ & (d & Hab & (x & u & _ & Hu & _) & _) & En & Ep). split; [apply zget_in_range; rewrite HLa; eapply zget_some; eauto|]. intros Hb. rewrite <- Ep. eapply Hlive; [exact H0|lia]. }
    rewrite Eb. cbn [rbind]. destruct (unbind_merged_ok moved nh sizes near pmass snap unb U tr unb_ok U_nest U_renest tr_nest tr_nest' o4 mg b) as (w & Ew & HLw & Hw); [rewrite HLb, HLa, HL; exact Ho4|congruence|]. rewrite Ew. cbn [rbind].
    assert (Hnb : forall i l, local_nest g i l -> local_nest w i l).
    { intros i l Hil. apply Hnests in Hil. eapply at_list_nests in Hil; [|exact Eb]. destruct Hil as (s & Hs & El). pose proof (zget_some _ _ _ Hs). unfold local_nest. rewrite zget_nat in * by lia. destruct (nth_error_in_range mg (Z.to_nat i)) as [m Hm]; [lia|].
      specialize (Hw _ _ _ Hs Hm). destruct m; [destruct Hw as (u & HU & Hw)|]; eexists; (split; [exact Hw|]); [|exact El]. rewrite tr_nest', (U_nest _ _ HU). exact El. }
    rewrite (ung w ltac:(congruence) Hnb). cbn [of_opt]. exists marked, (renest subs w). split; [reflexivity|]. split; [exact HLk|]. split; [apply renest_length; congruence|]. split; [exact Hdet|].
    assert (Hma : forall i s, zget marked i = Some s -> exists s0 u, zget subs i = Some s0 /\ zget a i = Some u /\ s = set_nest (s_nest s0) u).
    { intros i s Hs. destruct (zget_in_range subs i) as [s0 H0]; [rewrite <- HLk; eapply zget_some; eauto|]. destruct (Hak i s0 H0) as (l & u & _ & Hu & Hm & _). exists s0, u. split; [exact H0|]. split; [exact Hu|congruence]. }
    assert (Hflag : forall k m, zget mg k = Some m -> (m = true <-> receives marked k)).
    { intros k m Hm. rewrite (Hmg k m Hm). split.
      - intros (i & s & _ & Hs & Es & Hnbs & Hk). destruct (same i s Hs) as (s0 & H0 & E0). assert (H0' : zget subs (Z.of_nat i) = Some s0) by (rewrite zget_of_nat; exact H0). destruct (Hak _ _ H0') as (l & u & Hl & Hu & Hmk & Hd). unfold detected in Hd.
        assert (Es0 : s_sink s0 = -1) by (rewrite E0 in Es; exact Es). cbn [s_sink set_nest] in Hd. rewrite Es0 in Hd. cbn [Z.eqb Pos.eqb] in Hd. destruct Hd as [(k' & Hk' & ->)|[Hno _]]; [|exfalso; eapply Hno; eauto].
        assert (k' = k) by (eapply sinks_fun; [exact par|exact Hk'|exact Hk]). subst k'.
        assert (Hnb0 : s_nbound s0 = s_nbound s) by (rewrite E0; reflexivity).
        assert (Hk0 : k <> -1). { destruct Hk as (d & _ & (_ & z & _ & Hz & _) & _). apply zget_some in Hz. lia. }
        exists (Z.of_nat i). eexists. split; [exact Hmk|]. split; [split; [exact Hk0|]; cbn; apply (Hlive _ _ H0'); lia|]. split; [cbn; lia|reflexivity].
      - intros (x & u & Hu & S1 & S2 & Ek). destruct (Hma x u Hu) as (s1 & u1 & H1 & Hu1 & ->). destruct (Hnew x u1 Hu1 S1) as (s0 & H0 & E1 & Hk & En & _). destruct (HgetZ x s0 H0) as (l & Hl). pose proof (zget_some _ _ _ Hl). cbn [s_sink s_nbound set_nest] in *.
        exists (Z.to_nat x), (set_nest l s0). rewrite zget_nat in Hl by lia. split; [exact I|]. split; [exact Hl|]. split; [exact E1|]. split; [cbn; lia|]. replace (Z.of_nat (Z.to_nat x)) with x by lia. rewrite <- Ek. exact Hk. }
    intros i s Hs. destruct (Hma i s Hs) as (s0 & sa & H0 & Hsa & Es). destruct (HIb i sa Hsa) as (ub & Hub & Hrem & Hgat). pose proof (zget_some _ _ _ Hsa) as Hri.
    destruct (zget_in_range mg i) as [m Hm]; [lia|]. assert (Hwi : if m then exists u, U ub u /\ zget w i = Some (tr u) else zget w i = Some ub). { assert (Hub' := Hub). assert (Hm' := Hm). rewrite zget_nat in Hub' by lia. rewrite zget_nat in Hm' by lia. rewrite zget_nat by lia. exact (Hw _ _ _ Hub' Hm'). }
    set (n := s_nest s0). exists (set_nest n ub), (if m then match zget w i with Some x => set_nest n x | None => set_nest n ub end else set_nest n ub).
    split; [destruct m; [destruct Hwi as (u & HU & Hwi); rewrite Hwi|]; apply renest_get; assumption|]. split; [|split; [|split]].
    - intros Hk. assert (Hk' : sinking sa) by (rewrite Es in Hk; exact Hk). specialize (Hrem (HL4 i sa Hsa Hk') Hk'). unfold remains in *. rewrite Es. cbn [s_nbound s_parts set_nest]. destruct (s_nbound sa <=? 1)%nat; [rewrite Hrem; reflexivity|]. destruct Hrem as (p & r & E1 & ->). exists p, r. auto.
    - intros Hk. assert (Hk' : ~ sinking sa) by (rewrite Es in Hk; exact Hk). rewrite (Hgat ltac:(tauto)), Es. reflexivity.
    - intros Hc. apply (Hflag i m Hm) in Hc. subst m. destruct Hwi as (u & HU & Hwi). rewrite Hwi. exists (set_nest n u). split; [|symmetry; apply tr_nest].
      specialize (U_renest (s_nest ub) (set_nest n ub) u). cbn [s_nest set_nest] in U_renest. rewrite set_nest_set in U_renest. apply U_renest. rewrite set_nest_id. exact HU.
    - intros Hc. destruct m; [exfalso; apply Hc, (Hflag i true Hm); reflexivity|reflexivity].
  Qed.
End W.
