(** Any work on the joined nest of every halo. *)
From Coq Require Import List ZArith Bool Lia Sorting.Permutation.
From Verif.Model Require Import ListMem Mpi Run Hash Subhalo Nest Mask.
From Verif.Spec Require Import Members Forest Nesting.
From Verif.Proofs Require Import ListMemProofs MpiProofs ListExtra MemberProofs TreeProofs NestProofs NestProofs2 NestProofs3 NestProofs4 NestProofs5 LocalizeProofs ForestSteps HistorySteps ReachProofs GlueProofs GlueTree.
Import ListNotations.
Local Open Scope Z_scope.

Section Body.
  Context {X R : Type}.
  Local Notation subs_t := (list (sub X R)).
  Definition agree (l : list Z) (a b : subs_t) : Prop := forall i, In i l -> zget a i = zget b i.
  (** [body] on the root of any tree of at most [n] levels ends, changes the members of the tree only and no nest, and
      establishes [Q], if the tree meets [P]. *)
  Record body_ok (body : Z -> subs_t -> run subs_t) (n : nat) (P : tree -> subs_t -> Prop) (Q : tree -> subs_t -> subs_t -> Prop) : Prop := {
    bo_run : forall t cur, represents (local_nest cur) t -> NoDup (nodes t) -> (height t <= n)%nat -> P t cur ->
      exists cur', body (label t) cur = Done cur' /\ length cur' = length cur /\ (forall i, ~ In i (nodes t) -> zget cur' i = zget cur i) /\
        (forall i s s', zget cur i = Some s -> zget cur' i = Some s' -> s_nest s' = s_nest s) /\ Q t cur cur';
    bo_pre : forall t a b, agree (nodes t) a b -> P t a -> P t b;
    bo_post : forall t a b c d, agree (nodes t) a c -> agree (nodes t) b d -> Q t a b -> Q t c d }.
End Body.

Section W.
  Context {X R : Type}.
  Local Notation subs_t := (list (sub X R)).
  Variables (moved : subs_t) (nh : nat) (table : list (list nat)) (subs : subs_t) (ts : list tree) (heads : list (list nat)).
  Hypothesis HN : nested_as moved nh table subs ts.
  Hypothesis Hheads : mapM (heads_of subs) (tl table) = Some heads.

  Lemma tl_at (t : list (list nat)) h g : nth_error (tl t) h = Some g <-> nth_error t (S h) = Some g.
  Proof. destruct t; cbn; [destruct h; cbn; split; intros; discriminate|reflexivity]. Qed.

  Lemma groups_disjoint h k g g' i : nth_error table h = Some g -> nth_error table k = Some g' -> In i g -> In i g' -> h = k.
  Proof.
    intros Hg Hg' Hi Hi'. destruct HN as (_ & _ & _ & HTG & _). destruct (HTG _ _ Hg) as [A _]. destruct (HTG _ _ Hg') as [B _].
    apply A in Hi as (s & Hs & Es). apply B in Hi' as (s' & Hs' & Es'). assert (s = s') by congruence. subst. lia.
  Qed.

  Lemma set_nest_set n m (s : sub X R) : set_nest n (set_nest m s) = set_nest n s.
  Proof. reflexivity. Qed.
  Lemma set_nest_id (s : sub X R) : set_nest (s_nest s) s = s.
  Proof. destruct s; reflexivity. Qed.

  Lemma over_halos_spec body n P Q order glued sizes : body_ok body n P Q -> (length subs <= n)%nat -> Permutation order (seq 0 nh) ->
    glue (tl table) heads subs = Some (glued, sizes) ->
    (forall h c rest t, nth_error table (S h) = Some (c :: rest) -> represents (local_nest glued) t -> label t = Z.of_nat c -> Permutation (nodes t) (zs (c :: rest)) -> P t glued) ->
    exists out worked, over_halos body order (tl table) heads subs = Done out /\ length out = length subs /\ length worked = length subs /\
      Forall2 (fun a b => s_nest a = s_nest b) glued worked /\
      (forall i s w, zget subs i = Some s -> zget worked i = Some w -> zget out i = Some (set_nest (s_nest s) w)) /\
      (forall h c rest, nth_error table (S h) = Some (c :: rest) -> exists t, represents (local_nest glued) t /\ label t = Z.of_nat c /\ Permutation (nodes t) (zs (c :: rest)) /\ Q t glued worked) /\
      (forall i, (forall h g, nth_error table (S h) = Some g -> ~ In i g) -> nth_error out i = nth_error subs i).
  Proof.
    intros HB Hn Hord Eg HP. destruct (glued_trees _ _ _ _ _ _ HN Hheads) as (glued' & sizes' & Eg' & HL & Hget & Htree & Hrest). rewrite Eg in Eg'. injection Eg' as <- <-.
    pose proof (centrals_nodup _ _ _ _ _ _ HN Hheads) as Hcn. pose proof (heads_len _ _ _ Hheads) as Hhl.
    destruct (glue_spec (tl table) heads subs Hcn Hhl (glue_ok _ _ _ _ _ _ HN Hheads)) as (g' & sz' & E & _ & _ & Hg3 & Hg4). rewrite Eg in E. injection E as <- <-.
    assert (HTL : length table = S nh) by apply HN.
    assert (Hcg : forall h g i, nth_error table (S h) = Some g -> In i g -> In i (centrals (tl table)) -> exists rest, g = i :: rest).
    { intros h g i Hg Hi Hc. apply centrals_in in Hc as (k & rest & Hk). apply (tl_at table) in Hk. assert (S h = S k) by (eapply groups_disjoint; eauto; left; reflexivity). assert (h = k) by lia. subst k. exists rest. congruence. }
    set (Inv := fun (pre : list nat) (cur : subs_t) => length cur = length subs /\
      (forall i, (forall h g, In h pre -> nth_error table (S h) = Some g -> ~ In i (zs g)) -> zget cur i = zget subs i) /\
      (forall h c rest, In h pre -> nth_error table (S h) = Some (c :: rest) -> exists t w, represents (local_nest glued) t /\ label t = Z.of_nat c /\ Permutation (nodes t) (zs (c :: rest)) /\ Q t glued w /\
         (forall i, In i (zs (c :: rest)) -> exists s g wi, zget subs i = Some s /\ zget glued i = Some g /\ zget w i = Some wi /\ s_nest wi = s_nest g /\ zget cur i = Some (set_nest (s_nest s) wi)))).
    destruct (run_each_inv Inv (fun h l => match nth_error (tl table) h, nth_error heads h with Some g, Some hs => halo_work body g hs l | _, _ => Crash end) order [] subs) as (out & Eout & HLo & Hun & Hdone).
    - split; [reflexivity|]. split; [reflexivity|]. intros h c rest [].
    - intros pre h q cur Eo (H1 & H2 & H3). cbn in Eo.
      assert (Hh : (h < nh)%nat). { assert (In h (seq 0 nh)) as Hin by (apply (Permutation_in _ Hord); rewrite Eo; apply in_or_app; right; left; reflexivity). apply in_seq in Hin. lia. }
      assert (Hnp : ~ In h pre).
      { intros Hin. assert (NoDup order) as Hno by (eapply Permutation_NoDup; [symmetry; exact Hord|apply seq_NoDup]). rewrite Eo in Hno. eapply NoDup_app_disjoint; [exact Hno|exact Hin|left; reflexivity]. }
      destruct (nth_error_in_range table (S h)) as [g Hg]; [lia|]. destruct (nth_error_in_range heads h) as [hs Hhs]; [destruct table; [discriminate|]; cbn in *; lia|].
      rewrite (proj2 (tl_at table h g) Hg), Hhs.
      assert (Hfresh : forall i, In i (zs g) -> zget cur i = zget subs i).
      { intros i Hi. apply H2. intros k g' Hk Hg' Hi'. apply in_map_iff in Hi as (j & <- & Hj). apply in_zs in Hi'. assert (S h = S k) by (eapply groups_disjoint; eauto). assert (h = k) by lia. subst. contradiction. }
      destruct g as [|c rest].
      + exists cur. split; [reflexivity|]. split; [exact H1|]. split.
        * intros i Hi. apply H2. intros k g Hk. apply Hi. apply in_or_app. left. exact Hk.
        * intros k c rest Hk Hkt. apply in_app_or in Hk as [Hk|[->|[]]]; [eauto|congruence].
      + destruct (Htree h c rest Hg) as (t & HR & Hlab & HPn). destruct (heads_first _ _ _ _ _ _ HN Hheads h c rest Hg) as (others & Hho & _). rewrite Hhs in Hho. injection Hho as ->.
        destruct (table_member _ _ _ _ _ HN _ _ c Hg (or_introl eq_refl)) as (sc & Hsc & _ & _). pose proof (proj2 (tl_at table h (c :: rest)) Hg) as Hg'.
        destruct (Hg4 h c rest c others sc Hg' Hhs Hsc) as [Hgc _].
        assert (Hcc : nth_error cur c = Some sc). { rewrite <- zget_of_nat, Hfresh, zget_of_nat; [exact Hsc|]. left. reflexivity. }
        cbn [halo_work glue_one]. rewrite Hcc. destruct (modify_some cur c (set_nest (s_nest sc ++ map Z.of_nat others)) sc Hcc) as [cur1 E1]. rewrite E1.
        assert (HL1 := modify_length _ _ _ _ E1). assert (Hm1 := fun j => modify_nth _ _ _ _ j E1).
        assert (Hag : agree (nodes t) glued cur1).
        { intros i Hi. apply (Permutation_in _ HPn) in Hi. apply in_map_iff in Hi as (j & <- & Hj). rewrite !zget_of_nat, Hm1. destruct (Nat.eqb_spec j c) as [->|Hne].
          - rewrite Hcc. cbn. exact Hgc.
          - rewrite Hg3; [|intros Hc; destruct (Hcg h _ j Hg Hj Hc) as [r Er]; congruence]. rewrite <- !zget_of_nat. symmetry. apply Hfresh. apply in_zs. exact Hj. }
        assert (Hnt : NoDup (nodes t)). { eapply Permutation_NoDup; [symmetry; exact HPn|]. apply NoDup_map_inj; [intros x y _ _; apply Nat2Z.inj|]. destruct HN as (_ & _ & _ & HTG & _). apply (HTG _ _ Hg). }
        assert (Hlen : (length (c :: rest) <= length subs)%nat).
        { rewrite <- (seq_length (length subs) 0). apply NoDup_incl_length; [destruct HN as (_ & _ & _ & HTG & _); apply (HTG _ _ Hg)|]. intros j Hj. destruct (table_member _ _ _ _ _ HN _ _ j Hg Hj) as (s & Hs & _). apply in_seq. pose proof (nth_error_lt _ _ _ Hs). lia. }
        destruct (bo_run _ _ _ _ HB t cur1) as (cur2 & E2 & HL2 & Hout2 & Hn2 & HQ).
        * eapply represents_ext; [exact HR|]. intros i l Hi (s & Hs & El). exists s. split; [|exact El]. rewrite <- (Hag i Hi). exact Hs.
        * exact Hnt.
        * pose proof (height_le_nodes t). rewrite (Permutation_length HPn) in H. unfold zs in H. rewrite map_length in H. lia.
        * eapply (bo_pre _ _ _ _ HB); [exact Hag|]. eapply HP; eassumption.
        * assert (E2' : body (Z.of_nat c) cur1 = Done cur2) by (rewrite <- Hlab; exact E2).
          rewrite E2'. cbn [rbind unglue_one].
          assert (Hc1 : zget cur1 (Z.of_nat c) = Some (set_nest (s_nest sc ++ map Z.of_nat others) sc)). { rewrite zget_of_nat, Hm1, Nat.eqb_refl, Hcc. reflexivity. }
          assert (Hrange : forall i s, zget cur1 i = Some s -> exists s', zget cur2 i = Some s'). { intros i s Hs. apply zget_in_range. rewrite HL2. eapply zget_some; eauto. }
          destruct (Hrange _ _ Hc1) as [w Hw]. pose proof (Hn2 _ _ _ Hc1 Hw) as Hwn. cbn in Hwn.
          rewrite zget_of_nat in Hw. rewrite Hw. destruct (modify_some cur2 c (set_nest (firstn (length (s_nest sc)) (s_nest w ++ repeat 0 (length (s_nest sc))))) w Hw) as [cur3 E3]. rewrite E3. cbn [of_opt].
          assert (HL3 := modify_length _ _ _ _ E3). assert (Hm3 := fun j => modify_nth _ _ _ _ j E3). rewrite Hwn in E3, Hm3. rewrite <- app_assoc, firstn_app, Nat.sub_diag, firstn_all in Hm3. cbn in Hm3. rewrite app_nil_r in Hm3.
          exists cur3. split; [reflexivity|]. split; [congruence|].
          assert (Hsmall : forall i, ~ In i (zs (c :: rest)) -> zget cur3 i = zget cur i).
          { intros i Hi. destruct (Z.ltb_spec i 0) as [Hneg|Hpos]; [unfold zget; replace (i <? 0) with true by (symmetry; apply Z.ltb_lt; lia); reflexivity|].
            replace i with (Z.of_nat (Z.to_nat i)) in * by lia. rewrite !zget_of_nat, Hm3. destruct (Nat.eqb_spec (Z.to_nat i) c) as [Ec|Ec]; [exfalso; apply Hi; rewrite Ec; left; reflexivity|].
            rewrite <- zget_of_nat, Hout2, zget_of_nat, Hm1; [|intros Hin; apply Hi; eapply Permutation_in; eauto]. destruct (Nat.eqb_spec (Z.to_nat i) c); [contradiction|reflexivity]. }
          split.
          -- intros i Hi. rewrite Hsmall; [apply H2; intros k g Hk; apply Hi; apply in_or_app; left; exact Hk|]. apply (Hi h); [apply in_or_app; right; left; reflexivity|exact Hg].
          -- intros k c' rest' Hk Hkt. apply in_app_or in Hk as [Hk|[Ek|[]]].
             ++ destruct (H3 k c' rest' Hk Hkt) as (t' & w' & A & B & C & D & F). exists t', w'. split; [exact A|]. split; [exact B|]. split; [exact C|]. split; [exact D|].
                intros i Hi. rewrite Hsmall; [exact (F i Hi)|]. intros Hi'. apply in_map_iff in Hi as (j & <- & Hj). apply in_zs in Hi'. assert (S h = S k) by (eapply groups_disjoint; eauto). assert (h = k) by lia. subst. contradiction.
             ++ rewrite <- Ek, Hg in Hkt. injection Hkt as <- <-. exists t, cur2. split; [exact HR|]. split; [exact Hlab|]. split; [exact HPn|]. split.
                ** eapply (bo_post _ _ _ _ HB); [intros i Hi; symmetry; exact (Hag i Hi)|intros i Hi; reflexivity|exact HQ].
                ** intros i Hi. assert (Hit : In i (nodes t)) by (eapply Permutation_in; [symmetry; exact HPn|exact Hi]).
                   apply in_map_iff in Hi as (j & <- & Hj). destruct (table_member _ _ _ _ _ HN _ _ j Hg Hj) as (s & Hs & _).
                   destruct (Hget j s Hs) as [l Hl]. assert (Hj1 : zget cur1 (Z.of_nat j) = Some (set_nest l s)) by (rewrite <- (Hag _ Hit), zget_of_nat; exact Hl).
                   destruct (Hrange _ _ Hj1) as [wj Hwj]. pose proof (Hn2 _ _ _ Hj1 Hwj) as Hnj. exists s, (set_nest l s), wj. rewrite !zget_of_nat in *. split; [exact Hs|]. split; [exact Hl|]. split; [exact Hwj|]. split; [exact Hnj|].
                   rewrite Hm3. destruct (Nat.eqb_spec j c) as [->|Hne]; rewrite Hwj; cbn [option_map].
                   --- replace (s_nest s) with (s_nest sc) by congruence. reflexivity.
                   --- assert (Hsl : l = s_nest s). { assert (Hx : nth_error glued j = nth_error subs j) by (apply Hg3; intros Hc; destruct (Hcg h _ j Hg Hj Hc) as [r Er]; congruence). rewrite Hl, Hs in Hx. apply (f_equal (option_map s_nest)) in Hx. cbn in Hx. congruence. }
                       f_equal. rewrite <- Hsl. cbn in Hnj. rewrite <- Hnj. symmetry. apply set_nest_id.
    - rewrite app_nil_l in Hdone, Hun. fold (over_halos body order (tl table) heads subs) in Eout.
      set (worked := map (fun og => set_nest (s_nest (snd og)) (fst og)) (combine out glued)).
      assert (HLw : length worked = length subs) by (unfold worked; rewrite map_length, combine_length; lia).
      assert (Hnw : forall i, nth_error worked i = match nth_error out i, nth_error glued i with Some o, Some g => Some (set_nest (s_nest g) o) | _, _ => None end).
      { unfold worked. clear. revert glued. induction out as [|o l IH]; intros [|g m] [|i]; cbn; try reflexivity; try (destruct (nth_error l i); reflexivity). apply IH. }
      assert (Hall : forall h, In h order <-> (h < nh)%nat). { intros h. split; intros Hh; [apply (Permutation_in _ Hord) in Hh; apply in_seq in Hh; lia|]. apply (Permutation_in _ (Permutation_sym Hord)). apply in_seq. lia. }
      assert (Hun' : forall i, (forall h g, nth_error table (S h) = Some g -> ~ In i g) -> nth_error out i = nth_error subs i).
      { intros i Hc. rewrite <- !zget_of_nat. apply Hun. intros h g _ Hg Hi. apply in_zs in Hi. eapply Hc; eauto. }
      exists out, worked. split; [exact Eout|]. split; [exact HLo|]. split; [exact HLw|]. split; [|split; [|split]].
      + apply Forall2_of_nth; [congruence|]. intros i g w Hgi Hw. rewrite Hnw, Hgi in Hw. destruct (nth_error out i); [|discriminate]. injection Hw as <-. reflexivity.
      + intros i s w Hs Hw. pose proof (zget_some _ _ _ Hs). replace i with (Z.of_nat (Z.to_nat i)) in * by lia. rewrite !zget_of_nat in *. set (j := Z.to_nat i) in *. clearbody j. clear i H.
        rewrite Hnw in Hw. destruct (nth_error out j) as [o|] eqn:Eo; [|discriminate]. destruct (nth_error glued j) as [g|] eqn:Ej; [|discriminate]. injection Hw as <-. rewrite set_nest_set. f_equal. symmetry.
        enough (s_nest o = s_nest s) by (rewrite <- H; apply set_nest_id).
        destruct (in_dec Z.eq_dec (Z.of_nat j) (flat_map (fun h => match nth_error table (S h) with Some g => zs g | None => [] end) order)) as [Hin|Hin].
        * apply in_flat in Hin as (h & Hh & Hin). destruct (nth_error table (S h)) as [gg|] eqn:Egg; [|destruct Hin]. destruct gg as [|c rest]; [destruct Hin|]. destruct (Hdone h c rest Hh Egg) as (t & w & _ & _ & _ & _ & F). destruct (F _ Hin) as (s' & g' & wi & A & _ & _ & _ & B). rewrite zget_of_nat in *. assert (s' = s) by congruence. subst. rewrite Eo in B. injection B as ->. reflexivity.
        * assert (Hx : zget out (Z.of_nat j) = zget subs (Z.of_nat j)). { apply Hun. intros h g' Hh Hg' Hi'. apply Hin. apply in_flat. exists h. rewrite Hg'. auto. } rewrite !zget_of_nat in Hx. congruence.
      + intros h c rest Hg. assert (Hh : In h order). { apply Hall. pose proof (nth_error_lt _ _ _ Hg). lia. }
        destruct (Hdone h c rest Hh Hg) as (t & w & A & B & C & D & F). exists t. split; [exact A|]. split; [exact B|]. split; [exact C|].
        eapply (bo_post _ _ _ _ HB); [intros i _; reflexivity| |exact D]. intros i Hi. apply (Permutation_in _ C) in Hi. destruct (F i Hi) as (s & g & wi & F1 & F2 & F3 & F4 & F5).
        apply in_map_iff in Hi as (j & <- & Hj). rewrite !zget_of_nat in *. rewrite Hnw, F5, F2, F3. rewrite set_nest_set, <- F4. f_equal. symmetry. apply set_nest_id.
      + exact Hun'.
  Qed.
  Lemma unmembered i s : nth_error subs i = Some s -> (length moved <= i)%nat \/ s_host s = -1 -> forall h g, nth_error table (S h) = Some g -> ~ In i g.
  Proof. intros Hs Hc h g Hg Hi. destruct (table_member _ _ _ _ _ HN _ _ i Hg Hi) as (s' & Hs' & Es' & Hlt). assert (s' = s) by congruence. subst. destruct Hc; lia. Qed.
End W.
