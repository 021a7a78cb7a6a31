(** Masking all halos of a process. *)
From Coq Require Import List ZArith Bool Lia Sorting.Permutation.
From Verif.Model Require Import ListMem Mpi Run Hash Subhalo Nest Mask.
From Verif.Spec Require Import Members Forest Nesting Masking.
From Verif.Proofs Require Import ListMemProofs MpiProofs ListExtra MemberProofs TreeProofs NestProofs NestProofs2 NestProofs3 NestProofs4 NestProofs5 LocalizeProofs ForestSteps HistorySteps ReachProofs GlueProofs GlueTree HaloWork MaskProofs.
Import ListNotations.
Local Open Scope Z_scope.

Lemma set_parts_eq {X R} k (s : sub X R) l : set_nest (s_nest s) (set_parts k (set_nest l s)) = set_parts k s.
Proof. reflexivity. Qed.

Section W.
  Context {X R : Type}.
  Local Notation subs_t := (list (sub X R)).
  Variables (moved : subs_t) (nh : nat) (table : list (list nat)) (subs : subs_t) (ts : list tree) (heads : list (list nat)).
  Hypothesis HN : nested_as moved nh table subs ts.
  Hypothesis Hheads : mapM (heads_of subs) (tl table) = Some heads.

  (** The joined nests contain the nests. *)
  Lemma glued_lists glued sizes i c : glue (tl table) heads subs = Some (glued, sizes) -> lists subs i c -> lists glued i c.
  Proof.
    intros Eg (s & Hs & Hc). pose proof (centrals_nodup _ _ _ _ _ _ HN Hheads) as Hcn. pose proof (heads_len _ _ _ Hheads) as Hhl.
    destruct (glue_spec (tl table) heads subs Hcn Hhl (glue_ok _ _ _ _ _ _ HN Hheads)) as (g' & sz' & E & _ & _ & Hg3 & Hg4). rewrite Eg in E. injection E as <- <-.
    pose proof (zget_some _ _ _ Hs). replace i with (Z.of_nat (Z.to_nat i)) in * by lia. set (j := Z.to_nat i) in *. clearbody j. clear i H. rewrite zget_of_nat in Hs. unfold lists. rewrite zget_of_nat.
    destruct (in_dec Nat.eq_dec j (centrals (tl table))) as [Hi|Hi].
    - apply centrals_in in Hi as (k & rest & Hk). assert (Hk' := Hk). apply tl_at in Hk'. destruct (heads_first _ _ _ _ _ _ HN Hheads k j rest Hk') as (others & Ho & _). destruct (Hg4 k j rest j others s Hk Ho Hs) as [A _].
      exists (set_nest (s_nest s ++ map Z.of_nat others) s). split; [exact A|]. cbn. apply in_or_app. left. exact Hc.
    - exists s. rewrite (Hg3 j Hi). auto.
  Qed.
  Lemma glued_reach glued sizes i d c : glue (tl table) heads subs = Some (glued, sizes) -> reach subs i d c -> reach glued i d c.
  Proof. intros Eg H. induction H; [constructor|]. econstructor; [eassumption|]. eapply glued_lists; eauto. Qed.

  (** [j] is nested in [i], or [i] is the central of the host. *)
  Definition nested_below (i j : Z) : Prop :=
    (exists d, reach subs i (S d) j) \/ (exists h c rest, nth_error table (S h) = Some (c :: rest) /\ i = Z.of_nat c /\ In j (zs rest)).
  Lemma mask_halos_spec fuel order : (length subs <= fuel)%nat -> Permutation order (seq 0 nh) ->
    exists out, mask_halos fuel order (tl table) heads subs = Done out /\ length out = length subs /\
      (forall h g, nth_error table (S h) = Some g -> exclusive subs out (fun i => In i (zs g)) nested_below) /\
      (forall i, (forall h g, nth_error table (S h) = Some g -> ~ In i g) -> nth_error out i = nth_error subs i) /\
      Forall2 (fun a b => exists kept, b = set_parts kept a) subs out.
  Proof.
    intros Hf Hord. destruct (glued_trees _ _ _ _ _ _ HN Hheads) as (glued & sizes & Eg & HL & Hget & _).
    destruct (over_halos_spec moved nh table subs ts heads HN Hheads _ fuel _ _ order glued sizes (mask_body fuel) Hf Hord Eg) as (out & worked & Eo & HLo & HLw & Hgw & Hout & HQ & Hrest).
    { auto. }
    exists out. split; [exact Eo|]. split; [exact HLo|].
    assert (Hall : forall h g, nth_error table (S h) = Some g -> exclusive subs out (fun i => In i (zs g)) nested_below).
    { intros h g Hg. destruct g as [|c rest].
      - split; intros; try contradiction. split; intros (i & [] & _).
      - destruct (HQ h c rest Hg) as (t & HR & Hlab & HP & HX). assert (Hnd : NoDup (c :: rest)) by (destruct HN as (_ & _ & _ & HTG & _); apply (HTG _ _ Hg)).
        assert (Hnt : NoDup (nodes t)). { eapply Permutation_NoDup; [symmetry; exact HP|]. apply NoDup_map_inj; [intros x y _ _; apply Nat2Z.inj|exact Hnd]. }
        assert (Hmem : forall i, In i (nodes t) <-> In i (zs (c :: rest))) by (intros i; split; apply Permutation_in; [|symmetry]; exact HP).
        destruct (HX nested_below) as [Q1 Q2 Q3 Q4 Q5 Q6].
        { intros i j Hi [(d & Hd)|(h' & c' & rest' & Hc' & -> & Hj)].
          - eapply reach_post; [exact HR|exact Hnt|exact Hi|]. eapply glued_reach; eauto.
          - assert (h' = h /\ c' = c /\ rest' = rest) as (-> & -> & ->).
            { rewrite Hmem in Hi. apply in_zs in Hi. assert (S h' = S h) by (eapply groups_disjoint; eauto; left; reflexivity). assert (h' = h) by lia. subst. rewrite Hg in Hc'. injection Hc' as <- <-. auto. }
            assert (Hjn : In j (nodes t)) by (rewrite Hmem; right; exact Hj). destruct t as [r us]. cbn in Hlab. subst r. cbn [post]. apply before_app. right. right. split; [|left; reflexivity].
            cbn in Hjn. destruct Hjn as [<-|Hjn]; [exfalso; apply in_zs in Hj; inversion Hnd; contradiction|]. apply in_flat in Hjn as (u & Hu & Hju). apply in_flat. exists u. split; [exact Hu|]. eapply Permutation_in; [symmetry; apply post_nodes|exact Hju]. }
        assert (Hrel : forall i, In i (nodes t) -> exists s l k, zget subs i = Some s /\ zget glued i = Some (set_nest l s) /\ zget worked i = Some (set_parts k (set_nest l s)) /\ zget out i = Some (set_parts k s) /\ sublist k (s_parts s)).
        { intros i Hi. assert (Hi' := Hi). rewrite Hmem in Hi'. apply in_map_iff in Hi' as (j & <- & Hj). destruct (table_member _ _ _ _ _ HN _ _ j Hg Hj) as (s & Hs & _). destruct (Hget j s Hs) as [l Hl]. rewrite <- zget_of_nat in Hs, Hl.
          destruct (Q5 _ _ Hi Hl) as (k & Hk & Hsub). exists s, l, k. split; [exact Hs|]. split; [exact Hl|]. split; [exact Hk|]. split; [|exact Hsub]. rewrite (Hout _ _ _ Hs Hk). reflexivity. }
        assert (Hh1 : forall i id, In i (nodes t) -> (holds subs i id <-> holds glued i id)).
        { intros i id Hi. destruct (Hrel i Hi) as (s & l & k & A & B & _). unfold holds. split; intros (u & Hu & Hd); [exists (set_nest l s)|exists s]; (split; [assumption|]); [assert (u = s) by congruence|assert (u = set_nest l s) by congruence]; subst; exact Hd. }
        assert (Hh2 : forall i id, In i (nodes t) -> (holds out i id <-> holds worked i id)).
        { intros i id Hi. destruct (Hrel i Hi) as (s & l & k & _ & _ & A & B & _). unfold holds. split; intros (u & Hu & Hd); [exists (set_parts k (set_nest l s))|exists (set_parts k s)]; (split; [assumption|]); [assert (u = set_parts k s) by congruence|assert (u = set_parts k (set_nest l s)) by congruence]; subst; exact Hd. }
        split.
        + intros i s Hi Hs Hb. rewrite <- Hmem in Hi. destruct (Hrel i Hi) as (s0 & l & k & _ & _ & A & B & _). assert (s = set_parts k s0) by congruence. subst. exact (Q1 i _ Hi A Hb).
        + intros i j id Hi Hj A B. rewrite <- Hmem in Hi, Hj. rewrite Hh2 in A, B by assumption. eauto.
        + intros id. split; intros (i & Hi & Hd); rewrite <- Hmem in Hi.
          * rewrite Hh1 in Hd by assumption. destruct (proj1 (Q3 id) (ex_intro _ i (conj Hi Hd))) as (j & A & B). exists j. rewrite <- Hmem, Hh2 by assumption. auto.
          * rewrite Hh2 in Hd by assumption. destruct (proj2 (Q3 id) (ex_intro _ i (conj Hi Hd))) as (j & A & B). exists j. rewrite <- Hmem, Hh1 by assumption. auto.
        + intros i j id Hi Hij A B. rewrite <- Hmem in Hi. rewrite Hh2 in B by assumption. apply (Q4 i j id Hi Hij); [|exact B].
          enough (In j (nodes t)) as Hj by (apply Hh1; assumption).
          destruct Hij as [(d & Hd)|(h' & c' & rest' & Hc' & Ei & Hj)].
          * eapply (glued_reach glued sizes) in Hd; [|exact Eg]. destruct (depths_in t 0 i Hi) as [x Hx]. eapply depths_node. eapply reach_in; eauto.
          * rewrite Hmem in Hi |- *. subst i. apply in_zs in Hi. assert (S h' = S h) by (eapply groups_disjoint; eauto; left; reflexivity). assert (h' = h) by lia. subst. rewrite Hg in Hc'. injection Hc' as <- <-. right. exact Hj.
        + intros i s Hi Hs. rewrite <- Hmem in Hi. destruct (Hrel i Hi) as (s0 & l & k & A & _ & _ & B & C). assert (s0 = s) by congruence. subst. eauto.
        + intros i s Hi Hs Hle. rewrite <- Hmem in Hi. destruct (Hrel i Hi) as (s0 & l & k & A & A2 & A3 & B & C). assert (s0 = s) by congruence. subst. pose proof (Q6 i _ Hi A2 Hle) as E. rewrite A3 in E. rewrite B.
          assert (k = s_parts s). { apply (f_equal (option_map s_parts)) in E. cbn in E. congruence. } subst k. destruct s; reflexivity. }
    split; [exact Hall|]. split; [exact Hrest|].
    apply Forall2_of_nth; [congruence|]. intros i a b Ha Hb. destruct (existsb (fun g => existsb (Nat.eqb i) g) (tl table)) eqn:Ex.
    - apply existsb_exists in Ex as (g & Hg & Hi). apply existsb_exists in Hi as (i' & Hi & Ei). apply Nat.eqb_eq in Ei. subst i'. apply In_nth_error in Hg as [h Hh]. apply tl_at in Hh.
      destruct (ex_order _ _ _ _ (Hall h g Hh) (Z.of_nat i) a) as (k & A & _); [apply in_zs; exact Hi|rewrite zget_of_nat; exact Ha|]. rewrite zget_of_nat in A. exists k. congruence.
    - exists (s_parts a). rewrite Hrest in Hb; [assert (b = a) by congruence; subst; destruct a; reflexivity|]. intros h g Hg Hi. apply tl_at in Hg.
      assert (existsb (fun g => existsb (Nat.eqb i) g) (tl table) = true); [|congruence]. apply existsb_exists. exists g. split; [eapply nth_error_In; eauto|]. apply existsb_exists. exists i. split; [exact Hi|apply Nat.eqb_refl].
  Qed.
End W.
