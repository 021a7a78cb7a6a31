(** The joined nests of a host form one tree rooted at the central. *)
From Coq Require Import List ZArith Bool Lia Sorting.Permutation.
From Verif.Model Require Import ListMem Mpi Run Hash Subhalo Nest.
From Verif.Spec Require Import Members Forest Nesting.
From Verif.Proofs Require Import ListMemProofs MpiProofs ListExtra MemberProofs TreeProofs NestProofs NestProofs2 NestProofs3 NestProofs4 NestProofs5 LocalizeProofs ForestSteps HistorySteps ReachProofs GlueProofs.
Import ListNotations.
Local Open Scope Z_scope.

Section G.
  Context {X R : Type}.
  Local Notation subs_t := (list (sub X R)).
  Variables (moved : subs_t) (nh : nat) (table : list (list nat)) (subs : subs_t) (ts : list tree) (heads : list (list nat)).
  Hypothesis HN : nested_as moved nh table subs ts.
  Hypothesis Hheads : mapM (heads_of subs) (tl table) = Some heads.

  Lemma tl_nth h g : nth_error (tl table) h = Some g <-> nth_error table (S h) = Some g.
  Proof. destruct table; cbn; [destruct h; split; discriminate|reflexivity]. Qed.
  Lemma heads_len : length heads = length (tl table).
  Proof. eapply mapM_length; eauto. Qed.
  Lemma table_member k g i : nth_error table k = Some g -> In i g -> exists s, nth_error subs i = Some s /\ s_host s = Z.of_nat k - 1 /\ (i < length moved)%nat.
  Proof.
    destruct HN as (_ & HL & HTL & HTG & Hold & _). intros Hk Hi. apply (HTG k g Hk) in Hi. pose proof (hosted_lt _ _ _ Hi). destruct Hi as (m & Hm & Em). destruct (Hold i m Hm) as (s & Hs & _ & Eh). exists s. split; [exact Hs|]. split; [congruence|assumption].
  Qed.
  Lemma heads_at h g : nth_error table (S h) = Some g -> exists hs, nth_error heads h = Some hs /\
    hs = filter (fun i => match nth_error subs i with Some s => s_rank s =? 0 | None => false end) g.
  Proof.
    intros Hg. apply tl_nth in Hg. destruct (mapM_nth _ _ _ _ _ Hheads Hg) as (hs & E & Hh). exists hs. split; [exact Hh|]. apply heads_spec in E; [exact E|]. intros i Hi. apply tl_nth in Hg. destruct (table_member _ _ _ Hg Hi) as (s & Hs & _). eapply nth_error_lt; eauto.
  Qed.
  Lemma heads_first h c rest : nth_error table (S h) = Some (c :: rest) -> exists others, nth_error heads h = Some (c :: others) /\
    others = filter (fun i => match nth_error subs i with Some s => s_rank s =? 0 | None => false end) rest.
  Proof.
    intros Hg. destruct (heads_at h _ Hg) as (hs & Hh & E). cbn in E. destruct (table_member _ _ c Hg) as (s & Hs & _); [left; reflexivity|]. rewrite Hs in E.
    destruct HN as (_ & _ & _ & _ & _ & _ & _ & _ & _ & Hr). rewrite (proj2 (Z.eqb_eq _ _) (Hr h c rest Hg s Hs)) in E. subst hs. eauto.
  Qed.
  Lemma centrals_nodup : NoDup (centrals (tl table)).
  Proof.
    destruct HN as (_ & _ & _ & HTG & _). assert (Hgen : forall l m, tl table = m ++ l -> NoDup (centrals l)); [|apply (Hgen (tl table) []); reflexivity].
    induction l as [|g l IH]; intros m Em; [constructor|]. unfold centrals. cbn [map concat]. fold (centrals l). assert (IHl := IH (m ++ [g])). rewrite <- app_assoc in IHl. specialize (IHl Em).
    destruct g as [|c rest]; [exact IHl|]. cbn. constructor; [|exact IHl]. intros Hc. apply centrals_in in Hc as (k & rest' & Hk).
    assert (H1 : nth_error table (S (length m)) = Some (c :: rest)). { apply tl_nth. rewrite Em, nth_error_app2, Nat.sub_diag by lia. reflexivity. }
    assert (H2 : nth_error table (S (length m + S k)) = Some (c :: rest')). { apply tl_nth. rewrite Em, nth_error_app2 by lia. replace (length m + S k - length m)%nat with (S k) by lia. exact Hk. }
    destruct (table_member _ _ c H1) as (s & Hs & E1 & _); [left; reflexivity|]. destruct (table_member _ _ c H2) as (s' & Hs' & E2 & _); [left; reflexivity|]. assert (s' = s) by congruence. subst. lia.
  Qed.

  Lemma glue_ok k c rest : nth_error (tl table) k = Some (c :: rest) -> (c < length subs)%nat /\ nth_error heads k <> Some [].
  Proof.
    intros Hk. apply tl_nth in Hk. destruct (table_member _ _ c Hk) as (s & Hs & _); [left; reflexivity|]. split; [eapply nth_error_lt; eauto|]. destruct (heads_first k c rest Hk) as (o & -> & _). discriminate.
  Qed.

  Lemma glued_trees : exists glued sizes, glue (tl table) heads subs = Some (glued, sizes) /\ length glued = length subs /\
    (forall i s, nth_error subs i = Some s -> exists l, nth_error glued i = Some (set_nest l s)) /\
    (forall h c rest, nth_error table (S h) = Some (c :: rest) -> exists t, represents (local_nest glued) t /\ label t = Z.of_nat c /\ Permutation (nodes t) (zs (c :: rest))) /\
    (forall i s, nth_error subs i = Some s -> (length moved <= i)%nat \/ s_host s = -1 -> nth_error glued i = Some s).
  Proof.
    destruct (glue_spec (tl table) heads subs centrals_nodup heads_len glue_ok) as (glued & sizes & E & H1 & H2 & H3 & H4). exists glued, sizes. split; [exact E|]. split; [exact H1|].
    assert (Hcen : forall i, In i (centrals (tl table)) -> exists h rest, nth_error table (S h) = Some (i :: rest)). { intros i Hi. apply centrals_in in Hi as (k & rest & Hk). apply tl_nth in Hk. eauto. }
    split; [|split].
    - intros i s Hs. destruct (in_dec Nat.eq_dec i (centrals (tl table))) as [Hi|Hi].
      + destruct (Hcen i Hi) as (h & rest & Hh). destruct (heads_first h i rest Hh) as (others & Ho & _). apply tl_nth in Hh. destruct (H4 h i rest i others s Hh Ho Hs) as [A _]. eauto.
      + exists (s_nest s). rewrite (H3 i Hi), Hs. destruct s; reflexivity.
    - intros h c rest Hg. destruct (heads_first h c rest Hg) as (others & Hh & Eo). assert (HN' := HN). destruct HN' as (Hlf & HL & HTL & HTG & Hold & Hfresh & _ & Hedge & _ & Hrk0).
      assert (Hnd : NoDup (c :: rest)) by (apply (HTG _ _ Hg)). assert (Huni : forall t i, In t ts -> In i (nodes t) -> hostz subs i = hostz subs (label t)).
      { intros t i Ht Hi. apply (tree_uniform (hostz subs) t); [|exact Hi]. intros a b Hab. apply Hedge. apply in_flat. eauto. }
      (* members of the host are exactly the group *)
      assert (Hmem : forall i s, nth_error subs i = Some s -> s_host s = Z.of_nat h -> In i (c :: rest)).
      { intros i s Hs Es. apply (HTG _ _ Hg). destruct (lt_dec i (length moved)) as [Hlt|Hge].
        - destruct (nth_error_in_range moved i Hlt) as [m Hm]. exists m. split; [exact Hm|]. destruct (Hold i m Hm) as (s' & Hs' & _ & Eh). assert (s' = s) by congruence. subst. lia.
        - exfalso. rewrite Forall_forall in Hfresh. destruct (Hfresh s) as (_ & _ & _ & g & Eg & Hempty). { apply (nth_error_In _ (i - length moved)). rewrite nth_skipn. replace (length moved + (i - length moved))%nat with i by lia. exact Hs. }
          assert (g = h) by lia. subst g. rewrite Hg in Hempty. discriminate. }
      assert (Hhz : forall i, In i (c :: rest) -> hostz subs (Z.of_nat i) = Z.of_nat h).
      { intros i Hi. destruct (table_member _ _ i Hg Hi) as (s & Hs & Es & _). unfold hostz. rewrite zget_of_nat, Hs. lia. }
      assert (Hin_iff : forall t i, In t ts -> In i (nodes t) -> hostz subs (label t) = Z.of_nat h -> In i (zs (c :: rest))).
      { intros t i Ht Hi Eh. destruct (forest_get subs ts Hlf t i Ht Hi) as [s Hs]. pose proof (zget_some _ _ _ Hs). assert (Es : s_host s = Z.of_nat h). { rewrite <- Eh, <- (Huni t i Ht Hi). unfold hostz. rewrite Hs. reflexivity. }
        rewrite zget_nat in Hs by lia. replace i with (Z.of_nat (Z.to_nat i)) by lia. apply in_zs. eapply Hmem; eauto. }
      (* trees of the heads *)
      assert (Htree : forall hs, (forall i, In i hs -> In i (c :: rest) /\ exists s, nth_error subs i = Some s /\ s_rank s = 0) -> exists us, map label us = zs hs /\ incl us ts).
      { induction hs as [|i hs IH]; intros Hhs; [exists []; split; [reflexivity|intros ? []]|]. destruct IH as (us & E1 & E2); [intros; apply Hhs; right; assumption|]. destruct (Hhs i (or_introl eq_refl)) as [_ (s & Hs & Er)].
        assert (Hl : In (Z.of_nat i) (map label ts)). { destruct Hlf as [_ Hr]. apply (Hr _ s); [rewrite zget_of_nat; exact Hs|exact Er]. } apply in_map_iff in Hl as (t & Et & Ht). exists (t :: us). cbn. split; [rewrite Et, E1; reflexivity|]. intros x [<-|Hx]; [exact Ht|auto]. }
      assert (Hhs : forall i, In i (c :: others) <-> In i (c :: rest) /\ exists s, nth_error subs i = Some s /\ s_rank s = 0).
      { intros i. destruct (table_member _ _ c Hg) as (sc & Hsc & _); [left; reflexivity|]. rewrite Eo. cbn [In]. rewrite filter_In. split.
        - intros [<-|[Hi Hb]]; [split; [auto|]; exists sc; split; [exact Hsc|]; eapply Hrk0; eauto|]. split; [auto|]. destruct (nth_error subs i) as [s|]; [|discriminate]. exists s. split; [reflexivity|]. apply Z.eqb_eq. exact Hb.
        - intros [[<-|Hi] (s & Hs & Er)]; [auto|]. right. split; [exact Hi|]. rewrite Hs. apply Z.eqb_eq. exact Er. }
      assert (Hndh : NoDup (c :: others)). { inversion Hnd; subst. constructor; [|apply NoDup_filter; assumption]. rewrite filter_In. tauto. }
      destruct (Htree (c :: others)) as (us & Eus & Hus); [intros i Hi; apply Hhs; exact Hi|]. destruct us as [|tc uo]; [discriminate|]. cbn in Eus. injection Eus as Etc Euo.
      assert (Hdis : NoDup (flat_map nodes (tc :: uo))).
      { assert (Hgen : forall us, incl us ts -> NoDup (map label us) -> NoDup (flat_map nodes us)).
        { induction us as [|u us IH]; intros Hi Hn; [constructor|]. cbn in Hn |- *. inversion Hn as [|? ? Hnu Hn2]; subst. apply NoDup_app_intro; [apply (forest_tree_nodup subs ts Hlf); apply Hi; left; reflexivity|apply IH; [intros x Hx; apply Hi; right; exact Hx|assumption]|].
          intros x Hx Hy. apply in_flat in Hy as (v & Hv & Hy). apply Hnu. assert (u = v) by (eapply (forest_tree_eq subs ts Hlf); eauto; apply Hi; [left; reflexivity|right; exact Hv]). subst. apply in_map. exact Hv. }
        apply Hgen; [exact Hus|]. cbn. rewrite Etc, Euo. change (NoDup (map Z.of_nat (c :: others))). apply NoDup_map_inj; [intros x y _ _; apply Nat2Z.inj|exact Hndh]. }
      assert (Hlab : forall u, In u (tc :: uo) -> exists i, label u = Z.of_nat i /\ In i (c :: others)).
      { intros u [<-|Hu]; [exists c; split; [exact Etc|left; reflexivity]|]. assert (Hl : In (label u) (map Z.of_nat others)) by (rewrite <- Euo; apply in_map; exact Hu). apply in_map_iff in Hl as (i & E1 & Hi). exists i. split; [congruence|right; exact Hi]. }
      destruct tc as [lc bs]. cbn in Etc. subst lc. exists (Node (Z.of_nat c) (bs ++ uo)). split; [|split; [reflexivity|]].
      + destruct (table_member _ _ c Hg) as (sc & Hsc & _); [left; reflexivity|]. assert (Hg' := Hg). apply tl_nth in Hg'. destruct (H4 h c rest c others sc Hg' Hh Hsc) as [Hgc _].
        assert (HRs : Forall (represents (local_nest subs)) ts) by apply Hlf. rewrite Forall_forall in HRs. pose proof (HRs _ (Hus _ (or_introl eq_refl))) as HRc. apply represents_node_inv in HRc as [(sc' & Hsc' & Enc) HRb]. rewrite zget_of_nat in Hsc'. assert (sc' = sc) by congruence. subst sc'.
        assert (Hext : forall t, represents (local_nest subs) t -> (forall x, In x (nodes t) -> x <> Z.of_nat c /\ In x (zs (c :: rest))) -> represents (local_nest glued) t).
        { intros t HR Hx. eapply represents_ext; [exact HR|]. intros i l Hi (s & Hs & El). destruct (Hx i Hi) as [Hne Hir]. exists s. split; [|exact El]. apply in_map_iff in Hir as (n & <- & Hn). rewrite zget_of_nat in Hs |- *. rewrite H3; [exact Hs|]. intros Hc'. destruct (Hcen n Hc') as (h' & rest' & Hh').
          destruct (table_member _ _ n Hg Hn) as (s1 & Hs1 & E1 & _). destruct (table_member _ _ n Hh') as (s2 & Hs2 & E2 & _); [left; reflexivity|]. assert (h' = h) by (assert (s1 = s2) by congruence; subst; lia). subst h'. rewrite Hg in Hh'. injection Hh' as ->. congruence. }
        constructor.
        * exists (set_nest (s_nest sc ++ map Z.of_nat others) sc). rewrite zget_of_nat. split; [exact Hgc|]. cbn. rewrite map_app, Euo, Enc. reflexivity.
        * cbn in Hdis. inversion Hdis as [|? ? Hnc Hdis']; subst. rewrite Forall_forall in HRb |- *. intros t Ht. assert (Hnt : forall x, In x (nodes t) -> x <> Z.of_nat c). { intros x Hx ->. apply Hnc. apply in_app_or in Ht. apply in_or_app. destruct Ht as [Ht|Ht]; [left|right]; apply in_flat; eauto. }
          apply in_app_or in Ht. destruct Ht as [Ht|Ht].
          -- apply Hext; [apply HRb; exact Ht|]. intros x Hx. split; [auto|]. apply (Hin_iff (Node (Z.of_nat c) bs)); [apply Hus; left; reflexivity|cbn; right; apply in_flat; eauto|]. apply Hhz. left; reflexivity.
          -- apply Hext; [apply HRs; apply Hus; right; exact Ht|]. intros x Hx. split; [auto|]. apply (Hin_iff t); [apply Hus; right; exact Ht|exact Hx|]. destruct (Hlab t (or_intror Ht)) as (i & -> & Hi). apply Hhz. apply Hhs. exact Hi.
      + assert (En : nodes (Node (Z.of_nat c) (bs ++ uo)) = flat_map nodes (Node (Z.of_nat c) bs :: uo)) by (cbn; rewrite flat_map_app; reflexivity). rewrite En. apply NoDup_Permutation; [exact Hdis|apply NoDup_map_inj; [intros x y _ _; apply Nat2Z.inj|exact Hnd]|].
        intros x. rewrite in_flat. split.
        * intros (t & Ht & Hx). apply (Hin_iff t); [apply Hus; exact Ht|exact Hx|]. destruct (Hlab t Ht) as (i & -> & Hi). apply Hhz. apply Hhs. exact Hi.
        * intros Hx. apply in_map_iff in Hx as (i & <- & Hi). destruct (table_member _ _ i Hg Hi) as (s & Hs & Es & _). destruct (forest_node subs ts Hlf (Z.of_nat i) s) as (t & Ht & Hit & _); [rewrite zget_of_nat; exact Hs|]. exists t. split; [|exact Hit].
          destruct (forest_get subs ts Hlf t (label t) Ht (label_in t)) as [r Hr]. pose proof (zget_some _ _ _ Hr) as Hrr. assert (Hr0 : s_rank r = 0) by (destruct Hlf as [_ Hroot]; apply (Hroot _ r Hr); apply in_map; exact Ht). assert (Hr' := Hr). rewrite zget_nat in Hr' by lia.
          assert (Er : s_host r = Z.of_nat h). { pose proof (Huni t (Z.of_nat i) Ht Hit) as Eu. rewrite (Hhz i Hi) in Eu. unfold hostz in Eu. rewrite Hr in Eu. congruence. }
          assert (Hrin : In (Z.to_nat (label t)) (c :: others)). { apply Hhs. split; [eapply Hmem; eauto|]. eauto. }
          assert (Hl : exists u, In u (Node (Z.of_nat c) bs :: uo) /\ label u = label t).
          { destruct Hrin as [Ec|Ho]; [exists (Node (Z.of_nat c) bs); split; [left; reflexivity|cbn; lia]|]. assert (Hz : In (label t) (map label uo)). { rewrite Euo. replace (label t) with (Z.of_nat (Z.to_nat (label t))) by lia. apply in_zs. exact Ho. } apply in_map_iff in Hz as (u & E1 & Hu). exists u. split; [right; exact Hu|exact E1]. }
          destruct Hl as (u & Hu & El). assert (u = t). { eapply (forest_tree_eq subs ts Hlf u t (label t)); [apply Hus; exact Hu|exact Ht|rewrite <- El; apply label_in|apply label_in]. } subst u. exact Hu.
    - intros i s Hs Hor. rewrite H3; [exact Hs|]. intros Hi. destruct (Hcen i Hi) as (h & rest & Hh). destruct (table_member _ _ i Hh) as (s' & Hs' & Es & Hlt); [left; reflexivity|]. assert (s' = s) by congruence. subst. destruct Hor; lia.
  Qed.
End G.
