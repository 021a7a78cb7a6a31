(** MergeSubhalos on one process. *)
From Coq Require Import List ZArith QArith Bool Lia Sorting.Permutation.
From Verif.Model Require Import ListMem Mpi Run Hash Subhalo Nest Mask Unbind Merge.
From Verif.Spec Require Import Members Forest Nesting Masking Sinking.
From Verif.Proofs Require Import ListMemProofs MpiProofs ListExtra MemberProofs TreeProofs NestProofs NestProofs2 NestProofs3 NestProofs4 NestProofs5 LocalizeProofs ForestSteps HistorySteps ReachProofs GlueProofs GlueTree HaloWork MaskProofs DetectProofs MergeProofs.
Import ListNotations.
Local Open Scope Z_scope.

Lemma depths_height t : forall d i x, In (i, x) (depths d t) -> x < d + Z.of_nat (height t).
Proof.
  induction t as [p ts IH] using tree_rect'. intros d i x H. cbn in H. destruct H as [H|H]; [injection H as <- <-; cbn; lia|]. apply in_flat in H as (t & Ht & H). rewrite Forall_forall in IH. specialize (IH t Ht _ _ _ H). pose proof (height_branch p ts t Ht). lia.
Qed.
Lemma above_parent (up : Z -> Z -> Prop) i d k : above up i (S d) k -> exists p, up p i.
Proof. intros H. remember (S d) as e eqn:E. revert d E. induction H as [|e m p H IH Hu]; intros d E; [discriminate|]. destruct e as [|e]; [inversion H; subst; eauto|eauto]. Qed.
Lemma above_trans' (up : Z -> Z -> Prop) i d m e k : above up i d m -> above up m e k -> above up i (e + d) k.
Proof. intros H J. induction J; [exact H|cbn; econstructor; eauto]. Qed.
Lemma above_irrefl (up : Z -> Z -> Prop) : (forall p q c : Z, up p c -> up q c -> p = q) -> forall i, (exists D r, above up i D r /\ forall p, ~ up p r) -> forall d, ~ above up i (S d) i.
Proof.
  intros one i (D & r & HD & Hr) d H. assert (Hk : forall n, exists e, (n <= e)%nat /\ above up i e i).
  { induction n as [|n (e & He & IH)]; [exists 0%nat; split; [lia|constructor]|]. exists (S d + e)%nat. split; [lia|]. eapply above_trans'; eauto. }
  destruct (Hk (S D)) as (e & He & Ha). pose proof (above_max up one i D r HD Hr _ _ Ha). lia.
Qed.
Section RA.
  Context {X R : Type}.
  Local Notation subs_t := (list (sub X R)).
  Lemma above_trans (up : Z -> Z -> Prop) i d m e k : above up i d m -> above up m e k -> above up i (e + d) k.
  Proof. intros H J. induction J; [exact H|cbn; econstructor; eauto]. Qed.
  Lemma reach_above (g : subs_t) r d i : reach g r d i -> above (lists g) i d r.
  Proof.
    intros H. induction H as [|d m c H IH Hl]; [constructor|]. replace (S d) with (d + 1)%nat by lia. eapply above_trans; [|exact IH]. econstructor; [constructor|exact Hl].
  Qed.
  Lemma above_reach (g : subs_t) r d i : above (lists g) i d r -> reach g r d i.
  Proof.
    intros H. induction H as [|d m p H IH Hl]; [constructor|]. replace (S d) with (1 + d)%nat by lia. eapply reach_trans; [|exact IH]. econstructor; [constructor|exact Hl].
  Qed.
  (** the nests of [subs] put back *)
  Definition renest (subs a : subs_t) : subs_t := map (fun p => set_nest (s_nest (fst p)) (snd p)) (combine subs a).
  Lemma renest_get subs a i s u : zget subs i = Some s -> zget a i = Some u -> zget (renest subs a) i = Some (set_nest (s_nest s) u).
  Proof.
    intros Hs Hu. pose proof (zget_some _ _ _ Hs). rewrite zget_nat in * by lia. set (n := Z.to_nat i) in *. clearbody n. clear -Hs Hu. unfold renest. revert a n Hs Hu. induction subs as [|x l IH]; intros [|y a] [|n] Hs Hu; cbn in *; try discriminate; [congruence|apply IH; assumption].
  Qed.
  Lemma renest_length subs a : length a = length subs -> length (renest subs a) = length subs.
  Proof. intros H. unfold renest. rewrite map_length, combine_length. lia. Qed.
End RA.

Section W.
  Context {X R : Type}.
  Local Notation subs_t := (list (sub X R)).
  Variables (moved : subs_t) (nh : nat) (table : list (list nat)) (subs : subs_t) (ts : list tree) (heads : list (list nat)).
  Hypothesis HN : nested_as moved nh table subs ts.
  Hypothesis Hheads : mapM (heads_of subs) (tl table) = Some heads.
  Hypothesis Hhosts : Forall (fun s => (-1 <= s_host s < Z.of_nat nh)%Z) moved.
  Variables (g : subs_t) (sizes : list nat).
  Hypothesis Eg : glue (tl table) heads subs = Some (g, sizes).

  Lemma g_all : length g = length subs /\ length sizes = length (tl table) /\
    (forall i, ~ In i (centrals (tl table)) -> nth_error g i = nth_error subs i) /\
    (forall h c rest s, nth_error table (S h) = Some (c :: rest) -> nth_error subs c = Some s -> exists others, nth_error heads h = Some (c :: others) /\ nth_error g c = Some (set_nest (s_nest s ++ map Z.of_nat others) s) /\ nth_error sizes h = Some (length (s_nest s))) /\
    (forall i s, nth_error subs i = Some s -> exists l, nth_error g i = Some (set_nest l s)) /\
    (forall h c rest, nth_error table (S h) = Some (c :: rest) -> exists t, represents (local_nest g) t /\ label t = Z.of_nat c /\ Permutation (nodes t) (zs (c :: rest))) /\
    (forall i s, nth_error subs i = Some s -> (length moved <= i)%nat \/ s_host s = -1 -> nth_error g i = Some s).
  Proof.
    destruct (glued_trees _ _ _ _ _ _ HN Hheads) as (glued & sz & Eg' & HL & Hget & Htree & Hrest). rewrite Eg in Eg'. injection Eg' as <- <-.
    pose proof (centrals_nodup _ _ _ _ _ _ HN Hheads) as Hcn. pose proof (heads_len _ _ _ Hheads) as Hhl.
    destruct (glue_spec (tl table) heads subs Hcn Hhl (glue_ok _ _ _ _ _ _ HN Hheads)) as (g' & sz' & E & _ & HLs & Hg3 & Hg4). rewrite Eg in E. injection E as <- <-.
    split; [exact HL|]. split; [exact HLs|]. split; [exact Hg3|]. split; [|split; [exact Hget|split; [exact Htree|exact Hrest]]].
    intros h c rest s Hg Hs. destruct (heads_first _ _ _ _ _ _ HN Hheads h c rest Hg) as (others & Hh & _). exists others. split; [exact Hh|]. eapply Hg4; eauto. apply tl_at. exact Hg.
  Qed.
  Lemma fields_same i s : nth_error g i = Some s -> exists s0, nth_error subs i = Some s0 /\ s = set_nest (s_nest s) s0.
  Proof.
    destruct g_all as (HL & _ & _ & _ & Hget & _). intros Hs. destruct (nth_error_in_range subs i) as [s0 H0]; [rewrite <- HL; eapply nth_error_lt; eauto|]. destruct (Hget i s0 H0) as [l Hl]. exists s0. split; [exact H0|]. rewrite Hl in Hs. injection Hs as <-. reflexivity.
  Qed.
  (** members of nests are in the group of the parent *)
  Lemma listed_group p c : lists g p c -> exists h c0 rest t, nth_error table (S h) = Some (c0 :: rest) /\ In p (zs (c0 :: rest)) /\ In c (zs (c0 :: rest)) /\
    represents (local_nest g) t /\ label t = Z.of_nat c0 /\ Permutation (nodes t) (zs (c0 :: rest)) /\ In (p, c) (edges t).
  Proof.
    destruct g_all as (HL & _ & _ & _ & Hget & Htree & Hrest). intros (s & Hs & Hc). pose proof (zget_some _ _ _ Hs) as Hr. replace p with (Z.of_nat (Z.to_nat p)) in * by lia. set (n := Z.to_nat p) in *. clearbody n. clear Hr. rewrite zget_of_nat in Hs.
    destruct (fields_same n s Hs) as (s0 & H0 & E0). assert (HN' := HN). destruct HN' as (_ & HLs & HTL & HTG & Hold & Hfresh & _ & _ & Hfield & _).
    assert (Hnm : (length moved <= n)%nat \/ s_host s0 = -1 -> False).
    { intros Hor. rewrite (Hrest n s0 H0 Hor) in Hs. injection Hs as <-. destruct Hor as [Hge|Hh].
      - rewrite Forall_forall in Hfresh. destruct (Hfresh s0) as (_ & _ & Hne & _). { apply (nth_error_In _ (n - length moved)). rewrite nth_skipn. replace (length moved + (n - length moved))%nat with n by lia. exact H0. } rewrite Hne in Hc. destruct Hc.
      - rewrite (Hfield (Z.of_nat n) s0) in Hc; [destruct Hc|rewrite zget_of_nat; exact H0|exact Hh]. }
    destruct (le_lt_dec (length moved) n) as [Hge|Hlt]; [exfalso; auto|]. destruct (nth_error_in_range moved n Hlt) as [m Hm]. destruct (Hold n m Hm) as (s1 & Hs1 & _ & Eh). assert (s1 = s0) by congruence. subst s1.
    rewrite Forall_forall in Hhosts. pose proof (Hhosts m (nth_error_In _ _ Hm)) as Hrg. destruct (Z.eq_dec (s_host s0) (-1)) as [E|Hne]; [exfalso; auto|].
    set (h := Z.to_nat (s_host m)). destruct (nth_error_in_range table (S h)) as [gr Hgr]; [unfold h; lia|]. assert (Hin : In n gr). { apply (proj1 (HTG _ _ Hgr)). exists m. split; [exact Hm|]. unfold h. lia. }
    destruct gr as [|c0 rest]; [destruct Hin|]. destruct (Htree h c0 rest Hgr) as (t & HR & Hl & HP). assert (Hnt : In (Z.of_nat n) (nodes t)) by (eapply Permutation_in; [symmetry; exact HP|apply in_zs; exact Hin]).
    assert (He : In (Z.of_nat n, c) (edges t)). { apply (lists_edge g t); [exact HR|exact Hnt|]. exists s. rewrite zget_of_nat. auto. }
    exists h, c0, rest, t. split; [exact Hgr|]. split; [apply in_zs; exact Hin|]. split; [eapply Permutation_in; [exact HP|]; eapply edge_nodes; eauto|]. auto.
  Qed.
  Lemma zs_disjoint h k gr gr' i : nth_error table (S h) = Some gr -> nth_error table (S k) = Some gr' -> In i (zs gr) -> In i (zs gr') -> h = k.
  Proof. intros A B C D. apply in_map_iff in C as (n & <- & C). apply in_zs in D. pose proof (groups_disjoint _ _ _ _ _ HN _ _ _ _ _ A B C D). lia. Qed.
  Lemma group_nodup h gr : nth_error table (S h) = Some gr -> NoDup (zs gr).
  Proof. intros Hg. apply NoDup_map_inj; [intros x y _ _; apply Nat2Z.inj|]. destruct HN as (_ & _ & _ & HTG & _). apply (HTG _ _ Hg). Qed.
  Lemma g_par p q c : lists g p c -> lists g q c -> p = q.
  Proof.
    intros H1 H2. destruct (listed_group p c H1) as (h & c0 & rest & t & Hg & Hp & Hc & HR & Hl & HP & He). destruct (listed_group q c H2) as (h' & c0' & rest' & t' & Hg' & Hq & Hc' & _).
    pose proof (zs_disjoint _ _ _ _ _ Hg Hg' Hc Hc'). subst h'. rewrite Hg in Hg'. injection Hg' as <- <-.
    assert (Hnt : NoDup (nodes t)) by (eapply Permutation_NoDup; [symmetry; exact HP|eapply group_nodup; eauto]).
    eapply parent_unique; [exact Hnt|exact He|]. apply (lists_edge g t); [exact HR| |exact H2]. eapply Permutation_in; [symmetry; exact HP|exact Hq].
  Qed.
  Lemma g_ex p c : lists g p c -> exists s, zget g c = Some s.
  Proof. intros H. destruct (listed_group p c H) as (h & c0 & rest & t & Hg & Hp & Hc & HR & Hl & HP & He). eapply represents_get; [exact HR|]. eapply edge_nodes; eauto. Qed.
  Lemma tree_facts h c0 rest t : nth_error table (S h) = Some (c0 :: rest) -> represents (local_nest g) t -> Permutation (nodes t) (zs (c0 :: rest)) -> NoDup (nodes t) /\ (length (nodes t) <= length g)%nat.
  Proof.
    intros Hg HR HP. assert (Hnt : NoDup (nodes t)) by (eapply Permutation_NoDup; [symmetry; exact HP|eapply group_nodup; eauto]). split; [exact Hnt|].
    rewrite (Permutation_length HP). unfold zs. rewrite map_length. rewrite <- (seq_length (length g) 0). apply NoDup_incl_length; [destruct HN as (_ & _ & _ & HTG & _); apply (HTG _ _ Hg)|].
    intros j Hj. destruct (table_member _ _ _ _ _ HN _ _ j Hg Hj) as (s & Hs & _). apply in_seq. pose proof (nth_error_lt _ _ _ Hs). destruct g_all as (-> & _). lia.
  Qed.
  Lemma g_dep i s : zget g i = Some s -> exists D r, (D < length g)%nat /\ above (lists g) i D r /\ forall p, ~ lists g p r.
  Proof.
    intros Hs. pose proof (zget_some _ _ _ Hs) as Hr. destruct (in_dec Z.eq_dec i (zs (concat (tl table)))) as [Hi|Hi].
    - apply in_map_iff in Hi as (n & <- & Hn). apply in_concat in Hn as (gr & Hgr & Hn). apply In_nth_error in Hgr as [h Hh]. apply tl_at in Hh. destruct gr as [|c0 rest]; [destruct Hn|]. destruct g_all as (_ & _ & _ & _ & _ & Htree & _). destruct (Htree h c0 rest Hh) as (t & HR & Hl & HP).
      destruct (tree_facts h c0 rest t Hh HR HP) as [Hnt Hlen]. assert (Hin : In (Z.of_nat n) (nodes t)) by (eapply Permutation_in; [symmetry; exact HP|apply in_zs; exact Hn]). destruct (depths_in t 0 _ Hin) as [x Hx]. pose proof (depths_ge _ _ _ _ Hx). pose proof (depths_height _ _ _ _ Hx). pose proof (height_le_nodes t).
      exists (Z.to_nat x), (label t). split; [lia|]. split; [apply reach_above; apply (reach_depth g t); assumption|]. intros p Hp. destruct (listed_group p _ Hp) as (h' & c0' & rest' & t' & Hg' & Hp' & Hc' & _).
      assert (Hlz : In (label t) (zs (c0 :: rest))) by (eapply Permutation_in; [exact HP|apply label_in]). pose proof (zs_disjoint _ _ _ _ _ Hh Hg' Hlz Hc'). subst h'. rewrite Hh in Hg'. injection Hg' as <- <-.
      apply (root_no_member t p Hnt). apply (lists_edge g t); [exact HR| |exact Hp]. eapply Permutation_in; [symmetry; exact HP|exact Hp'].
    - exists 0%nat, i. split; [lia|]. split; [constructor|]. intros p Hp. destruct (listed_group p i Hp) as (h & c0 & rest & t & Hg & _ & Hc & _). apply Hi. apply in_map_iff in Hc as (n & <- & Hn). apply in_zs. apply in_concat. exists (c0 :: rest). split; [|exact Hn]. apply tl_at in Hg. eapply nth_error_In; eauto.
  Qed.
  Lemma g_inside p c : lists g p c <-> inside heads subs p c.
  Proof.
    destruct g_all as (HL & HLz & Hg3 & Hg4 & Hget & _). split.
    - intros (s & Hs & Hc). pose proof (zget_some _ _ _ Hs) as Hr. replace p with (Z.of_nat (Z.to_nat p)) in * by lia. set (n := Z.to_nat p) in *. clearbody n. clear Hr. rewrite zget_of_nat in Hs.
      destruct (in_dec Nat.eq_dec n (centrals (tl table))) as [Hn|Hn].
      + apply centrals_in in Hn as (h & rest & Hh). apply tl_at in Hh. destruct (table_member _ _ _ _ _ HN _ _ n Hh (or_introl eq_refl)) as (s0 & H0 & _). destruct (Hg4 h n rest s0 Hh H0) as (others & Ho & Hn & _). rewrite Hn in Hs. injection Hs as <-. cbn in Hc.
        apply in_app_or in Hc as [Hc|Hc]; [left; exists s0; rewrite zget_of_nat; auto|]. right. exists h, n, others. auto.
      + left. exists s. rewrite zget_of_nat, <- Hg3; auto.
    - intros [(s & Hs & Hc)|(h & c0 & others & Hh & -> & Hc)].
      + pose proof (zget_some _ _ _ Hs) as Hr. replace p with (Z.of_nat (Z.to_nat p)) in * by lia. set (n := Z.to_nat p) in *. clearbody n. clear Hr. rewrite zget_of_nat in Hs. destruct (in_dec Nat.eq_dec n (centrals (tl table))) as [Hn|Hn].
        * apply centrals_in in Hn as (h & rest & Hh). apply tl_at in Hh. destruct (Hg4 h n rest s Hh Hs) as (others & Ho & Hn & _). exists (set_nest (s_nest s ++ map Z.of_nat others) s). rewrite zget_of_nat. split; [exact Hn|]. apply in_or_app. left. exact Hc.
        * exists s. rewrite zget_of_nat, Hg3; auto.
      + pose proof (nth_error_lt _ _ _ Hh) as Hlt. rewrite (heads_len _ _ _ Hheads) in Hlt. destruct (nth_error_in_range _ _ Hlt) as [gr Hgr]. apply tl_at in Hgr. destruct gr as [|c1 rest].
        * destruct (heads_at _ _ _ _ _ _ HN Hheads h _ Hgr) as (hs & Hh' & E). cbn in E. subst hs. congruence.
        * destruct (table_member _ _ _ _ _ HN _ _ c1 Hgr (or_introl eq_refl)) as (s0 & H0 & _). destruct (Hg4 h c1 rest s0 Hgr H0) as (others' & Ho & Hn & _). rewrite Hh in Ho. injection Ho as <- <-. exists (set_nest (s_nest s0 ++ map Z.of_nat others) s0). rewrite zget_of_nat. split; [exact Hn|]. apply in_or_app. right. exact Hc.
  Qed.
  Lemma above_group h gr i d k : nth_error table (S h) = Some gr -> In i (zs gr) -> above (lists g) i d k -> In k (zs gr).
  Proof.
    intros Hg Hi H. induction H as [|d m p H IH Hl]; [exact Hi|]. destruct (listed_group p m Hl) as (h' & c0 & rest & t & Hg' & Hp & Hm & _). pose proof (zs_disjoint _ _ _ _ _ Hg Hg' IH Hm). subst h'. rewrite Hg in Hg'. injection Hg' as ->. exact Hp.
  Qed.

  Section Run.
  Variable near : nat * list (Z * X) * R -> nat * list (Z * X) * R -> bool.
  Variable pmass : Z * X -> Q.
  Variable snap : Z.
  (** the loop over the halos is a loop over subhalos, members before parents *)
  Lemma merge_halos_by (at_ : Z -> subs_t -> run subs_t) (rec_ : nat -> Z -> subs_t -> run subs_t) fuel hs :
    (forall l a b, run_each l at_ a = Done b -> forall i m, local_nest a i m -> local_nest b i m) ->
    (forall t a, (height t <= fuel)%nat -> represents (local_nest a) t -> rec_ fuel (label t) a = run_each (post t) at_ a) ->
    (length g <= fuel)%nat -> NoDup hs -> (forall h, In h hs -> (h < nh)%nat) ->
    exists L, NoDup L /\ (forall i, In i L <-> exists h gr, In h hs /\ nth_error table (S h) = Some gr /\ In i (zs gr)) /\
      (forall i d k, In i L -> above (lists g) i (S d) k -> before L i k) /\
      (forall cur : subs_t, (forall i l, local_nest g i l -> local_nest cur i l) ->
        run_each hs (fun h l => match nth_error (tl table) h with None => Crash | Some [] => Done l | Some (c :: _) => rec_ fuel (Z.of_nat c) l end) cur = run_each L at_ cur).
  Proof.
    intros at_nests rec_tree Hf. induction hs as [|h hs IH]; intros Hnd Hlt.
    - exists []. split; [constructor|]. split; [intros i; split; [intros []|intros (h & gr & [] & _)]|]. split; [intros i d k []|]. reflexivity.
    - inversion Hnd as [|? ? Hh Hnd']; subst. destruct (IH Hnd') as (L & HnL & HiL & HbL & HrL); [intros; apply Hlt; right; assumption|]. assert (HTL : length table = S nh) by apply HN.
      destruct (nth_error_in_range table (S h)) as [gr Hgr]; [pose proof (Hlt h (or_introl eq_refl)); lia|]. assert (Hgr' := Hgr). apply tl_at in Hgr'. destruct gr as [|c rest].
      + exists L. split; [exact HnL|]. split; [|split; [exact HbL|]].
        * intros i. rewrite HiL. split; intros (k & gr & A & B & C); exists k, gr; (split; [|auto]); [right; exact A|]. destruct A as [<-|A]; [|exact A]. rewrite Hgr in B. injection B as <-. destruct C.
        * intros cur Hc. cbn [run_each]. rewrite Hgr'. cbn [rbind]. apply HrL. exact Hc.
      + destruct g_all as (_ & _ & _ & _ & _ & Htree & _). destruct (Htree h c rest Hgr) as (t & HR & Hl & HP). destruct (tree_facts h c rest t Hgr HR HP) as [Hnt Hlen].
        assert (Hpz : forall i, In i (post t) <-> In i (zs (c :: rest))). { intros i. split; intros H; [apply (Permutation_in _ HP); eapply Permutation_in; [apply post_nodes|exact H]|]. eapply Permutation_in; [symmetry; apply post_nodes|]. apply (Permutation_in _ (Permutation_sym HP)). exact H. }
        exists (post t ++ L). split; [|split; [|split]].
        * apply NoDup_app_intro; [eapply Permutation_NoDup; [symmetry; apply post_nodes|exact Hnt]|exact HnL|]. intros i H1 H2. apply Hpz in H1. apply HiL in H2 as (k & gr & A & B & C). pose proof (zs_disjoint _ _ _ _ _ Hgr B H1 C). subst. contradiction.
        * intros i. rewrite in_app_iff, Hpz, HiL. split.
          -- intros [H|(k & gr & A & B & C)]; [exists h, (c :: rest); split; [left; reflexivity|auto]|exists k, gr; split; [right; exact A|auto]].
          -- intros (k & gr & [<-|A] & B & C); [left; congruence|right; eauto].
        * intros i d k Hi Ha. apply before_app. apply in_app_or in Hi as [Hi|Hi]; [left|right; left; eauto].
          eapply reach_post; [exact HR|exact Hnt| |apply above_reach; exact Ha]. apply (Permutation_in _ (Permutation_sym HP)). eapply above_group; [exact Hgr|apply Hpz; exact Hi|exact Ha].
        * intros cur Hc. cbn [run_each]. rewrite Hgr', run_each_app. rewrite <- Hl. pose proof (height_le_nodes t).
          rewrite (rec_tree t cur); [|lia|eapply represents_ext; [exact HR|]; intros i l _; apply Hc].
          destruct (run_each (post t) at_ cur) as [c1| |] eqn:E1; cbn [rbind]; [|reflexivity..]. apply HrL. intros i l Hil. eapply at_nests; [exact E1|]. apply Hc. exact Hil.
  Qed.
  Lemma merge_halos fuel hs : (length g <= fuel)%nat -> NoDup hs -> (forall h, In h hs -> (h < nh)%nat) ->
    exists L, NoDup L /\ (forall i, In i L <-> exists h gr, In h hs /\ nth_error table (S h) = Some gr /\ In i (zs gr)) /\
      (forall i d k, In i L -> above (lists g) i (S d) k -> before L i k) /\
      (forall cur : subs_t, (forall i l, local_nest g i l -> local_nest cur i l) ->
        run_each hs (fun h l => match nth_error (tl table) h with None => Crash | Some [] => Done l | Some (c :: _) => merge_rec pmass snap fuel (Z.of_nat c) l end) cur = run_each L (merge_at pmass snap) cur).
  Proof. apply merge_halos_by; [apply merge_list_nests|intros; apply merge_tree; assumption]. Qed.

  Variable unb : sub X R -> run (sub X R).
  Variable U : sub X R -> sub X R -> Prop.
  Variable tr : sub X R -> sub X R.
  Hypothesis unb_ok : forall s, exists s', unb s = Done s' /\ U s s'.
  Hypothesis U_nest : forall s u, U s u -> s_nest u = s_nest s.
  Hypothesis U_renest : forall l s u, U (set_nest l s) u -> U s (set_nest (s_nest s) u).
  Hypothesis tr_nest : forall l s, tr (set_nest l s) = set_nest l (tr s).
  Hypothesis tr_nest' : forall s, s_nest (tr s) = s_nest s.
  Lemma unbind_merged_ok order mg (b : subs_t) : Permutation order (seq 0 (length b)) -> length mg = length b ->
    exists out, unbind_merged unb tr order mg b = Done out /\ length out = length b /\
      forall i s m, nth_error b i = Some s -> nth_error mg i = Some m -> if (m : bool) then exists u, U s u /\ nth_error out i = Some (tr u) else nth_error out i = Some s.
  Proof.
    intros Ho HL. unfold unbind_merged.
    set (P := fun (pre : list nat) (l : subs_t) => length l = length b /\ forall i s m, nth_error b i = Some s -> nth_error mg i = Some m -> exists u, nth_error l i = Some u /\ (In i pre -> m = true -> U s u) /\ (~ (In i pre /\ m = true) -> u = s)).
    match goal with |- context [run_each order ?f b] => destruct (run_each_inv P f order [] b) as (b1 & E1 & HL1 & H1) end.
    - split; [reflexivity|]. intros i s m Hs Hm. exists s. split; [exact Hs|]. split; [intros []|reflexivity].
    - intros pre i q l Eo (H1 & H2). cbn [app] in Eo. assert (Hi : (i < length b)%nat). { assert (In i (seq 0 (length b))) as Hin by (apply (Permutation_in _ Ho); rewrite Eo; apply in_or_app; right; left; reflexivity). apply in_seq in Hin. lia. }
      assert (Hnp : ~ In i pre). { intros Hin. assert (NoDup order) as Hno by (eapply Permutation_NoDup; [symmetry; exact Ho|apply seq_NoDup]). rewrite Eo in Hno. eapply NoDup_app_disjoint; [exact Hno|exact Hin|left; reflexivity]. }
      destruct (nth_error_in_range b i Hi) as [s Hs]. destruct (nth_error_in_range mg i ltac:(lia)) as [m Hm]. destruct (H2 i s m Hs Hm) as (u & Hu & _ & Hus). rewrite (Hus ltac:(tauto)) in Hu. clear u Hus. rewrite Hm, Hu.
      assert (Hpre : forall x, In x (pre ++ [i]) <-> In x pre \/ x = i). { intros x. rewrite in_app_iff. cbn. intuition congruence. }
      destruct m.
      + destruct (unb_ok s) as (u & Eu & HU). rewrite Eu. cbn [rbind]. destruct (upd_some l i u) as [l' El]; [lia|]. rewrite El. cbn [of_opt]. exists l'. split; [reflexivity|]. split; [rewrite (upd_length _ _ _ _ El); exact H1|].
        intros j sj mj Hj Hmj. destruct (Nat.eq_dec j i) as [->|Hne].
        * exists u. split; [eapply upd_same; eauto|]. assert (sj = s) by congruence. subst sj. split; [auto|]. intros Hc. exfalso. apply Hc. split; [apply Hpre; auto|congruence].
        * destruct (H2 j sj mj Hj Hmj) as (u' & Hu' & A & B). exists u'. split; [rewrite (upd_other _ _ _ _ _ El); assumption|]. rewrite !Hpre. split; [intros [H|H]; [auto|contradiction]|]. intros Hc. apply B. tauto.
      + exists l. split; [reflexivity|]. split; [exact H1|]. intros j sj mj Hj Hmj. destruct (H2 j sj mj Hj Hmj) as (u' & Hu' & A & B). exists u'. split; [exact Hu'|]. rewrite !Hpre. split.
        * intros [H|H] Hmt; [auto|]. subst j. congruence.
        * intros Hc. apply B. tauto.
    - rewrite E1. cbn [rbind app] in *. eexists. split; [reflexivity|]. split; [rewrite map_length, combine_length; lia|].
      intros i s m Hs Hm. destruct (H1 i s m Hs Hm) as (u & Hu & A & B).
      assert (Hc : nth_error (map (fun sm : sub X R * bool => if snd sm then tr (fst sm) else fst sm) (combine b1 mg)) i = Some (if m then tr u else u)).
      { clear -Hu Hm. revert mg i Hu Hm. induction b1 as [|x l IH]; intros [|y mg] [|i] Hu Hm; cbn in *; try discriminate; [injection Hu as ->; injection Hm as ->; reflexivity|auto]. }
      rewrite Hc. destruct m; [|rewrite B; [reflexivity|intros [_ H]; discriminate]]. exists u. split; [|reflexivity]. apply A; [|reflexivity]. apply (Permutation_in _ (Permutation_sym Ho)). apply in_seq. pose proof (nth_error_lt _ _ _ Hs). lia.
  Qed.

  (** ** Everything *)
  Variables (merge_trapped : bool).
  Hypothesis Hold : forall i s, zget subs i = Some s -> s_sink s <> -1 -> s_death s <> -1.
  Hypothesis Hlive : forall i s, zget subs i = Some s -> (1 < s_nbound s)%nat -> s_death s = -1 /\ s_parts s <> [].
  Local Notation after_merge := (after_merge pmass U tr snap).
  Lemma takes_g i k : takes near g i k <-> takes near subs i k.
  Proof.
    destruct g_all as (_ & _ & _ & _ & Hget & _).
    assert (H1 : forall i s, zget g i = Some s -> exists s0, zget subs i = Some s0 /\ s = set_nest (s_nest s) s0).
    { intros j s Hs. pose proof (zget_some _ _ _ Hs). rewrite zget_nat in * by lia. apply fields_same. exact Hs. }
    assert (H2 : forall i s, zget subs i = Some s -> exists l, zget g i = Some (set_nest l s)).
    { intros j s Hs. pose proof (zget_some _ _ _ Hs). rewrite zget_nat in * by lia. apply Hget. exact Hs. }
    split; intros (s & u & A & B & C & D).
    - destruct (H1 _ _ A) as (s0 & A' & Es). destruct (H1 _ _ B) as (u0 & B' & Eu). rewrite Es, Eu in D. rewrite Eu in C. exists s0, u0. auto.
    - destruct (H2 _ _ A) as (l & A'). destruct (H2 _ _ B) as (l' & B'). exists (set_nest l s), (set_nest l' u). auto.
  Qed.
  Lemma sinks_g i k : sinks_by near (lists g) g i k <-> sinks_to near heads subs i k.
  Proof.
    unfold sinks_to, sinks_by. split; intros (d & A & B & C); exists d; (split; [eapply above_ext; [|exact A]; intros; apply g_inside; assumption|]); (split; [apply takes_g; exact B|]); intros d' k' Hd Ha Ht; apply (C d' k' Hd); try (apply takes_g; exact Ht); (eapply above_ext; [|exact Ha]; intros; apply g_inside; assumption).
  Qed.
  Lemma unglue_ok (w : subs_t) : length w = length subs -> (forall i l, local_nest g i l -> local_nest w i l) -> unglue (tl table) sizes w = Some (renest subs w).
  Proof.
    intros HLw Hw. destruct g_all as (HL & HLz & Hg3 & Hg4 & Hget & _). pose proof (centrals_nodup _ _ _ _ _ _ HN Hheads) as Hcn.
    assert (Hc : forall k c rest, nth_error (tl table) k = Some (c :: rest) -> exists s others, nth_error subs c = Some s /\ nth_error sizes k = Some (length (s_nest s)) /\ local_nest w (Z.of_nat c) (s_nest s ++ others)).
    { intros k c rest Hk. apply tl_at in Hk. destruct (table_member _ _ _ _ _ HN _ _ c Hk (or_introl eq_refl)) as (s & Hs & _). destruct (Hg4 k c rest s Hk Hs) as (others & _ & A & B). exists s, (map Z.of_nat others). split; [exact Hs|]. split; [exact B|]. apply Hw. eexists. rewrite zget_of_nat. split; [exact A|reflexivity]. }
    destruct (unglue_spec (tl table) sizes w Hcn HLz) as (out & E & HLo & H1 & H2).
    - intros k c rest Hk. destruct (Hc k c rest Hk) as (s & o & Hs & _). rewrite HLw. eapply nth_error_lt; eauto.
    - intros k c rest n s Hk Hn Hs. destruct (Hc k c rest Hk) as (s' & o & Hs' & Hz & (u & Hu & Eu)). rewrite zget_of_nat in Hu. assert (u = s) by congruence. subst u. rewrite Eu, app_length. assert (n = length (s_nest s')) by congruence. lia.
    - rewrite E. f_equal. apply nth_error_ext. intros i. destruct (lt_dec i (length subs)) as [Hi|Hi].
      + destruct (nth_error_in_range subs i Hi) as [s Hs]. destruct (nth_error_in_range w i ltac:(lia)) as [u Hu].
        assert (Hr : nth_error (renest subs w) i = Some (set_nest (s_nest s) u)). { rewrite <- zget_of_nat. apply renest_get; rewrite zget_of_nat; assumption. } rewrite Hr.
        destruct (in_dec Nat.eq_dec i (centrals (tl table))) as [Hic|Hic].
        * apply centrals_in in Hic as (k & rest & Hk). destruct (Hc k i rest Hk) as (s' & o & Hs' & Hz & (u' & Hu' & Eu)). rewrite zget_of_nat in Hu'. assert (u' = u) by congruence. subst u'. assert (s' = s) by congruence. subst s'. rewrite (H2 k i rest _ u Hk Hz Hu), Eu, firstn_app, Nat.sub_diag, firstn_all. cbn. rewrite app_nil_r. reflexivity.
        * rewrite (H1 i Hic), Hu. f_equal. destruct (Hw (Z.of_nat i) (s_nest s)) as (u' & Hu' & Eu); [exists s; rewrite zget_of_nat, Hg3; auto|]. rewrite zget_of_nat in Hu'. assert (u' = u) by congruence. subst u'. rewrite <- Eu. symmetry. apply set_nest_id.
      + rewrite !(proj2 (nth_error_None _ _)); [reflexivity| |]; [rewrite renest_length; lia|lia].
  Qed.
  Lemma merge_ok fuel o1 o2 o3 o4 : 0 <= snap -> (length subs <= fuel)%nat -> Permutation o1 (seq 0 (length subs)) -> Permutation o2 (seq 0 (length subs)) -> Permutation o3 (seq 0 nh) -> Permutation o4 (seq 0 (length subs)) ->
    exists marked out, merge_subhalos near pmass snap unb tr merge_trapped fuel o1 o2 o3 o4 table heads subs = Done out /\ length marked = length subs /\ length out = length subs /\
      (forall i s, zget subs i = Some s -> exists u, zget marked i = Some u /\ detected snap (sinks_to near heads subs) i s u) /\
      (if merge_trapped then after_merge marked out else out = marked).
  Proof.
    intros Hsnap Hf Ho1 Ho2 Ho3 Ho4. destruct g_all as (HL & HLz & Hg3 & Hg4 & Hget & Htree & _).
    assert (HgetZ : forall i s, zget subs i = Some s -> exists l, zget g i = Some (set_nest l s)). { intros i s Hs. pose proof (zget_some _ _ _ Hs). rewrite zget_nat in * by lia. apply Hget. exact Hs. }
    unfold merge_subhalos. rewrite Eg. destruct (detect_ok near snap g g_par g_ex g_dep fuel o1 o2) as (a & mg & Ed & HLa & HLm & Ha & Hmg); [rewrite HL; assumption..|]. rewrite Ed. cbn [rbind fst snd].
    set (marked := renest subs a). assert (HLk : length marked = length subs) by (apply renest_length; congruence).
    assert (Hak : forall i s, zget subs i = Some s -> exists l u, zget g i = Some (set_nest l s) /\ zget a i = Some u /\ zget marked i = Some (set_nest (s_nest s) u) /\ detected snap (sinks_by near (lists g) g) i (set_nest l s) u).
    { intros i s Hs. destruct (HgetZ i s Hs) as (l & Hl). pose proof (zget_some _ _ _ Hs). assert (Hl' := Hl). rewrite zget_nat in Hl' by lia. destruct (Ha _ _ Hl') as (u & Hu & Hd). replace (Z.of_nat (Z.to_nat i)) with i in Hd by lia. assert (Hu' : zget a i = Some u) by (rewrite zget_nat by lia; exact Hu).
      exists l, u. split; [exact Hl|]. split; [exact Hu'|]. split; [apply renest_get; assumption|exact Hd]. }
    assert (Hdet : forall i s, zget subs i = Some s -> exists u, zget marked i = Some u /\ detected snap (sinks_to near heads subs) i s u).
    { intros i s Hs. destruct (Hak i s Hs) as (l & u & _ & _ & Hm & Hd). eexists. split; [exact Hm|]. unfold detected in *. cbn [s_sink set_nest] in Hd. destruct (s_sink s =? -1).
      - destruct Hd as [(k & Hk & ->)|[Hk ->]]; [left; exists k; split; [apply sinks_g; exact Hk|destruct s; reflexivity]|right]. split; [intros k Hc; apply (Hk k); apply sinks_g; exact Hc|destruct s; reflexivity].
      - rewrite Hd. destruct s; reflexivity. }
    assert (Hnests : forall i l, local_nest g i l -> local_nest a i l).
    { intros i l (s & Hs & El). pose proof (zget_some _ _ _ Hs). unfold local_nest. rewrite zget_nat in * by lia. destruct (Ha _ _ Hs) as (u & Hu & Hd). exists u. split; [exact Hu|]. unfold detected in Hd. destruct (s_sink s =? -1); [destruct Hd as [(k & _ & ->)|[_ ->]]|rewrite Hd]; exact El. }
    destruct merge_trapped.
    2:{ cbn [rbind]. rewrite (unglue_ok a ltac:(congruence) Hnests). cbn [of_opt]. exists marked, marked. auto. }
    destruct (merge_halos fuel o3) as (L & HndL & HinL & HbL & Hrun); [lia|eapply Permutation_NoDup; [symmetry; exact Ho3|apply seq_NoDup]|intros h Hh; apply (Permutation_in _ Ho3), in_seq in Hh; lia|]. rewrite (Hrun a Hnests).
    (* newly trapped ones *)
    assert (Hnew : forall i s, zget a i = Some s -> sinking s -> exists s0, zget subs i = Some s0 /\ s_sink s0 = -1 /\ sinks_by near (lists g) g i (s_sink s) /\ s_nbound s0 = s_nbound s /\ s_parts s0 = s_parts s).
    { intros i s Hs [Hk Hd]. destruct (zget_in_range subs i) as [s0 H0]; [rewrite <- HL, <- HLa; eapply zget_some; eauto|]. exists s0. split; [exact H0|]. destruct (Hak i s0 H0) as (l & u & _ & Hu & _ & Hdt). assert (u = s) by congruence. subst u. unfold detected in Hdt. cbn [s_sink set_nest] in Hdt.
      destruct (Z.eqb_spec (s_sink s0) (-1)) as [E|E].
      - split; [exact E|]. destruct Hdt as [(k & Hk' & ->)|[_ ->]]; [cbn; auto|]. cbn in Hk. contradiction.
      - exfalso. subst s. cbn in *. eapply Hold; eauto. }
    assert (HL4 : forall i s, zget a i = Some s -> sinking s -> In i L).
    { intros i s Hs Hk. destruct (Hnew i s Hs Hk) as (s0 & _ & _ & (d & Hab & _) & _). assert (Hpar := above_parent _ _ _ _ Hab).
      destruct Hpar as [p Hp]. destruct (listed_group p i Hp) as (h & c0 & rest & t & Hg & _ & Hc & _). apply HinL. exists h, (c0 :: rest). split; [|auto]. apply (Permutation_in _ (Permutation_sym Ho3)). apply in_seq. pose proof (nth_error_lt _ _ _ Hg). assert (length table = S nh) by apply HN. lia. }
    assert (Hcnt : forall i s, zget g i = Some s -> exists u, zget a i = Some u /\ s_nbound u = s_nbound s).
    { intros i s Hs. pose proof (zget_some _ _ _ Hs). rewrite zget_nat in * by lia. destruct (Ha _ _ Hs) as (u & Hu & Hd). exists u. split; [exact Hu|]. unfold detected in Hd. destruct (s_sink s =? -1); [destruct Hd as [(k & _ & ->)|[_ ->]]|rewrite Hd]; reflexivity. }
    destruct (merge_list pmass snap a L) as (b & Eb & HLb & HIb).
    { exact HndL. }
    { intros i Hi. apply HinL in Hi as (h & gr & _ & Hg & Hi). apply in_map_iff in Hi as (n & <- & Hn). destruct (table_member _ _ _ _ _ HN _ _ n Hg Hn) as (s & Hs & _). apply zget_in_range. apply nth_error_lt in Hs. rewrite HLa. lia. }
    { intros i s Hi Hs Hk. destruct (Hnew i s Hs Hk) as (s0 & _ & _ & (d & Hab & (x & u & _ & Hu & Hnb & _) & _) & _). split; [eapply HbL; eauto|]. destruct (Hcnt _ _ Hu) as (u' & Hu' & En). exists u'. split; [exact Hu'|lia]. }
    { intros i s _ Hs Hk Hnb. destruct (Hnew i s Hs Hk) as (s0 & H0 & _ & _ & En & Ep). rewrite <- Ep. eapply Hlive; [exact H0|lia]. }
    rewrite Eb. cbn [rbind]. destruct (unbind_merged_ok o4 mg b) as (w & Ew & HLw & Hw); [rewrite HLb, HLa, HL; exact Ho4|congruence|]. rewrite Ew. cbn [rbind].
    assert (Hnb : forall i l, local_nest g i l -> local_nest w i l).
    { intros i l Hil. apply Hnests in Hil. eapply merge_list_nests in Hil; [|exact Eb]. destruct Hil as (s & Hs & El). pose proof (zget_some _ _ _ Hs). unfold local_nest. rewrite zget_nat in * by lia. destruct (nth_error_in_range mg (Z.to_nat i)) as [m Hm]; [lia|].
      specialize (Hw _ _ _ Hs Hm). destruct m; [destruct Hw as (u & HU & Hw)|]; eexists; (split; [exact Hw|]); [|exact El]. rewrite tr_nest', (U_nest _ _ HU). exact El. }
    rewrite (unglue_ok w ltac:(congruence) Hnb). cbn [of_opt]. exists marked, (renest subs w). split; [reflexivity|]. split; [exact HLk|]. split; [apply renest_length; congruence|]. split; [exact Hdet|].
    (* chains *)
    assert (Hma : forall i s, zget marked i = Some s -> exists s0 u, zget subs i = Some s0 /\ zget a i = Some u /\ s = set_nest (s_nest s0) u).
    { intros i s Hs. destruct (zget_in_range subs i) as [s0 H0]; [rewrite <- HLk; eapply zget_some; eauto|]. destruct (Hak i s0 H0) as (l & u & _ & Hu & Hm & _). exists s0, u. split; [exact H0|]. split; [exact Hu|congruence]. }
    assert (Ham : forall i u, zget a i = Some u -> exists s0, zget subs i = Some s0 /\ zget marked i = Some (set_nest (s_nest s0) u)).
    { intros i u Hu. destruct (zget_in_range subs i) as [s0 H0]; [rewrite <- HL, <- HLa; eapply zget_some; eauto|]. exists s0. split; [exact H0|]. apply renest_get; assumption. }
    assert (HJ : forall k i, joins_in (fun x => In x L) a k i <-> joins marked k i).
    { intros k i. split; intros J.
      - induction J as [|k u i Pk Hu S1 S2 J IH]; [constructor|]. destruct (Ham k u Hu) as (s0 & _ & Hm). eapply joins_step; [exact Hm|exact S1|exact S2|exact IH].
      - induction J as [|k s i Hs S1 S2 J IH]; [constructor|]. destruct (Hma k s Hs) as (s0 & u & _ & Hu & ->). eapply jin_step; [eapply HL4; [exact Hu|exact S1]|exact Hu|exact S1|exact S2|exact IH]. }
    (* the flags *)
    assert (Hflag : forall k m, zget mg k = Some m -> (m = true <-> exists i, i <> k /\ joins marked i k)).
    { intros k m Hm. rewrite (Hmg k m Hm). split.
      - intros (i & s & _ & Hs & Es & Hnbs & Hk). destruct (fields_same i s Hs) as (s0 & H0 & E0). assert (H0' : zget subs (Z.of_nat i) = Some s0) by (rewrite zget_of_nat; exact H0). destruct (Hak _ _ H0') as (l & u & Hl & Hu & Hmk & Hd). unfold detected in Hd.
        assert (Es0 : s_sink s0 = -1) by (rewrite E0 in Es; exact Es). cbn [s_sink set_nest] in Hd. rewrite Es0 in Hd. cbn [Z.eqb Pos.eqb] in Hd. destruct Hd as [(k' & Hk' & ->)|[Hno _]]; [|exfalso; eapply Hno; eauto].
        assert (k' = k) by (eapply sinks_fun; [exact g_par|exact Hk'|exact Hk]). subst k'. exists (Z.of_nat i).
        assert (Hnb0 : s_nbound s0 = s_nbound s) by (rewrite E0; reflexivity).
        assert (Hk0 : k <> -1). { destruct Hk as (d & _ & (_ & z & _ & Hz & _) & _). apply zget_some in Hz. lia. }
        assert (Hsk : sinking (set_sink k snap (set_nest l s0))). { split; [exact Hk0|]. cbn. apply (Hlive _ _ H0'). lia. }
        assert (Hne : Z.of_nat i <> k). { intros E. destruct Hk as (d & Hab & _). rewrite E in Hab. eapply above_irrefl; [exact g_par| |exact Hab]. destruct (g_dep (Z.of_nat i) s) as (D & r & _ & HD & Hr); [rewrite zget_of_nat; exact Hs|]. rewrite E in HD. eauto. }
        split; [exact Hne|]. apply HJ. eapply jin_step; [eapply HL4; [exact Hu|exact Hsk]|exact Hu|exact Hsk|cbn; lia|constructor].
      - intros (i & Hne & J). apply HJ in J. destruct (joins_last _ _ _ _ J) as [E|(x & u & _ & Hu & S1 & S2 & Ek)]; [contradiction|]. destruct (Hnew x u Hu S1) as (s0 & H0 & E1 & Hk & En & _). destruct (HgetZ x s0 H0) as (l & Hl). pose proof (zget_some _ _ _ Hl).
        exists (Z.to_nat x), (set_nest l s0). rewrite zget_nat in Hl by lia. split; [exact I|]. split; [exact Hl|]. split; [exact E1|]. split; [cbn; lia|]. replace (Z.of_nat (Z.to_nat x)) with x by lia. rewrite <- Ek. exact Hk. }
    intros i s Hs. destruct (Hma i s Hs) as (s0 & sa & H0 & Hsa & Es). destruct (HIb i sa Hsa) as (ub & Hub & Hrem & Hgat). pose proof (zget_some _ _ _ Hsa) as Hri.
    destruct (zget_in_range mg i) as [m Hm]; [lia|]. assert (Hwi : if m then exists u, U ub u /\ zget w i = Some (tr u) else zget w i = Some ub). { assert (Hub' := Hub). assert (Hm' := Hm). rewrite zget_nat in Hub' by lia. rewrite zget_nat in Hm' by lia. rewrite zget_nat by lia. exact (Hw _ _ _ Hub' Hm'). }
    assert (Hone : m = true -> (forall k, joins marked k i -> k = i) -> False). { intros Em Hc. apply (Hflag i m Hm) in Em as (k & Hk & J). auto. }
    set (n := s_nest s0). exists (set_nest n ub), (if m then match zget w i with Some x => set_nest n x | None => set_nest n ub end else set_nest n ub).
    split; [destruct m; [destruct Hwi as (u & HU & Hwi); rewrite Hwi|]; apply renest_get; assumption|]. split; [split|split].
    - (* merged away *)
      intros Hk. assert (Hk' : sinking sa) by (rewrite Es in Hk; exact Hk). specialize (Hrem (HL4 i sa Hsa Hk') Hk'). unfold remains in *. rewrite Es. cbn [s_nbound s_parts set_nest]. destruct (s_nbound sa <=? 1)%nat; [rewrite Hrem; reflexivity|]. destruct Hrem as (p & r & E1 & ->). exists p, r. auto.
    - intros Hk. assert (Hk' : ~ sinking sa) by (rewrite Es in Hk; exact Hk). destruct (Hgat ltac:(tauto)) as ((ex & nn & E1 & _ & A & B & C) & D & F).
      assert (HC : forall k z, zget a k = Some z -> exists z', zget marked k = Some z' /\ s_parts z' = s_parts z) by (intros k z Hz; destruct (Ham k z Hz) as (s1 & _ & Hz'); eexists; split; [exact Hz'|reflexivity]).
      assert (HC' : forall k z, zget marked k = Some z -> exists z', zget a k = Some z' /\ s_parts z' = s_parts z) by (intros k z Hz; destruct (Hma k z Hz) as (s1 & z' & _ & Hz' & ->); exists z'; split; [exact Hz'|reflexivity]).
      split.
      + exists ex, nn. split; [rewrite E1, Es; reflexivity|]. split; [exact A|]. split; [intros id Hid; rewrite Es; exact (B id Hid)|]. intros p Hp. destruct (C p Hp) as (k & z & J & Hz & Hin). destruct (HC k z Hz) as (z' & Hz' & Ez). exists k, z'. split; [apply HJ; exact J|]. split; [exact Hz'|]. rewrite Ez. exact Hin.
      + intros id. change (part_ids (set_nest n ub)) with (part_ids ub). rewrite D. split; intros (k & z & J & Hz & Hin); [destruct (HC k z Hz) as (z' & Hz' & Ez)|destruct (HC' k z Hz) as (z' & Hz' & Ez)]; exists k, z'; (split; [apply HJ; exact J|]); (split; [exact Hz'|]); unfold part_ids in *; rewrite Ez; exact Hin.
      + intros Hc. rewrite F, Es; [reflexivity|]. intros k J. apply Hc. apply HJ. exact J.
    - intros Hc. apply (Hflag i m Hm) in Hc. subst m. destruct Hwi as (u & HU & Hwi). rewrite Hwi. exists (set_nest n u). split; [|symmetry; apply tr_nest].
      specialize (U_renest (s_nest ub) (set_nest n ub) u). cbn [s_nest set_nest] in U_renest. rewrite set_nest_set in U_renest. apply U_renest. rewrite set_nest_id. exact HU.
    - intros Hc. destruct m; [exfalso; apply Hone; auto|reflexivity].
  Qed.
  End Run.
End W.
