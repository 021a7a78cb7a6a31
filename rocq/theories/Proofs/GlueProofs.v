(** GlueHeadNests and UnglueHeadNests. *)
From Coq Require Import List ZArith Bool Lia Sorting.Permutation.
From Verif.Model Require Import ListMem Mpi Run Hash Subhalo Nest.
From Verif.Spec Require Import Forest Nesting.
From Verif.Proofs Require Import ListMemProofs MpiProofs ListExtra MemberProofs TreeProofs NestProofs NestProofs2 NestProofs3 NestProofs4 NestProofs5 LocalizeProofs ForestSteps ReachProofs.
Import ListNotations.
Local Open Scope Z_scope.

Section Glue.
  Context {X R : Type}.
  Local Notation subs_t := (list (sub X R)).
  Definition centrals (groups : list (list nat)) : list nat := concat (map first_of groups).

  Lemma centrals_in groups c : In c (centrals groups) <-> exists k rest, nth_error groups k = Some (c :: rest).
  Proof.
    unfold centrals. rewrite in_concat. split.
    - intros (l & Hl & Hc). apply in_map_iff in Hl as (g & <- & Hg). destruct g as [|x rest]; [destruct Hc|]. destruct Hc as [->|[]]. apply In_nth_error in Hg as [k Hk]. eauto.
    - intros (k & rest & Hk). exists [c]. split; [|left; reflexivity]. apply in_map_iff. exists (c :: rest). split; [reflexivity|]. eapply nth_error_In; eauto.
  Qed.

  Lemma glue_spec groups : forall heads (subs : subs_t), NoDup (centrals groups) -> length heads = length groups ->
    (forall k c rest, nth_error groups k = Some (c :: rest) -> (c < length subs)%nat /\ nth_error heads k <> Some []) ->
    exists subs' sizes, glue groups heads subs = Some (subs', sizes) /\ length subs' = length subs /\ length sizes = length groups /\
      (forall i, ~ In i (centrals groups) -> nth_error subs' i = nth_error subs i) /\
      (forall k c rest h0 others s, nth_error groups k = Some (c :: rest) -> nth_error heads k = Some (h0 :: others) -> nth_error subs c = Some s ->
        nth_error subs' c = Some (set_nest (s_nest s ++ map Z.of_nat others) s) /\ nth_error sizes k = Some (length (s_nest s))).
  Proof.
    induction groups as [|g gr IH]; intros heads subs Hn HL Hok.
    - exists subs, []. cbn. split; [reflexivity|]. split; [reflexivity|]. split; [reflexivity|]. split; [auto|]. intros [|k]; discriminate.
    - destruct heads as [|h hr]; [discriminate|]. cbn in HL. injection HL as HL. cbn [glue]. destruct g as [|c0 rest0].
      + cbn [glue_one]. destruct (IH hr subs Hn HL) as (s' & ns & E & H1 & H2 & H3 & H4). { intros k c rest Hk. exact (Hok (S k) c rest Hk). }
        rewrite E. exists s', (O :: ns). split; [reflexivity|]. split; [exact H1|]. split; [cbn; lia|]. split; [exact H3|]. intros [|k] c rest h0 others s Hk; [discriminate|]. exact (H4 k c rest h0 others s Hk).
      + destruct (Hok 0%nat c0 rest0 eq_refl) as [Hc Hh]. cbn in Hh. destruct h as [|h0 others0]; [congruence|]. cbn [glue_one]. destruct (nth_error_in_range subs c0 Hc) as [s0 Hs0]. rewrite Hs0.
        destruct (modify_some subs c0 (set_nest (s_nest s0 ++ map Z.of_nat others0)) _ Hs0) as [s1 E1]. rewrite E1. pose proof (modify_length _ _ _ _ E1) as HL1.
        cbn [centrals map first_of concat firstn app] in Hn. inversion Hn as [|? ? Hnc Hn']; subst. fold (centrals gr) in Hnc, Hn'.
        destruct (IH hr s1 Hn' HL) as (s' & ns & E & H1 & H2 & H3 & H4). { intros k c rest Hk. rewrite HL1. exact (Hok (S k) c rest Hk). }
        rewrite E. exists s', (length (s_nest s0) :: ns). split; [reflexivity|]. split; [lia|]. split; [cbn; lia|]. split.
        * intros i Hi. cbn [centrals map first_of concat firstn app] in Hi. fold (centrals gr) in Hi. rewrite H3 by (intros Hx; apply Hi; right; exact Hx). rewrite (modify_nth _ _ _ _ i E1).
          destruct (Nat.eqb_spec i c0) as [->|]; [exfalso; apply Hi; left; reflexivity|reflexivity].
        * intros [|k] c rest h1 others s Hk Hh1 Hs; cbn in Hk, Hh1.
          -- injection Hk as <- <-. injection Hh1 as <- <-. assert (s = s0) by congruence. subst. split; [|reflexivity]. rewrite (H3 c0 Hnc), (modify_nth _ _ _ _ c0 E1), Nat.eqb_refl, Hs0. reflexivity.
          -- apply (H4 k c rest h1 others s Hk Hh1). rewrite (modify_nth _ _ _ _ c E1). destruct (Nat.eqb_spec c c0) as [->|]; [|exact Hs]. exfalso. apply Hnc. apply centrals_in. eauto.
  Qed.

  Lemma unglue_spec groups : forall sizes (subs : subs_t), NoDup (centrals groups) -> length sizes = length groups ->
    (forall k c rest, nth_error groups k = Some (c :: rest) -> (c < length subs)%nat) ->
    (forall k c rest n s, nth_error groups k = Some (c :: rest) -> nth_error sizes k = Some n -> nth_error subs c = Some s -> (n <= length (s_nest s))%nat) ->
    exists subs', unglue groups sizes subs = Some subs' /\ length subs' = length subs /\
      (forall i, ~ In i (centrals groups) -> nth_error subs' i = nth_error subs i) /\
      (forall k c rest n s, nth_error groups k = Some (c :: rest) -> nth_error sizes k = Some n -> nth_error subs c = Some s -> nth_error subs' c = Some (set_nest (firstn n (s_nest s)) s)).
  Proof.
    induction groups as [|g gr IH]; intros sizes subs Hn HL Hok Hsz.
    - exists subs. cbn. split; [reflexivity|]. split; [reflexivity|]. split; [auto|]. intros [|k]; discriminate.
    - destruct sizes as [|n nr]; [discriminate|]. cbn in HL. injection HL as HL. cbn [unglue]. destruct g as [|c0 rest0].
      + cbn [unglue_one]. destruct (IH nr subs Hn HL) as (s' & E & H1 & H2 & H3). { intros k c rest Hk. exact (Hok (S k) c rest Hk). } { intros k c rest m s Hk. exact (Hsz (S k) c rest m s Hk). }
        exists s'. split; [exact E|]. split; [exact H1|]. split; [exact H2|]. intros [|k] c rest m s Hk; [discriminate|]. exact (H3 k c rest m s Hk).
      + pose proof (Hok 0%nat c0 rest0 eq_refl) as Hc. cbn [unglue_one]. destruct (nth_error_in_range subs c0 Hc) as [s0 Hs0]. rewrite Hs0.
        pose proof (Hsz 0%nat c0 rest0 n s0 eq_refl eq_refl Hs0) as Hsz0.
        destruct (modify_some subs c0 (set_nest (firstn n (s_nest s0 ++ repeat 0 n))) _ Hs0) as [s1 E1]. rewrite E1. pose proof (modify_length _ _ _ _ E1) as HL1.
        cbn [centrals map first_of concat firstn app] in Hn. inversion Hn as [|? ? Hnc Hn']; subst. fold (centrals gr) in Hnc, Hn'.
        assert (Hsame : forall k c rest, nth_error gr k = Some (c :: rest) -> nth_error s1 c = nth_error subs c).
        { intros k c rest Hk. rewrite (modify_nth _ _ _ _ c E1). destruct (Nat.eqb_spec c c0) as [->|]; [|reflexivity]. exfalso. apply Hnc. apply centrals_in. eauto. }
        destruct (IH nr s1 Hn' HL) as (s' & E & H1 & H2 & H3). { intros k c rest Hk. rewrite HL1. exact (Hok (S k) c rest Hk). } { intros k c rest m s Hk. rewrite (Hsame k c rest Hk). exact (Hsz (S k) c rest m s Hk). }
        exists s'. split; [exact E|]. split; [lia|]. split.
        * intros i Hi. cbn [centrals map first_of concat firstn app] in Hi. fold (centrals gr) in Hi. rewrite H2 by (intros Hx; apply Hi; right; exact Hx). rewrite (modify_nth _ _ _ _ i E1).
          destruct (Nat.eqb_spec i c0) as [->|]; [exfalso; apply Hi; left; reflexivity|reflexivity].
        * intros [|k] c rest m s Hk Hm Hs; cbn in Hk, Hm.
          -- injection Hk as <- <-. injection Hm as <-. assert (s = s0) by congruence. subst. rewrite (H2 c0 Hnc), (modify_nth _ _ _ _ c0 E1), Nat.eqb_refl, Hs0. cbn. f_equal. f_equal. rewrite firstn_app. replace (n - length (s_nest s0))%nat with 0%nat by lia. cbn. apply app_nil_r.
          -- apply (H3 k c rest m s Hk Hm). rewrite (Hsame k c rest Hk). exact Hs.
  Qed.

  (** work in between that keeps the nests *)
  Lemma glue_unglue groups heads (subs glued worked : subs_t) sizes : NoDup (centrals groups) -> length heads = length groups ->
    (forall k c rest, nth_error groups k = Some (c :: rest) -> (c < length subs)%nat /\ nth_error heads k <> Some []) ->
    glue groups heads subs = Some (glued, sizes) -> Forall2 (fun a b => s_nest a = s_nest b) glued worked ->
    exists restored, unglue groups sizes worked = Some restored /\ length restored = length worked /\
      forall i w s, nth_error worked i = Some w -> nth_error subs i = Some s -> nth_error restored i = Some (set_nest (s_nest s) w).
  Proof.
    intros Hn HL Hok HG HW. destruct (glue_spec groups heads subs Hn HL Hok) as (g' & sz' & E & H1 & H2 & H3 & H4). rewrite HG in E. injection E as <- <-.
    pose proof (F2_length _ _ _ HW) as HLw.
    assert (Hc : forall k c rest, nth_error groups k = Some (c :: rest) -> exists s h0 others w, nth_error subs c = Some s /\ nth_error heads k = Some (h0 :: others) /\ nth_error worked c = Some w /\ s_nest w = s_nest s ++ map Z.of_nat others /\ nth_error sizes k = Some (length (s_nest s))).
    { intros k c rest Hk. destruct (Hok k c rest Hk) as [Hc Hh]. destruct (nth_error_in_range subs c Hc) as [s Hs]. destruct (nth_error_in_range heads k) as [h Hh']; [rewrite HL; eapply nth_error_lt; eauto|]. destruct h as [|h0 others]; [congruence|].
      destruct (H4 k c rest h0 others s Hk Hh' Hs) as [A B]. destruct (nth_error_in_range worked c) as [w Hw]; [lia|]. exists s, h0, others, w. split; [exact Hs|]. split; [exact Hh'|]. split; [exact Hw|]. split; [|exact B]. symmetry. apply (F2_nth _ _ _ HW c _ w A Hw). }
    destruct (unglue_spec groups sizes worked Hn H2) as (r & E & L1 & L2 & L3).
    { intros k c rest Hk. destruct (Hok k c rest Hk). lia. }
    { intros k c rest n w Hk Hnk Hw. destruct (Hc k c rest Hk) as (s & h0 & others & w' & A & B & C & D & F). assert (w' = w) by congruence. subst. rewrite D, app_length. assert (n = length (s_nest s)) by congruence. lia. }
    exists r. split; [exact E|]. split; [exact L1|]. intros i w s Hw Hs. destruct (in_dec Nat.eq_dec i (centrals groups)) as [Hi|Hi].
    - apply centrals_in in Hi as (k & rest & Hk). destruct (Hc k i rest Hk) as (s' & h0 & others & w' & A & B & C & D & F). assert (w' = w) by congruence. assert (s' = s) by congruence. subst. rewrite (L3 k i rest _ w Hk F Hw), D. f_equal. f_equal. rewrite firstn_app, Nat.sub_diag, firstn_all. cbn. apply app_nil_r.
    - rewrite (L2 i Hi), Hw. f_equal. assert (E2 : s_nest w = s_nest s). { symmetry. apply (F2_nth _ _ _ HW i s w); [|exact Hw]. rewrite (H3 i Hi). exact Hs. } rewrite <- E2. destruct w; reflexivity.
  Qed.
End Glue.
