(** LevelUpDetachedSubhalos and NestSubhalos on a local forest. *)
From Coq Require Import List ZArith Bool Lia Sorting.Permutation.
From Verif.Model Require Import ListMem Mpi Run Subhalo Nest.
From Verif.Spec Require Import Forest.
From Verif.Proofs Require Import ListMemProofs MpiProofs ListExtra MemberProofs TreeProofs NestProofs.
Import ListNotations.
Local Open Scope Z_scope.

Definition zs (l : list nat) : list Z := map Z.of_nat l.
Lemma in_zs i l : In (Z.of_nat i) (zs l) <-> In i l.
Proof. unfold zs. rewrite in_map_iff. split; [intros (j & E & H); apply Nat2Z.inj in E; subst; exact H|eauto]. Qed.
Lemma in_zs_range i n : In i (zs (seq 0 n)) <-> 0 <= i < Z.of_nat n.
Proof.
  unfold zs. rewrite in_map_iff. split.
  - intros (j & <- & H). apply in_seq in H. lia.
  - intros H. exists (Z.to_nat i). split; [lia|]. apply in_seq. lia.
Qed.
Lemma zget_range {A} (l : list A) i : 0 <= i < Z.of_nat (length l) -> exists x, zget l i = Some x.
Proof. apply zget_in_range. Qed.

Lemma for_each_modify {A} (f : A -> A) (Hidem : forall x, f (f x) = f x) (l : list nat) (v : list A) :
  (forall i, In i l -> (i < length v)%nat) ->
  exists v', for_each l (fun i w => modify w i f) v = Some v' /\ length v' = length v /\
    forall i, zget v' i = if memb i (zs l) then option_map f (zget v i) else zget v i.
Proof.
  intros Hl. destruct (for_each_inv (fun pre w => length w = length v /\ forall i, zget w i = if memb i (zs pre) then option_map f (zget v i) else zget v i)
     l (fun i w => modify w i f) v) as (w & E & H1 & H2).
  - split; [reflexivity|]. intros i. reflexivity.
  - intros pre i post w El (H1 & H2). destruct (nth_error_in_range w i) as [x Hx].
    { rewrite H1. apply Hl. rewrite El. apply in_or_app. right; left; reflexivity. }
    destruct (modify_some w i f x Hx) as [w' HU]. exists w'. split; [exact HU|]. split; [rewrite (modify_length _ _ _ _ HU); exact H1|].
    intros j. rewrite <- zmodify_of_nat in HU. rewrite (zmodify_get _ _ _ _ j HU), H2. unfold zs. rewrite map_app, memb_app. cbn [map memb existsb].
    destruct (Z.eqb_spec j (Z.of_nat i)) as [->|Hne].
    + rewrite orb_true_l, orb_true_r. destruct (memb (Z.of_nat i) (map Z.of_nat pre)); [|reflexivity].
      destruct (zget v (Z.of_nat i)); cbn; [rewrite Hidem|]; reflexivity.
    + cbn [orb]. rewrite orb_false_r. reflexivity.
  - exists w. auto.
Qed.

Section LevelAll.
  Context {X R : Type}.
  Variables (subs : list (sub X R)) (table : list (list nat)) (ts : list tree).
  Let n := length subs.
  Hypothesis Hforest : is_forest (local_nest subs) (zs (seq 0 n)) ts.
  Hypothesis Hroots : forall i s, zget subs i = Some s -> (s_rank s = 0 <-> In i (map label ts)).
  Hypothesis Htable : forall g i, In g table -> In i g -> (i < n)%nat.

  Definition hostz (i : Z) : Z := match zget subs i with Some s => s_host s | None => 0 end.
  Definition raised : list nat := concat (map first_of (tl table)) ++ concat (firstn 1 table).
  Definition rkz (i : Z) : Z := if memb i (zs raised) then 0 else match zget subs i with Some s => s_rank s | None => 0 end.

  Lemma raised_lt i : In i raised -> (i < n)%nat.
  Proof.
    unfold raised. intros H. apply in_app_or in H as [H|H]; apply in_concat in H as (l & Hl & Hi).
    - apply in_map_iff in Hl as (g & <- & Hg). unfold first_of in Hi. apply firstn_incl in Hi. eapply Htable; [|exact Hi].
      destruct table; [destruct Hg|right; exact Hg].
    - apply firstn_incl in Hl. eapply Htable; eauto.
  Qed.
  Lemma raise_spec : exists subs1, raise_ranks table subs = Some subs1 /\ length subs1 = n /\
    forall i, zget subs1 i = if memb i (zs raised) then option_map (set_rank 0) (zget subs i) else zget subs i.
  Proof. unfold raise_ranks. apply for_each_modify; [reflexivity|]. apply raised_lt. Qed.

  Lemma nodes_all t i : In t ts -> In i (nodes t) -> exists s, zget subs i = Some s.
  Proof. intros Ht Hi. destruct Hforest as [HF _]. rewrite Forall_forall in HF. eapply represents_get; eauto. Qed.
  Lemma nodup_all : NoDup (flat_map nodes ts).
  Proof.
    destruct Hforest as [_ HP]. eapply Permutation_NoDup; [symmetry; exact HP|]. unfold zs. apply NoDup_map_inj; [|apply seq_NoDup].
    intros x y _ _. apply Nat2Z.inj.
  Qed.
  Lemma nodup_tree t : In t ts -> NoDup (nodes t).
  Proof.
    intros Ht. pose proof nodup_all as H. apply in_split in Ht as (a & b & E). rewrite E in H. rewrite flat_map_app in H. apply NoDup_app_remove_l in H.
    cbn in H. eapply NoDup_app_remove_r; eauto.
  Qed.
  Lemma tree_unique t u i : In t ts -> In u ts -> In i (nodes t) -> In i (nodes u) -> t = u.
  Proof.
    pose proof nodup_all as Hn. clear Hforest Hroots. revert Hn. induction ts as [|a l IH]; [intros _ []|]. cbn. intros Hn Ht Hu Hi Hj.
    destruct Ht as [<-|Ht], Hu as [<-|Hu]; [reflexivity| | |].
    - exfalso. eapply NoDup_app_disjoint; [exact Hn|exact Hi|]. apply in_flat. eauto.
    - exfalso. eapply NoDup_app_disjoint; [exact Hn|exact Hj|]. apply in_flat. eauto.
    - apply IH; auto. eapply NoDup_app_remove_l; eauto.
  Qed.
  Lemma in_some_tree i s : zget subs i = Some s -> exists t, In t ts /\ In i (nodes t).
  Proof.
    intros H. apply zget_some in H. destruct Hforest as [_ HP]. assert (Hi : In i (zs (seq 0 n))) by (apply in_zs_range; exact H).
    apply (Permutation_in _ (Permutation_sym HP)) in Hi. apply in_flat in Hi as (t & Ht & Hi). eauto.
  Qed.

  Notation cut := (lcut hostz rkz).
  (** final content of subhalo [i] *)
  Definition final_of (i : Z) (s : sub X R) : sub X R :=
    set_nest (filter (fun c => negb (cut i c)) (s_nest s))
      (set_rank (if memb i (flat_map (cutset hostz rkz) ts) then 0 else rkz i) s).

  Lemma set_rank_nest (l : list Z) r (s : sub X R) : set_nest l (set_rank r s) = set_rank r (set_nest l s).
  Proof. reflexivity. Qed.
  Lemma set_rank_same (s : sub X R) : set_rank (s_rank s) s = s.
  Proof. destruct s; reflexivity. Qed.

  Lemma cutset_in t i : In i (cutset hostz rkz t) -> In i (nodes t).
  Proof.
    unfold cutset. intros H. apply in_map_iff in H as ([q j] & E & H). cbn in E. subst j. apply filter_In in H as [H _].
    apply (edge_nodes t q i) in H. apply H.
  Qed.

  Lemma level_up_all_spec fuel order : (n <= fuel)%nat -> Permutation order (seq 0 n) ->
    exists subs', level_up_all fuel order table subs = Done subs' /\ length subs' = n /\
      forall i, zget subs' i = option_map (final_of i) (zget subs i).
  Proof.
    intros Hf Hord. unfold level_up_all. destruct raise_spec as (subs1 & E1 & HL1 & H1). rewrite E1. cbn [of_opt rbind].
    set (is_head := map (fun s => s_rank s =? 0) subs).
    set (trees_of := fun l => filter (fun t => memb (label t) (zs l)) ts).
    assert (Hget1 : forall i s, zget subs i = Some s -> zget subs1 i = Some (set_rank (rkz i) s)).
    { intros i s Hs. rewrite H1, Hs. unfold rkz. destruct (memb i (zs raised)); [reflexivity|]. rewrite Hs, set_rank_same. reflexivity. }
    assert (Hhd : forall i s, nth_error subs i = Some s -> (nth_error is_head i = Some true <-> In (Z.of_nat i) (map label ts)) /\ exists b, nth_error is_head i = Some b).
    { intros i s Hs. rewrite <- (Hroots (Z.of_nat i) s) by (rewrite zget_of_nat; exact Hs). unfold is_head. rewrite nth_error_map, Hs. cbn. split; [|eauto].
      destruct (Z.eqb_spec (s_rank s) 0); split; congruence. }
    assert (Hgen : forall pre post cur, order = pre ++ post -> length cur = n ->
      (forall i, zget cur i = if memb i (flat_map nodes (trees_of pre)) then option_map (final_of i) (zget subs i) else zget subs1 i) ->
      exists subs', run_each post (fun i l => match nth_error is_head i with None => Crash | Some true => level_up fuel (Z.of_nat i) l | Some false => Done l end) cur = Done subs' /\
        length subs' = n /\ forall i, zget subs' i = option_map (final_of i) (zget subs i)).
    { intros pre post. revert pre. induction post as [|i post IH]; intros pre cur Eo HL Hcur.
      - exists cur. split; [reflexivity|]. split; [exact HL|]. intros i. rewrite Hcur. rewrite app_nil_r in Eo. subst pre.
        destruct (zget subs i) as [s|] eqn:Es.
        + rewrite memb_true; [reflexivity|]. destruct (in_some_tree i s Es) as (t & Ht & Hi). apply in_flat. exists t. split; [|exact Hi].
          apply filter_In. split; [exact Ht|]. apply memb_true. destruct (nodes_all t (label t) Ht (label_in t)) as [sr Hsr].
          apply zget_some in Hsr. destruct Hsr as [Hr1 Hr2]. rewrite <- (Z2Nat.id (label t)) by exact Hr1. apply in_zs.
          apply (Permutation_in _ (Permutation_sym Hord)). apply in_seq. lia.
        + rewrite H1, Es. destruct (memb i (zs raised)), (memb i (flat_map nodes (trees_of order))); reflexivity.
      - cbn [run_each]. assert (Hi : (i < n)%nat).
        { assert (In i (seq 0 n)) as Hin by (apply (Permutation_in _ Hord); rewrite Eo; apply in_or_app; right; left; reflexivity). apply in_seq in Hin. lia. }
        destruct (nth_error_in_range subs i Hi) as [s Hs]. destruct (Hhd i s Hs) as [Hiff [b Hb]]. rewrite Hb.
        assert (Hnd : ~ In i pre).
        { intros Hin. assert (NoDup order) as Hno by (eapply Permutation_NoDup; [symmetry; exact Hord|apply seq_NoDup]). rewrite Eo in Hno.
          eapply NoDup_app_disjoint; [exact Hno|exact Hin|left; reflexivity]. }
        destruct b.
        + destruct (proj1 (in_map_iff _ _ _) (proj1 Hiff Hb)) as (t & Elab & Ht).
          assert (Hout : forall j, In j (nodes t) -> zget cur j = zget subs1 j).
          { intros j Hj. rewrite Hcur, memb_false; [reflexivity|]. intros Hin. apply in_flat in Hin as (u & Hu & Hju). apply filter_In in Hu as [Hu Hm].
            assert (t = u) by (eapply tree_unique; eauto). subst u. rewrite Elab in Hm. destruct (memb_spec (Z.of_nat i) (zs pre)) as [Hp|]; [|discriminate].
            apply Hnd. apply in_zs. exact Hp. }
          destruct Hforest as [HF HP]. rewrite Forall_forall in HF.
          destruct (level_up_tree hostz rkz t fuel cur) as (cur2 & E2 & HL2 & H2).
          * transitivity (length (nodes t)); [apply height_le_nodes|]. transitivity n; [|exact Hf]. 
            rewrite <- (seq_length n 0). rewrite <- (map_length Z.of_nat (seq 0 n)). fold (zs (seq 0 n)). rewrite <- (Permutation_length HP).
            apply in_split in Ht as (a & b & ->). rewrite flat_map_app. cbn. rewrite !app_length. lia.
          * split; [|split; [apply nodup_tree; exact Ht|split]].
            -- eapply represents_ext; [apply HF; exact Ht|]. intros j l Hj (sj & Hsj & El). exists (set_rank (rkz j) sj).
               rewrite (Hout j Hj). split; [apply Hget1; exact Hsj|exact El].
            -- intros j sj Hj Hsj. rewrite (Hout j Hj) in Hsj. destruct (nodes_all t j Ht Hj) as [s0 Hs0]. rewrite (Hget1 j s0 Hs0) in Hsj. injection Hsj as <-.
               unfold hostz. rewrite Hs0. reflexivity.
            -- intros j sj Hj Hsj. assert (Hj' : In j (nodes t)) by (eapply Permutation_in; [symmetry; apply nodes_edges|right; exact Hj]).
               rewrite (Hout j Hj') in Hsj. destruct (nodes_all t j Ht Hj') as [s0 Hs0]. rewrite (Hget1 j s0 Hs0) in Hsj. injection Hsj as <-. reflexivity.
          * rewrite <- Elab, E2. cbn [rbind]. apply (IH (pre ++ [i])); [rewrite <- app_assoc; exact Eo|lia|].
            intros j. rewrite H2. destruct (memb_spec j (nodes t)) as [Hj|Hj].
            -- rewrite memb_true.
               ++ rewrite (Hout j Hj). destruct (nodes_all t j Ht Hj) as [s0 Hs0]. rewrite (Hget1 j s0 Hs0), Hs0. cbn [option_map]. f_equal.
                  unfold leveled, final_of. cbn [s_nest set_rank].
                  assert (Em : memb j (cutset hostz rkz t) = memb j (flat_map (cutset hostz rkz) ts)).
                  { apply eq_true_iff_eq. destruct (memb_spec j (cutset hostz rkz t)) as [Hc|Hc]; destruct (memb_spec j (flat_map (cutset hostz rkz) ts)) as [Hd|Hd]; split; intros; try reflexivity; try discriminate.
                    - exfalso. apply Hd. apply in_flat. eauto.
                    - exfalso. apply Hc. apply in_flat in Hd as (u & Hu & Hju). assert (t = u) by (eapply tree_unique; eauto using cutset_in). subst u. exact Hju. }
                  rewrite Em. destruct (memb j (flat_map (cutset hostz rkz) ts)); reflexivity.
               ++ apply in_flat. exists t. split; [|exact Hj]. apply filter_In. split; [exact Ht|]. rewrite Elab. apply memb_true. apply in_zs. apply in_or_app. right; left; reflexivity.
            -- rewrite Hcur. assert (Em : memb j (flat_map nodes (trees_of pre)) = memb j (flat_map nodes (trees_of (pre ++ [i])))).
               { apply eq_true_iff_eq. destruct (memb_spec j (flat_map nodes (trees_of pre))) as [Hc|Hc]; destruct (memb_spec j (flat_map nodes (trees_of (pre ++ [i])))) as [Hd|Hd]; split; intros; try reflexivity; try discriminate.
                 - exfalso. apply Hd. apply in_flat in Hc as (u & Hu & Hju). apply in_flat. exists u. split; [|exact Hju]. apply filter_In in Hu as [Hu Hm]. apply filter_In.
                   split; [exact Hu|]. unfold zs in *. rewrite map_app, memb_app, Hm. reflexivity.
                 - exfalso. apply Hc. apply in_flat in Hd as (u & Hu & Hju). apply in_flat. exists u. split; [|exact Hju]. apply filter_In in Hu as [Hu Hm]. apply filter_In.
                   split; [exact Hu|]. unfold zs in *. rewrite map_app, memb_app in Hm. apply orb_true_iff in Hm as [Hm|Hm]; [exact Hm|]. exfalso.
                   cbn in Hm. rewrite orb_false_r in Hm. apply Z.eqb_eq in Hm. apply Hj. assert (u = t); [|subst; exact Hju].
                   eapply (tree_unique u t (label u)); auto using label_in. rewrite Hm, <- Elab. apply label_in. }
               rewrite Em. reflexivity.
        + cbn [rbind]. apply (IH (pre ++ [i])); [rewrite <- app_assoc; exact Eo|exact HL|]. intros j. rewrite Hcur.
          assert (Et : trees_of (pre ++ [i]) = trees_of pre).
          { unfold trees_of. apply filter_ext_in. intros u Hu. unfold zs. rewrite map_app, memb_app. cbn. rewrite orb_false_r.
            destruct (Z.eqb_spec (label u) (Z.of_nat i)) as [El|]; [|rewrite orb_false_r; reflexivity]. exfalso.
            assert (nth_error is_head i = Some true); [|congruence]. apply Hiff. rewrite <- El. apply in_map. exact Hu. }
          rewrite Et. reflexivity. }
    apply (Hgen [] order subs1); [reflexivity|exact HL1|]. intros i. cbn.
    replace (flat_map nodes (trees_of [])) with (@nil Z); [reflexivity|].
    unfold trees_of. clear. induction ts as [|t l IH]; cbn; [reflexivity|exact IH].
  Qed.

  (** the forest afterwards *)
  Definition after_ts : list tree := flat_map (pieces cut) ts.
  Lemma after_forest subs' : length subs' = n -> (forall i, zget subs' i = option_map (final_of i) (zget subs i)) ->
    is_forest (local_nest subs') (zs (seq 0 (length subs'))) after_ts /\
    (forall i s, zget subs' i = Some s -> (s_rank s = 0 <-> In i (map label after_ts))) /\
    (forall p c, In (p, c) (flat_map edges after_ts) <-> In (p, c) (flat_map edges ts) /\ hostz c = hostz p /\ rkz c <> 0).
  Proof.
    intros HL Hfin. destruct Hforest as [HF HP]. rewrite Forall_forall in HF.
    assert (Hedge : forall p c, In (p, c) (flat_map edges after_ts) <-> In (p, c) (flat_map edges ts) /\ cut p c = false).
    { intros p c. unfold after_ts. rewrite flat_map_flat. split.
      - intros H. apply in_flat in H as (t & Ht & He). apply (split_edges cut t (p, c)) in He as [He Hc]. split; [|exact Hc]. apply in_flat. eauto.
      - intros [He Hc]. apply in_flat in He as (t & Ht & He). apply in_flat. exists t. split; [exact Ht|]. apply (split_edges cut t (p, c)). split; assumption. }
    split; [|split].
    - split.
      + rewrite Forall_forall. intros u Hu. unfold after_ts in Hu. apply in_flat in Hu as (t & Ht & Hu).
        assert (HA : Forall (represents (local_nest subs')) (pieces cut t)).
        { eapply split_represents; [apply HF; exact Ht|]. intros i l Hi (s & Hs & El). exists (final_of i s). rewrite Hfin, Hs. split; [reflexivity|].
          unfold final_of. cbn [s_nest set_nest]. rewrite El. reflexivity. }
        rewrite Forall_forall in HA. apply HA. exact Hu.
      + rewrite HL. unfold after_ts. rewrite flat_map_flat.
        eapply perm_trans; [apply flat_map_perm2; intros t Ht; apply split_nodes|]. exact HP.
    - intros i s' Hs'. rewrite Hfin in Hs'. destruct (zget subs i) as [s|] eqn:Es; [|discriminate]. cbn in Hs'. injection Hs' as <-. unfold final_of. cbn [s_rank set_nest set_rank].
      assert (Hcs : In i (flat_map (cutset hostz rkz) ts) <-> exists t, In t ts /\ exists p, In (p, i) (edges t) /\ cut p i = true).
      { rewrite in_flat. split; intros (t & Ht & H); exists t; (split; [exact Ht|]).
        - unfold cutset in H. apply in_map_iff in H as ([q j] & E & H). cbn in E. subst j. apply filter_In in H as [H1 H2]. exists q. auto.
        - destruct H as (q & H1 & H2). unfold cutset. apply in_map_iff. exists (q, i). split; [reflexivity|]. apply filter_In. auto. }
      assert (Hroot : In i (map label after_ts) <-> In i (map label ts) \/ In i (flat_map (cutset hostz rkz) ts)).
      { rewrite Hcs. unfold after_ts. rewrite in_map_iff. split.
        - intros (u & <- & Hu). apply in_flat in Hu as (t & Ht & Hu). unfold pieces in Hu. destruct Hu as [<-|Hu].
          + left. rewrite split_label. apply in_map. exact Ht.
          + right. exists t. split; [exact Ht|]. apply split_roots. apply in_map. exact Hu.
        - intros [H|(t & Ht & H)].
          + apply in_map_iff in H as (t & <- & Ht). exists (fst (split cut t)). split; [apply split_label|]. apply in_flat. exists t. split; [exact Ht|left; reflexivity].
          + apply split_roots in H. apply in_map_iff in H as (u & <- & Hu). exists u. split; [reflexivity|]. apply in_flat. exists t. split; [exact Ht|right; exact Hu]. }
      rewrite Hroot. destruct (memb_spec i (flat_map (cutset hostz rkz) ts)) as [Hc|Hc]; [split; [intros _; right; exact Hc|reflexivity]|].
      split.
      + intros Hr. left. destruct (in_some_tree i s Es) as (t & Ht & Hi). apply (Permutation_in _ (nodes_edges t)) in Hi. destruct Hi as [<-|Hi]; [apply in_map; exact Ht|].
        exfalso. apply Hc. apply Hcs. exists t. split; [exact Ht|]. apply in_map_iff in Hi as ([p j] & E & He). cbn in E. subst j. exists p. split; [exact He|].
        unfold lcut. rewrite Hr. cbn. apply orb_true_r.
      + intros [Hr|Hr]; [|contradiction]. apply (Hroots i s Es) in Hr. unfold rkz. destruct (memb i (zs raised)); [reflexivity|]. rewrite Es. exact Hr.
    - intros p c. rewrite Hedge. unfold lcut. rewrite orb_false_iff, negb_false_iff, Z.eqb_eq, Z.eqb_neq. reflexivity.
  Qed.
End LevelAll.
