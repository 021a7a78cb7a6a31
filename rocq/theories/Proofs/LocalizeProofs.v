(** LocalizeNestedIds and GlobalizeTrackReferences. *)
From Coq Require Import List ZArith Bool Lia Sorting.Permutation.
From Verif.Model Require Import ListMem Mpi Run Hash Subhalo Nest.
From Verif.Spec Require Import Lookup Forest.
From Verif.Proofs Require Import ListMemProofs MpiProofs ListExtra HashProofs MemberProofs CentralProofs2 TreeProofs NestProofs NestProofs2 NestProofs3 NestProofs4.
Import ListNotations.
Local Open Scope Z_scope.

Lemma F2_length {A B} (P : A -> B -> Prop) l l' : Forall2 P l l' -> length l = length l'.
Proof. induction 1; cbn; congruence. Qed.
Lemma F2_nth {A B} (P : A -> B -> Prop) l l' : Forall2 P l l' -> forall i x y, nth_error l i = Some x -> nth_error l' i = Some y -> P x y.
Proof. induction 1; intros [|i] a b Ha Hb; cbn in *; try discriminate; [congruence|eauto]. Qed.

Section Local.
  Context {X R : Type}.
  Local Notation subs_t := (list (sub X R)).

  (** tracks held by a process *)
  Definition is_local (subs : subs_t) (t : Z) : bool := memb t (map s_track subs).
  Definition at_index (subs : subs_t) (t i : Z) : Prop := exists s, zget subs i = Some s /\ s_track s = t.

  Lemma track_keys_in (subs : subs_t) t i : In (t, i) (track_keys subs) <-> at_index subs t i.
  Proof.
    unfold track_keys, at_index. split.
    - intros H. apply In_nth_error in H as [k Hk]. apply combine_nth_error_inv in Hk as [H1 H2]. rewrite nth_error_map in H1, H2. rewrite nth_seq in H2.
      destruct (k <? length subs)%nat; [|discriminate]. cbn in H2. injection H2 as <-. destruct (nth_error subs k) as [s|] eqn:E; [|discriminate]. cbn in H1. injection H1 as <-.
      exists s. rewrite zget_of_nat. auto.
    - intros (s & Hs & <-). pose proof (zget_some _ _ _ Hs) as Hr. rewrite zget_nat in Hs by lia. apply (nth_error_In _ (Z.to_nat i)).
      apply combine_nth_error; rewrite nth_error_map; [rewrite Hs; reflexivity|]. rewrite nth_seq. destruct (Nat.ltb_spec (Z.to_nat i) (length subs)); [|lia]. cbn. f_equal. lia.
  Qed.
  Lemma is_local_spec (subs : subs_t) t : is_local subs t = true <-> exists i, at_index subs t i.
  Proof.
    unfold is_local. destruct (memb_spec t (map s_track subs)) as [H|H]; split; intros; try discriminate; try reflexivity.
    - apply in_map_iff in H as (s & E & Hs). apply In_nth_error in Hs as [k Hk]. exists (Z.of_nat k), s. rewrite zget_of_nat. auto.
    - exfalso. apply H. destruct H0 as (i & s & Hs & <-). apply in_map. pose proof (zget_some _ _ _ Hs). rewrite zget_nat in Hs by lia. eapply nth_error_In; eauto.
  Qed.
  Lemma at_index_nonneg (subs : subs_t) t i : at_index subs t i -> 0 <= i.
  Proof. intros (s & Hs & _). apply zget_some in Hs. lia. Qed.

  Variable table : list (Z * Z).
  Variable subs : subs_t.
  Hypothesis Htable : mapped_fill (track_keys subs) table.

  Lemma track_lookup t : exists r, mapped_get (-1) table t = Some r /\ ((0 <= t /\ at_index subs t r) \/ ((t < 0 \/ is_local subs t = false) /\ r = -1)).
  Proof.
    destruct (Z.neg_nonneg_cases t) as [Hn|Hp].
    - exists (-1). split; [|right; auto]. unfold mapped_get. destruct (Z.ltb_spec t 0); [reflexivity|lia].
    - destruct (mapped_lookup_nonneg (-1) _ _ t Htable Hp) as (r & E & [Hr|[Hr ->]]).
      + exists r. split; [exact E|]. left. split; [exact Hp|]. apply track_keys_in. exact Hr.
      + exists (-1). split; [exact E|]. right. split; [|reflexivity]. right. destruct (is_local subs t) eqn:El; [|reflexivity]. exfalso. apply Hr.
        apply is_local_spec in El as [i Hi]. apply track_keys_in in Hi. apply in_map_iff. exists (t, i). auto.
  Qed.

  Definition found (t : Z) : bool := (0 <=? t) && is_local subs t.
  Lemma localize_nest_spec nest : exists kept lost, localize_nest table nest = Some (kept, lost) /\
    Forall2 (at_index subs) (filter found nest) kept /\ lost = filter (fun t => negb (found t)) nest.
  Proof.
    induction nest as [|t r IH]; [exists [], []; cbn; auto|]. destruct IH as (kept & lost & E & H1 & H2). cbn [localize_nest].
    destruct (track_lookup t) as (i & Ei & Hi). rewrite Ei, E. cbn [filter].
    destruct Hi as [[Hp Hi]|[Hn ->]].
    - assert (Ef : found t = true). { unfold found. apply andb_true_iff. split; [lia|]. apply is_local_spec. eauto. }
      pose proof (at_index_nonneg _ _ _ Hi). destruct (Z.eqb_spec i (-1)); [lia|]. exists (i :: kept), lost. split; [reflexivity|]. rewrite Ef. cbn. split; [constructor; assumption|exact H2].
    - assert (Ef : found t = false). { unfold found. destruct Hn as [Hn|Hn]; [destruct (Z.leb_spec 0 t); [lia|reflexivity]|rewrite Hn; apply andb_false_r]. }
      rewrite Z.eqb_refl. exists kept, (t :: lost). split; [reflexivity|]. rewrite Ef. cbn. split; [exact H1|congruence].
  Qed.
  Lemma localize_subs_spec (l : subs_t) : exists l' lost, localize_subs table l = Some (l', lost) /\
    Forall2 (fun s s' => exists kept, s' = set_nest kept s /\ Forall2 (at_index subs) (filter found (s_nest s)) kept) l l' /\
    lost = flat_map (fun s => filter (fun t => negb (found t)) (s_nest s)) l.
  Proof.
    induction l as [|s r IH]; [exists [], []; cbn; auto|]. destruct IH as (r' & lost & E & H1 & H2). cbn [localize_subs].
    destruct (localize_nest_spec (s_nest s)) as (kept & lo & En & Hk & Hl). rewrite En, E. exists (set_nest kept s :: r'), (lo ++ lost).
    split; [reflexivity|]. split; [constructor; [eauto|exact H1]|]. cbn. congruence.
  Qed.

  (** levelling up the received tracks *)
  Lemma receive_spec (l : subs_t) (recv : list Z) : length l = length subs -> (forall i s, nth_error l i = Some s -> exists s0, nth_error subs i = Some s0 /\ s_track s0 = s_track s) ->
    NoDup (map s_track (filter (fun s => 0 <=? s_track s) subs)) ->
    exists l', for_each recv (level_received table) l = Some l' /\ length l' = length l /\
      forall i s, nth_error l i = Some s -> nth_error l' i = Some (if (0 <=? s_track s) && memb (s_track s) recv then set_rank 0 s else s).
  Proof.
    intros HL Htr Hnd.
    assert (Hinj : forall i j s u, nth_error subs i = Some s -> nth_error subs j = Some u -> s_track s = s_track u -> 0 <= s_track s -> i = j).
    { clear -Hnd. revert Hnd. induction subs as [|x r IH]; intros Hnd [|i] [|j] s u Hi Hj E Hp; cbn in Hi, Hj; try discriminate; [reflexivity| | |].
      - exfalso. injection Hi as ->. cbn in Hnd. destruct (Z.leb_spec 0 (s_track s)); [|lia]. cbn in Hnd. inversion Hnd as [|? ? Hn _]. apply Hn. rewrite E. apply in_map.
        apply filter_In. split; [eapply nth_error_In; eauto|]. apply Z.leb_le. lia.
      - exfalso. injection Hj as ->. cbn in Hnd. destruct (Z.leb_spec 0 (s_track u)); [|lia]. cbn in Hnd. inversion Hnd as [|? ? Hn _]. apply Hn. rewrite <- E. apply in_map.
        apply filter_In. split; [eapply nth_error_In; eauto|]. apply Z.leb_le. lia.
      - f_equal. eapply IH; eauto. cbn in Hnd. destruct (0 <=? s_track x); [inversion Hnd; assumption|exact Hnd]. }
    destruct (for_each_inv (fun pre cur => length cur = length l /\ forall i s, nth_error l i = Some s ->
        nth_error cur i = Some (if (0 <=? s_track s) && memb (s_track s) pre then set_rank 0 s else s)) recv (level_received table) l) as (l' & E & H1 & H2).
    - split; [reflexivity|]. intros i s Hs. cbn. rewrite andb_false_r. exact Hs.
    - intros pre t post cur Er (H1 & H2). unfold level_received. destruct (track_lookup t) as (r & Er' & Hr). rewrite Er'.
      destruct Hr as [[Hp (s0 & Hs0 & Et)]|[Hn ->]].
      + pose proof (zget_some _ _ _ Hs0) as Hrr. destruct (Z.eqb_spec r (-1)); [lia|]. rewrite zget_nat in Hs0 by lia.
        destruct (nth_error_in_range l (Z.to_nat r)) as [s Hs]; [lia|]. pose proof (H2 _ _ Hs) as Hc.
        destruct (zmodify_some cur r (set_rank 0) _ ltac:(rewrite zget_nat by lia; exact Hc)) as [cur' E']. exists cur'. split; [exact E'|].
        split; [rewrite (zmodify_length _ _ _ _ E'); exact H1|]. intros i u Hu. pose proof (zmodify_get _ _ _ _ (Z.of_nat i) E') as Hg. rewrite !zget_of_nat in Hg. rewrite Hg.
        rewrite (H2 i u Hu), memb_app. cbn [memb existsb]. rewrite orb_false_r. destruct (Htr i u Hu) as (u0 & Hu0 & Etu).
        destruct (Z.eqb_spec (Z.of_nat i) r) as [Ei|Ei].
        * assert (i = Z.to_nat r) by lia. subst i. assert (u0 = s0) by congruence. subst u0. rewrite <- Etu, Et, Z.eqb_refl, orb_true_r. destruct (Z.leb_spec 0 t); [|lia]. cbn [andb option_map].
          destruct (memb t pre); reflexivity.
        * destruct (Z.eqb_spec (s_track u) t) as [Eu|Eu].
          -- exfalso. apply Ei. assert (i = Z.to_nat r); [|lia]. eapply Hinj; [exact Hu0|exact Hs0| |]; lia.
          -- rewrite orb_false_r. reflexivity.
      + cbn [Z.eqb]. exists cur. split; [reflexivity|]. split; [exact H1|]. intros i u Hu. rewrite (H2 i u Hu), memb_app. cbn [memb existsb]. rewrite orb_false_r.
        destruct (Z.eqb_spec (s_track u) t) as [Eu|]; [|rewrite orb_false_r; reflexivity]. destruct (Z.leb_spec 0 (s_track u)) as [Hge|]; [|reflexivity]. exfalso.
        destruct Hn as [Hn|Hn]; [lia|]. destruct (Htr i u Hu) as (u0 & Hu0 & Etu). assert (is_local subs t = true); [|congruence]. apply is_local_spec. exists (Z.of_nat i), u0.
        rewrite zget_of_nat. split; [exact Hu0|congruence].
    - exists l'. auto.
  Qed.
End Local.

Section Procs.
  Context {X R : Type}.
  Local Notation subs_t := (list (sub X R)).
  Variable procs : list (list (Z * Z) * subs_t).
  Hypothesis Htables : Forall (fun p => mapped_fill (track_keys (snd p)) (fst p)) procs.
  (** every registered track is held once, by one process *)
  Hypothesis Hnd : NoDup (map s_track (filter (fun s => 0 <=? s_track s) (concat (map snd procs)))).

  Lemma filter_concat {A} (f : A -> bool) l : filter f (concat l) = concat (map (filter f) l).
  Proof. induction l; cbn; [reflexivity|]. rewrite filter_app. congruence. Qed.
  Lemma nd_proc k p : nth_error procs k = Some p -> NoDup (map s_track (filter (fun s => 0 <=? s_track s) (snd p))).
  Proof.
    intros Hk. rewrite filter_concat, concat_map, map_map, map_map in Hnd. apply nth_error_split in Hk as (a & b & E & _). rewrite E in Hnd.
    rewrite map_app, concat_app in Hnd. cbn in Hnd. apply NoDup_app_remove_l in Hnd. eapply NoDup_app_remove_r; exact Hnd.
  Qed.
  Lemma one_proc k q p p' s u : nth_error procs k = Some p -> nth_error procs q = Some p' -> In s (snd p) -> In u (snd p') ->
    s_track s = s_track u -> 0 <= s_track s -> k = q.
  Proof.
    intros Hk Hq Hs Hu E Hp.
    assert (Hgen : forall l : list (list (Z * Z) * subs_t), NoDup (map s_track (filter (fun s => 0 <=? s_track s) (concat (map snd l)))) ->
      forall k q, nth_error l k = Some p -> nth_error l q = Some p' -> k = q).
    { clear -Hs Hu E Hp. induction l as [|x l IH]; intros Hn [|k] [|q] Hk Hq; cbn in *; try discriminate; [reflexivity| | |].
      - exfalso. injection Hk as ->. rewrite filter_app, map_app in Hn. eapply NoDup_app_disjoint; [exact Hn| |].
        + apply in_map. apply filter_In. split; [exact Hs|]. apply Z.leb_le. exact Hp.
        + rewrite E. apply in_map. apply filter_In. split; [|apply Z.leb_le; lia]. apply in_concat. exists (snd p'). split; [|exact Hu]. apply in_map. eapply nth_error_In; eauto.
      - exfalso. injection Hq as ->. rewrite filter_app, map_app in Hn. eapply NoDup_app_disjoint; [exact Hn| |].
        + apply in_map. apply filter_In. split; [exact Hu|]. apply Z.leb_le. lia.
        + rewrite <- E. apply in_map. apply filter_In. split; [|apply Z.leb_le; lia]. apply in_concat. exists (snd p). split; [|exact Hs]. apply in_map. eapply nth_error_In; eauto.
      - f_equal. eapply IH; eauto. rewrite filter_app, map_app in Hn. eapply NoDup_app_remove_l; eauto. }
    eapply Hgen; eauto.
  Qed.

  (** [t] is listed in a nest on a process other than [k] *)
  Definition listed_elsewhere (k : nat) (t : Z) : Prop :=
    exists q p u, q <> k /\ nth_error procs q = Some p /\ In u (snd p) /\ In t (s_nest u).
  Definition local_copy (k : nat) (subs : subs_t) (s s' : sub X R) : Prop :=
    exists kept r, s' = set_nest kept (set_rank r s) /\ Forall2 (at_index subs) (filter (found subs) (s_nest s)) kept /\
      (0 <= s_track s -> listed_elsewhere k (s_track s) -> r = 0) /\
      (s_track s < 0 \/ ~ listed_elsewhere k (s_track s) -> r = s_rank s).

  Lemma localize_spec : exists outs, localize procs = Some outs /\ length outs = length procs /\
    forall k p subs', nth_error procs k = Some p -> nth_error outs k = Some subs' ->
      length subs' = length (snd p) /\
      forall i s, nth_error (snd p) i = Some s -> exists s', nth_error subs' i = Some s' /\ local_copy k (snd p) s s'.
  Proof.
    unfold localize.
    destruct (mapM_total (fun p : list (Z * Z) * subs_t => localize_subs (fst p) (snd p)) procs) as [rs Hrs].
    { intros [tb subs] Hp. rewrite Forall_forall in Htables. destruct (localize_subs_spec tb subs (Htables _ Hp) subs) as (l' & lost & E & _). cbn. eauto. }
    rewrite Hrs. pose proof (mapM_length _ _ _ Hrs) as HLr.
    assert (Hone : forall k p, nth_error procs k = Some p -> exists l' lost, nth_error rs k = Some (l', lost) /\
       Forall2 (fun s s' => exists kept, s' = set_nest kept s /\ Forall2 (at_index (snd p)) (filter (found (snd p)) (s_nest s)) kept) (snd p) l' /\
       lost = flat_map (fun s => filter (fun t => negb (found (snd p) t)) (s_nest s)) (snd p)).
    { intros k p Hk. destruct (mapM_nth _ _ _ _ _ Hrs Hk) as ([l' lost] & E & Hn). rewrite Forall_forall in Htables.
      destruct (localize_subs_spec (fst p) (snd p) (Htables _ (nth_error_In _ _ Hk)) (snd p)) as (l2 & lost2 & E2 & H1 & H2).
      rewrite E in E2. injection E2 as <- <-. exists l', lost. auto. }
    assert (Hrecv : forall k p s, nth_error procs k = Some p -> In s (snd p) -> 0 <= s_track s -> (In (s_track s) (received k (map snd rs)) <-> listed_elsewhere k (s_track s))).
    { intros k p s Hk Hs Hp. unfold received. rewrite in_concat. split.
      - intros (lo & Hlo & Hin). apply in_map_iff in Hlo as ([q lo'] & <- & Hq). apply filter_In in Hq as [Hq Hne]. cbn [fst snd] in *. apply negb_true_iff, Nat.eqb_neq in Hne.
        apply In_nth_error in Hq as [j Hj]. apply combine_nth_error_inv in Hj as [Hj1 Hj2]. rewrite nth_seq in Hj1. destruct (j <? length (map snd rs))%nat; [|discriminate]. injection Hj1 as <-. cbn [Nat.add] in *.
        rewrite nth_error_map in Hj2. destruct (nth_error rs j) as [[l2 lo2]|] eqn:Ej; [|discriminate]. cbn in Hj2. injection Hj2 as ->.
        destruct (nth_error_in_range procs j) as [p2 Hp2]; [rewrite <- HLr; eapply nth_error_lt; eauto|]. destruct (Hone j p2 Hp2) as (l3 & lo3 & E3 & _ & El). rewrite Ej in E3. injection E3 as <- <-.
        rewrite El in Hin. apply in_flat in Hin as (u & Hu & Hin). apply filter_In in Hin as [Hin _]. exists j, p2, u. auto.
      - intros (q & p2 & u & Hne & Hq & Hu & Hin). destruct (Hone q p2 Hq) as (l3 & lo3 & E3 & _ & El). exists lo3. split.
        + apply in_map_iff. exists (q, lo3). split; [reflexivity|]. apply filter_In. split; [|cbn; apply negb_true_iff, Nat.eqb_neq; exact Hne].
          apply (nth_error_In _ q). apply combine_nth_error; [|rewrite nth_error_map, E3; reflexivity]. rewrite nth_seq, map_length. pose proof (nth_error_lt _ _ _ E3).
          destruct (Nat.ltb_spec q (length rs)); [reflexivity|lia].
        + rewrite El. apply in_flat. exists u. split; [exact Hu|]. apply filter_In. split; [exact Hin|]. apply negb_true_iff. unfold found.
          destruct (is_local (snd p2) (s_track s)) eqn:Eloc; [|apply andb_false_r]. exfalso. apply is_local_spec in Eloc as (i & v & Hv & Ev). apply Hne.
          pose proof (zget_some _ _ _ Hv). rewrite zget_nat in Hv by lia. symmetry. eapply one_proc; [exact Hk|exact Hq|exact Hs|eapply nth_error_In; exact Hv|congruence|exact Hp]. }
    destruct (mapM_total (fun q : nat * (list (Z * Z) * subs_t * (subs_t * list Z)) => for_each (received (fst q) (map snd rs)) (level_received (fst (fst (snd q)))) (fst (snd (snd q))))
       (combine (seq 0 (length procs)) (combine procs rs))) as [outs Houts].
    { intros [k [[tb subs] [l' lost]]] Hin. cbn [fst snd]. apply In_nth_error in Hin as [j Hj]. apply combine_nth_error_inv in Hj as [Hj1 Hj2]. apply combine_nth_error_inv in Hj2 as [Hj2 Hj3].
      destruct (Hone j _ Hj2) as (l2 & lo2 & E2 & HF & _). rewrite Hj3 in E2. injection E2 as <- <-. rewrite Forall_forall in Htables. cbn [snd] in HF.
      destruct (receive_spec tb subs (Htables _ (nth_error_In _ _ Hj2)) l' (received k (map snd rs))) as (lf & E & _); [symmetry; eapply F2_length; eauto| |apply (nd_proc j (tb, subs)); exact Hj2|eauto].
      intros i s Hs. destruct (nth_error_in_range subs i) as [s0 Hs0]; [rewrite (F2_length _ _ _ HF); eapply nth_error_lt; eauto|]. exists s0. split; [exact Hs0|].
      destruct (F2_nth _ _ _ HF i s0 s Hs0 Hs) as (kept & -> & _). reflexivity. }
    exists outs. split; [exact Houts|]. split.
    { rewrite (mapM_length _ _ _ Houts), !combine_length, seq_length, HLr, !Nat.min_id. reflexivity. }
    intros k p subs' Hk Ho. destruct (Hone k p Hk) as (l' & lo & E & HF & _).
    assert (Hcomb : nth_error (combine (seq 0 (length procs)) (combine procs rs)) k = Some (k, (p, (l', lo)))).
    { apply combine_nth_error; [|apply combine_nth_error; assumption]. rewrite nth_seq. pose proof (nth_error_lt _ _ _ Hk). destruct (Nat.ltb_spec k (length procs)); [reflexivity|lia]. }
    destruct (mapM_nth _ _ _ _ _ Houts Hcomb) as (y & Ey & Hy). rewrite Ho in Hy. injection Hy as <-. cbn [fst snd] in Ey.
    rewrite Forall_forall in Htables. pose proof (F2_length _ _ _ HF) as HLf.
    destruct (receive_spec (fst p) (snd p) (Htables _ (nth_error_In _ _ Hk)) l' (received k (map snd rs))) as (lf & Ef & HL & Hn).
    { lia. }
    { intros i s Hs. destruct (nth_error_in_range (snd p) i) as [s0 Hs0]; [rewrite HLf; eapply nth_error_lt; eauto|]. exists s0. split; [exact Hs0|].
      destruct (F2_nth _ _ _ HF i s0 s Hs0 Hs) as (kept & -> & _). reflexivity. }
    { apply (nd_proc k p Hk). }
    rewrite Ey in Ef. injection Ef as <-. split; [lia|].
    intros i s Hs. destruct (nth_error_in_range l' i) as [s1 Hs1]; [rewrite <- HLf; eapply nth_error_lt; eauto|]. destruct (F2_nth _ _ _ HF i s s1 Hs Hs1) as (kept & E1 & Hkept).
    eexists. split; [apply Hn; exact Hs1|]. subst s1. cbn [s_track set_nest].
    destruct (Z.leb_spec 0 (s_track s)) as [Hp|Hp]; cbn [andb].
    - pose proof (Hrecv k p s Hk (nth_error_In _ _ Hs) Hp) as Hiff. destruct (memb_spec (s_track s) (received k (map snd rs))) as [Hm|Hm].
      + exists kept, 0. split; [reflexivity|]. split; [exact Hkept|]. split; [reflexivity|]. intros [Hl|Hl]; [lia|]. exfalso. apply Hl. apply Hiff. exact Hm.
      + exists kept, (s_rank s). split; [rewrite set_rank_same; reflexivity|]. split; [exact Hkept|]. split; [intros _ Hl; exfalso; apply Hm; apply Hiff; exact Hl|reflexivity].
    - exists kept, (s_rank s). split; [rewrite set_rank_same; reflexivity|]. split; [exact Hkept|]. split; [intros; lia|reflexivity].
  Qed.
End Procs.
