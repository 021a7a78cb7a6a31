(** Proofs about the particle query, part 2: answering and putting back. *)
From Coq Require Import List ZArith Bool Lia Sorting.Permutation Sorting.Sorted.
From Verif.Model Require Import ListMem Run Mpi Hash ParticleExchange.
From Verif.Spec Require Import Lookup Query.
From Verif.Proofs Require Import ListMemProofs HashProofs MpiProofs RestoreProofs QueryProofs.
Import ListNotations.
Local Open Scope nat_scope.

Lemma restore_map {A B} (f : A -> B) (src : list A) (l : list (B * nat)) fuel :
  Permutation l (map (fun xo => (f (fst xo), snd xo)) (combine src (seq 0 (length src)))) -> length l <= fuel ->
  exists r, restore_order fuel l = Done r /\ map fst r = map f src.
Proof.
  intros HP Hf. assert (HL : length l = length src).
  { rewrite (Permutation_length HP), map_length, combine_length, seq_length. lia. }
  assert (Hsnd : forall a, map snd (combine src (seq a (length src))) = seq a (length src)).
  { clear. induction src as [|x src IH]; intros a; [reflexivity|]. cbn. f_equal. apply IH. }
  destruct (restore_correct l fuel) as (r & R & HR & Hr); [|exact Hf|].
  - rewrite HL. rewrite <- (Hsnd 0). apply (Permutation_map snd) in HP. rewrite map_map in HP. exact HP.
  - exists r. split; [exact R|]. apply nth_error_ext. intros o.
    destruct (Nat.lt_ge_cases o (length src)) as [Ho|Ho].
    + destruct (nth_error_in_range src o Ho) as [x Hx]. rewrite (map_nth_error f _ _ Hx).
      assert (Hc : nth_error (combine src (seq 0 (length src))) o = Some (x, o)).
      { apply combine_nth_error; [exact Hx|]. rewrite nth_error_nth' with (d := 0) by (rewrite seq_length; exact Ho). rewrite seq_nth by exact Ho. reflexivity. }
      rewrite (map_nth_error fst o r (d := (f x, o))); [reflexivity|]. apply Hr.
      eapply Permutation_in; [symmetry; exact HP|].
      apply (in_map (fun xo => (f (fst xo), snd xo))) in Hc || (apply nth_error_In in Hc; apply (in_map (fun xo => (f (fst xo), snd xo))) in Hc).
      exact Hc.
    + transitivity (@None B); [|symmetry]; apply nth_error_None; rewrite map_length; lia.
Qed.

Section Finish.
  Context {X : Type}.
  Local Notation part := (Z * X)%type.

  Lemma store_at pre (old post : list (part * nat)) (xs : list part) : length old = length xs ->
    store (pre ++ old ++ post) (length pre) xs = Some (pre ++ combine xs (map snd old) ++ post).
  Proof.
    revert pre old; induction xs as [|x xs IH]; intros pre old Hl.
    - destruct old; [reflexivity|discriminate].
    - destruct old as [|p old]; [discriminate|]. cbn [store app].
      rewrite nth_error_app2, Nat.sub_diag by lia. cbn [nth_error].
      rewrite upd_firstn_skipn by (rewrite app_length; cbn; lia).
      rewrite firstn_app, Nat.sub_diag, firstn_all. cbn [firstn]. rewrite app_nil_r.
      rewrite skipn_app. rewrite (skipn_all2 pre) by lia. replace (S (length pre) - length pre) with 1 by lia. cbn [skipn app].
      replace (pre ++ (x, snd p) :: old ++ post) with ((pre ++ [(x, snd p)]) ++ old ++ post) by (rewrite <- app_assoc; reflexivity).
      replace (S (length pre)) with (length (pre ++ [(x, snd p)])) by (rewrite app_length; cbn; lia).
      rewrite IH by (cbn in Hl; lia). rewrite <- app_assoc. reflexivity.
  Qed.
  Variable U : part -> part.
  Definition onU (po : part * nat) : part * nat := (U (fst po), snd po).
  Lemma store_all_at (olds : list (list (part * nat))) pre :
    store_all (pre ++ concat olds) (offs_from (length pre) (map (@length _) olds)) (map (map (fun po => U (fst po))) olds) =
      Some (pre ++ map onU (concat olds)).
  Proof.
    revert pre; induction olds as [|o olds IH]; intros pre; [reflexivity|].
    cbn [map concat offs_from store_all]. rewrite store_at by (rewrite map_length; reflexivity).
    assert (E : combine (map (fun po => U (fst po)) o) (map snd o) = map onU o).
    { clear. induction o as [|x o IH]; [reflexivity|]. cbn. rewrite IH. reflexivity. }
    rewrite E, app_assoc. replace (length pre + length o) with (length (pre ++ map onU o)) by (rewrite app_length, map_length; reflexivity).
    rewrite IH, map_app, app_assoc. reflexivity.
  Qed.
  Lemma cut_by_concat (h : list (list part)) : cut_by (map (@length part) h) (concat h) = Some h.
  Proof.
    induction h as [|x h IH]; [reflexivity|]. cbn [map cut_by concat].
    rewrite app_length. destruct (Nat.leb_spec (length x) (length x + length (concat h))); [|lia].
    rewrite skipn_app, skipn_all, Nat.sub_diag. cbn [app skipn]. rewrite IH.
    rewrite firstn_app, firstn_all, Nat.sub_diag. cbn [firstn]. rewrite app_nil_r. reflexivity.
  Qed.
  Lemma finish_spec (halos : list (list part)) (local : list (part * nat)) a its :
    mono (a :: its) (length local) -> Permutation local (collect halos) ->
    (forall po, In po (firstn a local) -> U (fst po) = fst po) ->
    finish (a :: its) local (map (map (fun po => U (fst po))) (cuts (a :: its) local)) halos = Done (map (map U) halos).
  Proof.
    intros Hm HP Hpre. unfold finish.
    assert (HS : store_all local (a :: its) (map (map (fun po => U (fst po))) (cuts (a :: its) local)) = Some (map onU local)).
    { pose proof (store_all_at (cuts (a :: its) local) (firstn a local)) as H. rewrite cuts_concat, firstn_skipn in H by exact Hm.
      pose proof (Hm 0 0 a a ltac:(lia) eq_refl eq_refl). rewrite firstn_length, Nat.min_l in H by lia.
      rewrite <- cuts_offs in H by exact Hm. rewrite H. f_equal. rewrite <- (firstn_skipn a local) at 3. rewrite map_app. f_equal.
      rewrite <- (map_id (firstn a local)) at 1. apply map_ext_in. intros po Hpo. unfold onU. rewrite Hpre by exact Hpo. destruct po; reflexivity. }
    rewrite HS. destruct (restore_map U (concat halos) (map onU local) (S (length (map onU local)))) as (r & R & Hr); [|lia|].
    - unfold collect in HP. apply (Permutation_map onU) in HP. exact HP.
    - rewrite R, Hr, concat_map.
      replace (map (@length part) halos) with (map (@length part) (map (map U) halos)).
      + rewrite cut_by_concat. reflexivity.
      + rewrite map_map. apply map_ext. intros; apply map_length.
  Qed.
End Finish.

Section Answer.
  Context {X : Type}.
  Local Notation part := (Z * X)%type.
  Variable null : Z.
  Hypothesis Hnull : (null < 0)%Z.
  Variable sort_roam : list (Z * (X * nat)) -> list (Z * (X * nat)).
  Hypothesis sort_perm : forall l, Permutation (sort_roam l) l.
  Hypothesis sort_sorted : forall l, StronglySorted Z.le (map fst (sort_roam l)).

  Lemma indexed_fst (l : list part) : map fst (indexed l) = map fst l.
  Proof.
    unfold indexed. generalize 0. induction l as [|x l IH]; intros a; [reflexivity|]. cbn. f_equal. apply IH.
  Qed.
  Lemma indexed_in (l : list part) k r : In (k, r) (indexed l) -> exists p, (0 <= r)%Z /\ zget l r = Some p /\ fst p = k.
  Proof.
    intros H. apply In_nth_error in H as [i Hi]. unfold indexed in Hi. apply combine_nth_error_inv in Hi as [H1 H2].
    rewrite nth_error_map in H1, H2. destruct (nth_error l i) as [p|] eqn:E; [|discriminate]. cbn in H1. injection H1 as <-.
    destruct (nth_error (seq 0 (length l)) i) as [m|] eqn:E2; [|discriminate]. cbn in H2. injection H2 as <-.
    pose proof (nth_error_lt _ _ _ E) as Hlt. rewrite nth_error_nth' with (d := 0) in E2 by (rewrite seq_length; exact Hlt).
    rewrite seq_nth in E2 by exact Hlt. injection E2 as <-. exists p. split; [lia|]. rewrite zget_nat by lia.
    rewrite Nat2Z.id. split; [exact E|reflexivity].
  Qed.
  Lemma find_unique (l : list part) q : NoDup (map fst l) -> In q l -> find (fun s => Z.eqb (fst s) (fst q)) l = Some q.
  Proof.
    induction l as [|x l IH]; intros Hn Hq; [destruct Hq|]. cbn in Hn. inversion Hn as [|? ? Hx Hl]; subst. cbn.
    destruct (Z.eqb_spec (fst x) (fst q)) as [E|E].
    - destruct Hq as [->|Hq]; [reflexivity|]. exfalso. apply Hx. rewrite E. apply in_map. exact Hq.
    - destruct Hq as [->|Hq]; [contradiction|]. apply IH; assumption.
  Qed.
  Lemma find_none (l : list part) k : ~ In k (map fst l) -> find (fun s => Z.eqb (fst s) k) l = None.
  Proof.
    induction l as [|x l IH]; intros Hn; [reflexivity|]. cbn in *. destruct (Z.eqb_spec (fst x) k); [tauto|]. apply IH. tauto.
  Qed.

  Definition answer (parts : list part) (p : part) : part :=
    match find (fun s => Z.eqb (fst s) (fst p)) parts with Some q => q | None => (null, snd p) end.

  Lemma get_indices_spec s (ps : list (Z * (X * nat))) : table_ok null s -> NoDup (map fst (sp_parts s)) ->
    StronglySorted Z.le (map fst ps) ->
    exists ps', get_indices null s ps = Some ps' /\
      Forall2 (fun p q => lookup_result null (indexed (sp_parts s)) (fst p) (fst q) /\ snd q = snd p) ps ps'.
  Proof.
    intros HT HN HS. unfold get_indices, table_ok in *. rewrite <- indexed_fst in HN. destruct (sp_need_hash s).
    - apply (mapped_batch null _ _ ps HT HN). intros i j a b Hij Ha Hb. eapply (ss_nth fst ps i j); eauto.
    - destruct HT as (order & HP & HF). destruct (flat_batch_single null _ order ps HP HN) as (t & ps' & Ht & HG & H2).
      assert (t = sp_flat s) by congruence. subst t. exists ps'. split; [exact HG|]. eapply Forall2_impl; [|exact H2].
      intros p q (_ & HA & HB). auto.
  Qed.
  Lemma query_spec s (roam : list part) : table_ok null s -> NoDup (map fst (sp_parts s)) ->
    query null sort_roam s roam = Done (map (answer (sp_parts s)) roam).
  Proof.
    intros HT HN. unfold query.
    set (numbered := map (fun pi : part * nat => (fst (fst pi), (snd (fst pi), snd pi))) (combine roam (seq 0 (length roam)))).
    destruct (get_indices_spec s (sort_roam numbered) HT HN (sort_sorted _)) as (l & -> & HL).
    assert (HM : mapM (query_one null s) l = Some (map (fun p : Z * (X * nat) => (answer (sp_parts s) (fst p, fst (snd p)), snd (snd p))) (sort_roam numbered))).
    { apply mapM_eq. eapply Forall2_impl; [|exact HL]. intros p q [HA HB]. unfold query_one, answer. cbn [fst snd]. rewrite HB.
      destruct HA as [HA|[HA HA']].
      - apply indexed_in in HA as (r & Hr & Hz & Hid). destruct (Z.eqb_spec (fst q) null); [lia|]. rewrite Hz, <- Hid.
        rewrite find_unique; [reflexivity|exact HN|]. rewrite zget_nat in Hz by exact Hr. eapply nth_error_In; eauto.
      - rewrite HA', Z.eqb_refl. rewrite indexed_fst in HA. rewrite find_none by exact HA. reflexivity. }
    rewrite HM. set (l' := map _ (sort_roam numbered)).
    destruct (restore_map (answer (sp_parts s)) roam l' (S (length l'))) as (r & -> & Hr); [|lia|rewrite Hr; reflexivity].
    unfold l'. etransitivity; [apply Permutation_map; apply sort_perm|]. unfold numbered. rewrite map_map. cbn [fst snd].
    erewrite map_ext; [reflexivity|]. intros [[k x] o]. reflexivity.
  Qed.
End Answer.
