(** Proofs about the particle query, part 1: one process. *)
From Coq Require Import List ZArith Bool Lia Sorting.Permutation Sorting.Sorted.
From Verif.Model Require Import ListMem Run Mpi Hash ParticleExchange.
From Verif.Spec Require Import Lookup Query.
From Verif.Proofs Require Import ListMemProofs HashProofs MpiProofs RestoreProofs.
Import ListNotations.
Local Open Scope nat_scope.

Section Iter.
  Context {X : Type}.
  Local Notation part := (Z * X)%type.
  Definition pid (p : part * nat) : Z := fst (fst p).

  Lemma ss_nth {A} (f : A -> Z) (l : list A) i j a b : StronglySorted Z.le (map f l) -> i <= j ->
    nth_error l i = Some a -> nth_error l j = Some b -> (f a <= f b)%Z.
  Proof.
    revert i j; induction l as [|x l IH]; intros i j H Hij Ha Hb; [destruct i; discriminate|].
    cbn in H. apply StronglySorted_inv in H as [H1 H2]. destruct i, j; cbn in *; try lia.
    - assert (a = b) by congruence. subst. lia.
    - injection Ha as ->. rewrite Forall_forall in H2. apply H2. apply in_map. eapply nth_error_In; eauto.
    - eapply (IH i j); eauto. lia.
  Qed.

  (** number of elements with id below [x] *)
  Definition lb (x : Z) (l : list (part * nat)) : nat := length (filter (fun p => Z.ltb (pid p) x) l).
  Lemma lb_le x l : lb x l <= length l.
  Proof. unfold lb. induction l as [|y l IH]; cbn; [lia|]. destruct (pid y <? x)%Z; cbn; lia. Qed.
  Lemma lb_mono x y l : (x <= y)%Z -> lb x l <= lb y l.
  Proof.
    intros H. unfold lb. induction l as [|z l IH]; cbn; [lia|].
    destruct (Z.ltb_spec (pid z) x), (Z.ltb_spec (pid z) y); cbn; lia.
  Qed.
  Lemma lb_split x pre post : (forall p, In p pre -> (pid p < x)%Z) -> (forall p, In p post -> (x <= pid p)%Z) ->
    lb x (pre ++ post) = length pre.
  Proof.
    intros H1 H2. unfold lb. rewrite filter_app, app_length.
    assert (forall l, (forall p, In p l -> (x <= pid p)%Z) -> filter (fun p => (pid p <? x)%Z) l = []) as E2.
    { clear. induction l as [|y l IH]; intros H; [reflexivity|]. cbn. destruct (Z.ltb_spec (pid y) x).
      - specialize (H y (or_introl eq_refl)). lia.
      - apply IH. intros; apply H; right; auto. }
    assert (forall l, (forall p, In p l -> (pid p < x)%Z) -> filter (fun p => (pid p <? x)%Z) l = l) as E1.
    { clear. induction l as [|y l IH]; intros H; [reflexivity|]. cbn. destruct (Z.ltb_spec (pid y) x).
      - f_equal. apply IH. intros; apply H; right; auto.
      - specialize (H y (or_introl eq_refl)). lia. }
    rewrite E1, E2 by assumption. cbn. lia.
  Qed.
  Lemma lb_firstn x l p : StronglySorted Z.le (map pid l) -> In p (firstn (lb x l) l) -> (pid p < x)%Z.
  Proof.
    unfold lb. induction l as [|y l IH]; intros H Hp; [destruct Hp|]. cbn in H. apply StronglySorted_inv in H as [H1 H2].
    cbn in Hp. destruct (Z.ltb_spec (pid y) x) as [Hy|Hy]; cbn in Hp.
    - destruct Hp as [<-|Hp]; [exact Hy|]. auto.
    - rewrite Forall_forall in H2. assert (E : filter (fun p => (pid p <? x)%Z) l = []).
      { assert (Hall : forall q, In q l -> (x <= pid q)%Z) by (intros q Hq; specialize (H2 (pid q) (in_map _ _ _ Hq)); lia).
        clear - Hall. induction l as [|z l IH]; [reflexivity|]. cbn. destruct (Z.ltb_spec (pid z) x).
        - specialize (Hall z (or_introl eq_refl)). lia.
        - apply IH. intros; apply Hall; right; auto. }
      rewrite E in Hp. destruct Hp.
  Qed.
  Lemma lb_skipn x l p : StronglySorted Z.le (map pid l) -> In p (skipn (lb x l) l) -> (x <= pid p)%Z.
  Proof.
    unfold lb. induction l as [|y l IH]; intros H Hp; [destruct Hp|]. cbn in H. apply StronglySorted_inv in H as [H1 H2].
    cbn in Hp. destruct (Z.ltb_spec (pid y) x) as [Hy|Hy]; cbn in Hp.
    - auto.
    - rewrite Forall_forall in H2.
      assert (In p (y :: l)) as Hin.
      { revert Hp. generalize (length (filter (fun p => (pid p <? x)%Z) l)). intros n Hp.
        rewrite <- (firstn_skipn n (y :: l)). apply in_or_app. right; exact Hp. }
      destruct Hin as [<-|Hin]; [lia|]. specialize (H2 (pid p) (in_map _ _ _ Hin)). lia.
  Qed.

  Lemma lb_below x l : (forall p, In p l -> (pid p < x)%Z) -> lb x l = length l.
  Proof. intros H. rewrite <- (app_nil_r l) at 1. apply lb_split; [exact H|intros p []]. Qed.

  Section Scan.
    Variables (ranges : list Z) (W : nat) (whole : list (part * nat)).
    Hypothesis Hlen : length ranges = S W.
    Hypothesis Hsorted : StronglySorted Z.le ranges.
    Hypothesis Hwhole : StronglySorted Z.le (map pid whole).
    Hypothesis Hbelow : forall p hi, In p whole -> nth_error ranges W = Some hi -> (pid p < hi)%Z.

    Definition sinv (pre : list (part * nat)) (rank : nat) (its : list nat) : Prop :=
      length its = W /\ rank <= W /\
      (forall r lo, r < rank -> nth_error ranges r = Some lo -> nth_error its r = Some (lb lo whole)) /\
      (forall p hi, In p pre -> nth_error ranges rank = Some hi -> (pid p < hi)%Z).

    Lemma ranges_mono i j a b : i <= j -> nth_error ranges i = Some a -> nth_error ranges j = Some b -> (a <= b)%Z.
    Proof. intros. eapply (ss_nth (fun z => z) ranges i j); eauto. rewrite map_id. exact Hsorted. Qed.

    Lemma advance_spec fuel : forall pre p post rank its, whole = pre ++ p :: post -> sinv pre rank its -> W - rank < fuel ->
      exists rank' its', advance fuel ranges W (pid p) (length pre) rank its = Done (rank', its') /\ sinv (pre ++ [p]) rank' its'.
    Proof.
      induction fuel as [|f IH]; intros pre p post rank its E Hi Hf; [lia|].
      destruct Hi as (H1 & H2 & H3 & H4). cbn [advance].
      destruct (nth_error_in_range ranges rank) as [lo Hlo]; [lia|]. rewrite Hlo.
      destruct (Z.leb_spec lo (pid p)) as [Hle|Hlt].
      - destruct (Nat.eqb_spec rank W) as [->|Hn].
        { assert (pid p < lo)%Z; [|lia]. apply (Hbelow p); [rewrite E; apply in_or_app; right; left; reflexivity|exact Hlo]. }
        destruct (upd_some its rank (length pre)) as [its' HU]; [lia|]. rewrite HU.
        apply (IH pre p post); [exact E| |lia]. split; [rewrite (upd_length _ _ _ _ HU); exact H1|]. split; [lia|]. split.
        + intros r lo' Hr Hlo'. rewrite (upd_nth _ _ _ r _ HU). destruct (Nat.eqb_spec r rank) as [->|]; [|apply H3; [lia|exact Hlo']].
          replace lo' with lo by congruence. f_equal. symmetry. rewrite E at 1. apply lb_split.
          * intros q Hq. eapply H4; eauto.
          * intros q Hq. destruct (In_nth_error _ _ Hq) as [k Hk].
            pose proof (ss_nth pid whole (length pre + 0) (length pre + k) p q Hwhole) as HH. rewrite E in HH.
            rewrite !nth_error_app2 in HH by lia. replace (length pre + 0 - length pre) with 0 in HH by lia.
            replace (length pre + k - length pre) with k in HH by lia. specialize (HH ltac:(lia) eq_refl Hk). lia.
        + intros q hi Hq Hhi. pose proof (H4 q lo Hq Hlo). pose proof (ranges_mono rank (S rank) lo hi ltac:(lia) Hlo Hhi). lia.
      - exists rank, its. split; [reflexivity|]. split; [exact H1|]. split; [exact H2|]. split; [exact H3|].
        intros q hi Hq Hhi. apply in_app_or in Hq as [Hq|[<-|[]]]; [eapply H4; eauto|]. congruence.
    Qed.
    Lemma scan_spec l : forall pre rank its, whole = pre ++ l -> sinv pre rank its ->
      exists rank' its', scan ranges W l (length pre) rank its = Done (rank', its') /\ sinv whole rank' its'.
    Proof.
      induction l as [|p l IH]; intros pre rank its E Hi.
      - exists rank, its. split; [reflexivity|]. rewrite E, app_nil_r. exact Hi.
      - cbn [scan]. destruct (advance_spec (S W) pre p l rank its E Hi) as (rank' & its' & HA & Hi'); [lia|].
        unfold pid in HA. rewrite HA.
        destruct (IH (pre ++ [p]) rank' its') as (r2 & i2 & HS & H2); [rewrite <- app_assoc; exact E|exact Hi'|].
        exists r2, i2. rewrite app_length in HS. cbn in HS. rewrite Nat.add_comm in HS. cbn in HS. split; assumption.
    Qed.
    Lemma iterators_spec : local_iterators ranges W whole = Done (map (fun x => lb x whole) (firstn W ranges)).
    Proof.
      unfold local_iterators. destruct (scan_spec whole [] 0 (repeat 0 W)) as (rank & its & HS & H1 & H2 & H3 & H4); [reflexivity| |].
      { split; [apply repeat_length|]. split; [lia|]. split; [intros; lia|intros p hi []]. }
      cbn in HS. rewrite HS.
      destruct (for_range_inv (fun r o => length o = W /\ forall k lo, k < r -> nth_error ranges k = Some lo -> k < W -> nth_error o k = Some (lb lo whole))
                  rank (W - rank) (fun r o => upd o r (length whole)) its) as (o & HO & HO1 & HO2).
      - split; [exact H1|]. intros k lo Hk Hlo _. apply H3; assumption.
      - intros r o Hr [Ho1 Ho2]. destruct (upd_some o r (length whole)) as [o' HU]; [lia|]. exists o'. split; [exact HU|].
        split; [rewrite (upd_length _ _ _ _ HU); exact Ho1|]. intros k lo Hk Hlo HkW. rewrite (upd_nth _ _ _ k _ HU).
        destruct (Nat.eqb_spec k r) as [->|]; [|apply Ho2; [lia|exact Hlo|exact HkW]].
        f_equal. symmetry. apply lb_below. intros p Hp.
        destruct (nth_error_in_range ranges rank) as [mid Hmid]; [lia|].
        pose proof (H4 p mid Hp Hmid). pose proof (ranges_mono rank r mid lo ltac:(lia) Hmid Hlo). lia.
      - rewrite HO. f_equal. apply nth_error_ext. intros k. destruct (Nat.lt_ge_cases k W) as [Hk|Hk].
        + destruct (nth_error_in_range ranges k) as [lo Hlo]; [lia|]. rewrite (HO2 k lo ltac:(lia) Hlo Hk).
          symmetry. apply (map_nth_error (fun x => lb x whole)). rewrite <- Hlo.
          rewrite <- (firstn_skipn W ranges) at 2. rewrite nth_error_app1; [reflexivity|]. rewrite firstn_length. lia.
        + transitivity (@None nat); [apply nth_error_None; lia|symmetry; apply nth_error_None; rewrite map_length, firstn_length; lia].
    Qed.
  End Scan.

  (** cutting a list at given positions *)
  Fixpoint cuts {B} (its : list nat) (l : list B) : list (list B) :=
    match its with
    | [] => []
    | a :: rest => (match rest with [] => skipn a l | b :: _ => firstn (b - a) (skipn a l) end) :: cuts rest l
    end.
  Definition mono (its : list nat) (np : nat) := forall i j a b, i <= j -> nth_error its i = Some a -> nth_error its j = Some b -> a <= b <= np.
  Lemma mono_tail a its np : mono (a :: its) np -> mono its np.
  Proof. intros H i j x y Hij Hx Hy. apply (H (S i) (S j)); cbn; auto. lia. Qed.
  Lemma cuts_length {B} its (l : list B) : length (cuts its l) = length its.
  Proof. induction its; cbn; auto. Qed.
  Lemma cuts_concat {B} a its (l : list B) : mono (a :: its) (length l) -> concat (cuts (a :: its) l) = skipn a l.
  Proof.
    revert a; induction its as [|b its IH]; intros a H; [cbn; apply app_nil_r|].
    cbn [cuts concat]. change (firstn (b - a) (skipn a l) ++ concat (cuts (b :: its) l) = skipn a l).
    rewrite IH by (eapply mono_tail; eauto). pose proof (H 0 1 a b ltac:(lia) eq_refl eq_refl).
    rewrite <- (firstn_skipn (b - a) (skipn a l)) at 2. f_equal. rewrite skipn_skipn. f_equal. lia.
  Qed.
  Lemma cuts_sizes {B} its (l : list B) : mono its (length l) -> sizes its (length l) = map (@length B) (cuts its l).
  Proof.
    induction its as [|a its IH]; intros H; [reflexivity|]. cbn [sizes cuts map]. f_equal; [|apply IH; eapply mono_tail; eauto].
    destruct its as [|b its]; [rewrite skipn_length; reflexivity|].
    pose proof (H 0 1 a b ltac:(lia) eq_refl eq_refl). rewrite firstn_length, skipn_length. lia.
  Qed.
  Lemma cuts_offs {B} a its (l : list B) : mono (a :: its) (length l) ->
    a :: its = offs_from a (map (@length B) (cuts (a :: its) l)).
  Proof.
    revert a; induction its as [|b its IH]; intros a H; [reflexivity|].
    cbn [cuts map offs_from]. f_equal. pose proof (H 0 1 a b ltac:(lia) eq_refl eq_refl).
    rewrite firstn_length, skipn_length, Nat.min_l by lia. replace (a + (b - a)) with b by lia.
    apply (IH b). eapply mono_tail; eauto.
  Qed.
  Lemma cuts_nth {B} its (l : list B) r d : mono its (length l) -> nth_error its r = Some d ->
    exists c, nth_error (cuts its l) r = Some c /\ c = firstn (length c) (skipn d l).
  Proof.
    revert r; induction its as [|a its IH]; intros [|r] H Hd; try discriminate; cbn in Hd.
    - injection Hd as ->. cbn. destruct its as [|b its]; eexists; (split; [reflexivity|]).
      + symmetry. apply firstn_all.
      + rewrite firstn_length. 
        pose proof (H 0 1 d b ltac:(lia) eq_refl eq_refl). rewrite skipn_length, Nat.min_l by lia. reflexivity.
    - cbn. apply IH; [eapply mono_tail; eauto|exact Hd].
  Qed.
  Lemma cuts_bounds {B} its (l : list B) r a b c : mono its (length l) -> nth_error its r = Some a ->
    (nth_error its (S r) = Some b \/ nth_error its (S r) = None /\ b = length l) -> nth_error (cuts its l) r = Some c ->
    c = firstn (b - a) (skipn a l).
  Proof.
    revert r; induction its as [|x its IH]; intros [|r] H Ha Hb Hc; try discriminate; cbn in Ha.
    - injection Ha as ->. cbn in Hc, Hb. destruct its as [|y its]; cbn in Hb.
      + destruct Hb as [|[_ ->]]; [discriminate|]. injection Hc as <-. rewrite firstn_all2; [reflexivity|rewrite skipn_length; lia].
      + destruct Hb as [Hb|[Hb _]]; [|discriminate]. injection Hb as ->. injection Hc as <-. reflexivity.
    - cbn in Hc. eapply IH; eauto using mono_tail.
  Qed.
End Iter.
