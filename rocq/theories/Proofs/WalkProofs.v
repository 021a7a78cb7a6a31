(** Loops that walk through nests, at the level of reads and writes. *)
From Coq Require Import List ZArith QArith Bool Lia Sorting.Permutation.
From Verif.Model Require Import ListMem Mpi Run Subhalo Nest Mask Unbind Merge Threads.
From Verif.Spec Require Import Forest Nesting Races.
From Verif.Proofs Require Import ListMemProofs MpiProofs ListExtra MemberProofs TreeProofs NestProofs ThreadProofs.
Import ListNotations.
Local Open Scope Z_scope.

Section Lists.
  Context {V : Type}.
  Local Notation code := (@prog Z V).
  (** The program alone, on a list. *)
  Fixpoint lexec {A} (p : code A) (l : list V) : option (list V * A) :=
    match p with
    | Ret a => Some (l, a)
    | Get i k => match zget l i with Some v => lexec (k v) l | None => None end
    | Put i v k => match zupd l i v with Some l' => lexec k l' | None => None end
    | Fail => None
    end.
  Lemma lexec_bind {A B} (p : code A) (f : A -> code B) : forall l, lexec (pbind p f) l = match lexec p l with Some (l', a) => lexec (f a) l' | None => None end.
  Proof. induction p as [a|i k IH|i v k IH|]; intros l; cbn; try reflexivity; [destruct (zget l i); [apply IH|reflexivity]|destruct (zupd l i v); [apply IH|reflexivity]]. Qed.
  (** It accesses [T] only, and ends in [Post] if it does. *)
  Fixpoint foot {A} (T : Z -> Prop) (p : code A) (l : list V) (Post : A -> list V -> Prop) : Prop :=
    match p with
    | Ret a => Post a l
    | Get i k => forall v, zget l i = Some v -> T i /\ foot T (k v) l Post
    | Put i v k => forall l', zupd l i v = Some l' -> T i /\ foot T k l' Post
    | Fail => True
    end.
  Lemma foot_mono {A} T (p : code A) : forall l (P Q : A -> list V -> Prop), (forall a x, P a x -> Q a x) -> foot T p l P -> foot T p l Q.
  Proof.
    induction p as [a|i k IH|i v k IH|]; cbn; intros l P Q H HF; auto.
    - intros v Hv. destruct (HF v Hv) as [HT H']. split; [exact HT|eapply IH; eauto].
    - intros l' Hl. destruct (HF l' Hl) as [HT H']. split; [exact HT|eapply IH; eauto].
  Qed.
  Lemma foot_bind {A B} T (p : code A) (f : A -> code B) : forall l Post, foot T p l (fun a x => foot T (f a) x Post) -> foot T (pbind p f) l Post.
  Proof.
    induction p as [a|i k IH|i v k IH|]; cbn; intros l Post HF; auto.
    - intros v Hv. destruct (HF v Hv) as [HT H']. split; [exact HT|apply IH; exact H'].
    - intros l' Hl. destruct (HF l' Hl) as [HT H']. split; [exact HT|apply IH; exact H'].
  Qed.
  Lemma foot_keeps {A} T (p : code A) : forall l Post l' a, foot T p l Post -> lexec p l = Some (l', a) -> length l' = length l /\ forall i, ~ T i -> zget l' i = zget l i.
  Proof.
    induction p as [a|i k IH|i v k IH|]; cbn; intros l Post l' b HF E.
    - injection E as <- <-. auto.
    - destruct (zget l i) as [v|] eqn:Ev; [|discriminate]. destruct (HF v eq_refl) as [_ H]. eapply IH; eauto.
    - destruct (zupd l i v) as [l1|] eqn:Ev; [|discriminate]. destruct (HF l1 eq_refl) as [HT H]. destruct (IH l1 Post l' b H E) as [HL HK]. split; [rewrite HL; eapply zupd_length; eauto|].
      intros j Hj. rewrite (HK j Hj), (zget_zupd _ _ _ _ _ Ev). destruct (Z.eqb_spec j i); [subst; contradiction|reflexivity].
    - discriminate.
  Qed.
  Lemma exec_wp {A} T (p : code A) : forall l l' a Post s, foot T p l Post -> lexec p l = Some (l', a) -> (forall i, s i = zget l i) ->
    exists n, wp Z.eqb T (fun i _ => T i) p n s (fun _ x => forall i, x i = zget l' i).
  Proof.
    induction p as [a|i k IH|i v k IH|]; cbn; intros l l' b Post s HF E Hs.
    - injection E as <- <-. exists O. auto.
    - destruct (zget l i) as [v|] eqn:Ev; [|discriminate]. destruct (HF v eq_refl) as [HT H]. destruct (IH v l l' b Post s H E Hs) as [n Hn]. exists (S n), n, v. rewrite Hs. auto.
    - destruct (zupd l i v) as [l1|] eqn:Ev; [|discriminate]. destruct (HF l1 eq_refl) as [HT H]. destruct (IH l1 l' b Post (put Z.eqb s i v) H E) as [n Hn].
      { intros j. unfold put. rewrite (zget_zupd _ _ _ _ _ Ev). destruct (j =? i); [reflexivity|apply Hs]. }
      exists (S n), n. repeat split; auto. rewrite Hs. pose proof (zupd_range _ _ _ _ Ev) as Hr. destruct (zget_in_range l i Hr) as [w ->]. discriminate.
    - discriminate.
  Qed.

  (** ** Turns on disjoint parts of the list. *)
  Section Loop.
    Variables (turns : list (code unit)) (reg : nat -> list Z) (body : nat -> list V -> run (list V)) (order : list nat) (start out : list V).
    Hypothesis orders : Permutation order (seq 0 (length turns)).
    Hypothesis apart : forall t u i, t <> u -> In i (reg t) -> ~ In i (reg u).
    Hypothesis does : forall t p a b, nth_error turns t = Some p -> body t a = Done b -> lexec p a = Some (b, tt).
    Hypothesis within : forall t p cur, nth_error turns t = Some p -> length cur = length start -> (forall i, In i (reg t) -> zget cur i = zget start i) ->
      foot (fun i => In i (reg t)) p cur (fun _ _ => True).
    Hypothesis ends : run_each order body start = Done out.

    Lemma loop_steps ord : forall cur, NoDup ord -> (forall t, In t ord -> (t < length turns)%nat) -> length cur = length start ->
      (forall t i, In t ord -> In i (reg t) -> zget cur i = zget start i) -> run_each ord body cur = Done out ->
      length out = length start /\ (forall i, (exists t, In t ord /\ In i (reg t)) \/ zget out i = zget cur i) /\
      (forall t, In t ord -> exists p a b, nth_error turns t = Some p /\ length a = length start /\ (forall i, In i (reg t) -> zget a i = zget start i) /\ lexec p a = Some (b, tt) /\ forall i, In i (reg t) -> zget out i = zget b i).
    Proof.
      induction ord as [|t ord IH]; intros cur HN Hlt HL Hag E; cbn in E.
      - injection E as <-. split; [exact HL|]. split; [auto|]. intros t [].
      - destruct (body t cur) as [cur1| |] eqn:Eb; try discriminate. cbn in E. inversion HN as [|? ? Hni HN']; subst.
        destruct (nth_error_in_range turns t) as [p Hp]; [apply Hlt; left; reflexivity|].
        assert (Hagt : forall i, In i (reg t) -> zget cur i = zget start i) by (intros i Hi; apply (Hag t); [left; reflexivity|exact Hi]).
        pose proof (does t p cur cur1 Hp Eb) as Ex. destruct (foot_keeps _ _ _ _ _ _ (within t p cur Hp HL Hagt) Ex) as [HL1 HK].
        destruct (IH cur1) as (HLo & Hout & Hall); [exact HN'|intros u Hu; apply Hlt; right; exact Hu|congruence| |exact E|].
        + intros u i Hu Hi. rewrite HK; [apply (Hag u); [right; exact Hu|exact Hi]|]. intros Hi'. destruct (Nat.eq_dec t u) as [->|Hne]; [contradiction|]. exact (apart t u i Hne Hi' Hi).
        + split; [exact HLo|]. split.
          * intros i. destruct (Hout i) as [(u & Hu & Hi)|Eo]; [left; exists u; split; [right|]; assumption|]. destruct (in_dec Z.eq_dec i (reg t)) as [Hi|Hi]; [left; exists t; split; [left; reflexivity|exact Hi]|]. right. rewrite Eo. apply HK. exact Hi.
          * intros u [<-|Hu]; [|apply Hall; exact Hu]. exists p, cur, cur1. repeat (split; [assumption|]). intros i Hi. destruct (Hout i) as [(u & Hu & Hi')|Eo]; [|exact Eo]. exfalso. destruct (Nat.eq_dec t u) as [->|Hne]; [contradiction|]. exact (apart t u i Hne Hi Hi').
    Qed.
    Lemma none_iff (a b : list V) : length a = length b -> forall i, zget a i = None <-> zget b i = None.
    Proof. intros HL i. unfold zget. destruct (i <? 0); [reflexivity|]. rewrite !nth_error_None, HL. reflexivity. Qed.
    Lemma loop_safe : safe_loop Z.eqb race turns (zget start) (zget out).
    Proof.
      assert (HNo : NoDup order) by (eapply Permutation_NoDup; [symmetry; exact orders|apply seq_NoDup]).
      assert (Hin : forall t, In t order <-> (t < length turns)%nat). { intros t. split; intros H; [apply (Permutation_in _ orders) in H; apply in_seq in H; lia|]. apply (Permutation_in _ (Permutation_sym orders)). apply in_seq. lia. }
      destruct (loop_steps order start HNo (fun t => proj1 (Hin t)) eq_refl (fun _ _ _ _ => eq_refl) ends) as (HLo & Hout & Hall).
      apply (together_free Z.eqb Z.eqb_eq (fun t i => In i (reg t)) (fun t i _ => In i (reg t))).
      - intros t p Hp. destruct (Hall t) as (p' & a & b & Hp' & HLa & Hag & Ex & Hb); [apply Hin; eapply nth_error_lt; eauto|]. assert (p' = p) by congruence. subst p'.
        destruct (exec_wp (fun i => In i (reg t)) p a b tt (fun _ _ => True) (zget a) (within t p a Hp HLa Hag) Ex (fun _ => eq_refl)) as [n Hn].
        exists n. pose proof (wp_agree Z.eqb Z.eqb_eq _ _ p n (zget a) (zget start) _ Hag (none_iff a start HLa) Hn) as HW. eapply wp_mono; [|exact HW].
        intros u x' (x & Hx & Hd) i _ Hi. rewrite (Hb i Hi), <- Hx. destruct (Hd i) as [<-|[E1 E2]]; [reflexivity|]. rewrite E2, E1. symmetry. apply Hag. exact Hi.
      - intros t u i v Hne Hi Hi'. exact (apart t u i Hne Hi Hi').
      - intros t u i v v' Hne Hi Hi'. destruct (apart t u i Hne Hi Hi').
      - intros i. destruct (Hout i) as [(t & Ht & Hi)|E]; [|right; exact E]. destruct (zget start i) as [v|] eqn:Ev.
        + left. exists t, v. split; [apply Hin; exact Ht|exact Hi].
        + right. apply (none_iff out start HLo). exact Ev.
      - intros t u i v v' Hne Hi Hi'. exact (apart t u i Hne Hi Hi').
    Qed.
  End Loop.
End Lists.

(** ** The programs do what the functions of the model do. *)
Lemma rbind_ends {A B} (r : run A) (f : A -> run B) b : rbind r f = Done b -> exists a, r = Done a /\ f a = Done b.
Proof. destruct r; cbn; intros H; [eauto|discriminate|discriminate]. Qed.
Lemma of_opt_ends {A} (o : option A) a : of_opt o = Done a -> o = Some a.
Proof. destruct o; cbn; congruence. Qed.
Lemma pfold_run {V A B} (model : B -> A * list V -> run (A * list V)) (body : B -> A -> @prog Z V A) xs :
  (forall x a l a' l', In x xs -> model x (a, l) = Done (a', l') -> lexec (body x a) l = Some (l', a')) ->
  forall a l a' l', run_each xs model (a, l) = Done (a', l') -> lexec (pfold xs body a) l = Some (l', a').
Proof.
  induction xs as [|x xs IH]; intros H a l a' l' E; cbn in *; [congruence|]. apply rbind_ends in E as ([a1 l1] & E1 & E2). rewrite lexec_bind, (H _ _ _ _ _ (or_introl eq_refl) E1). apply IH; [intros; apply H; [right|]; assumption|exact E2].
Qed.
Lemma peach_run {V B} (model : B -> list V -> run (list V)) (body : B -> @prog Z V unit) xs :
  (forall x l l', In x xs -> model x l = Done l' -> lexec (body x) l = Some (l', tt)) ->
  forall l l', run_each xs model l = Done l' -> lexec (peach xs body) l = Some (l', tt).
Proof.
  unfold peach. induction xs as [|x xs IH]; intros H l l' E; cbn in *; [congruence|]. apply rbind_ends in E as (l1 & E1 & E2). rewrite lexec_bind, (H _ _ _ (or_introl eq_refl) E1). apply IH; [intros; apply H; [right|]; assumption|exact E2].
Qed.
Lemma zmodify_zupd {A} (l l' : list A) i f s : zget l i = Some s -> zmodify l i f = Some l' -> zupd l i (f s) = Some l'.
Proof. unfold zget, zmodify, zupd, modify. destruct (i <? 0); [discriminate|]. intros ->. auto. Qed.
Lemma zmodify_present {A} (l l' : list A) i f : zmodify l i f = Some l' -> exists s, zget l i = Some s.
Proof. unfold zget, zmodify, modify. destruct (i <? 0); [discriminate|]. destruct (nth_error l (Z.to_nat i)); [eauto|discriminate]. Qed.

Section Does.
  Context {X R : Type}.
  Local Notation subs_t := (list (sub X R)).
  Lemma change_run i f (l l' : subs_t) : zmodify l i f = Some l' -> lexec (change i f) l = Some (l', tt).
  Proof. intros H. destruct (zmodify_present _ _ _ _ H) as [s Hs]. cbn. rewrite Hs, (zmodify_zupd _ _ _ _ _ Hs H). reflexivity. Qed.

  Lemma mask_run fuel : forall p excl (l : subs_t) e' l', mask fuel p (excl, l) = Done (e', l') -> lexec (mask_prog fuel p excl) l = Some (l', e').
  Proof.
    induction fuel as [|f IH]; intros p excl l e' l' E; [discriminate|]. cbn [mask snd] in E. cbn [mask_prog lexec]. destruct (zget l p) as [s|]; [|discriminate].
    apply rbind_ends in E as ([e1 l1] & E1 & E2). rewrite lexec_bind, (pfold_run (mask f) (mask_prog f) (s_nest s) (fun x a m a' m' _ => IH x a m a' m') _ _ _ _ E1).
    cbn [fst snd] in E2. cbn [lexec]. destruct (zget l1 p) as [s1|] eqn:Es1; [|discriminate]. destruct (s_nbound s1 <=? 1)%nat; [cbn; congruence|].
    destruct (mask_parts e1 (s_parts s1)) as [e2 kept]. apply rbind_ends in E2 as (l2 & E3 & E4). apply of_opt_ends in E3. injection E4 as <- <-.
    cbn [lexec]. rewrite (zmodify_zupd _ _ _ _ _ Es1 E3). reflexivity.
  Qed.

  Variable unbind : sub X R -> run (sub X R).
  Lemma unbind_run fuel : forall p (l l' : subs_t), recursive_with unbind fuel p l = Done l' -> lexec (unbind_prog unbind fuel p) l = Some (l', tt).
  Proof.
    induction fuel as [|f IH]; intros p l l' E; [discriminate|]. cbn [recursive_with] in E. cbn [unbind_prog lexec]. destruct (zget l p) as [s|]; [|discriminate].
    apply rbind_ends in E as (l1 & E1 & E2). rewrite lexec_bind.
    erewrite (peach_run _ _ _ _ _ _ E1). Unshelve.
    - cbn [lexec]. destruct (zget l1 p) as [s1|] eqn:Es1; [|discriminate]. apply rbind_ends in E2 as (s2 & E3 & E4). rewrite E3. apply of_opt_ends in E4. cbn [lexec]. rewrite (zmodify_zupd _ _ _ _ _ Es1 E4). reflexivity.
    - intros c m m' _ Em. cbn beta. apply rbind_ends in Em as (m1 & E3 & E4). rewrite lexec_bind, (IH _ _ _ E3). cbn [lexec]. destruct (zget m1 c) as [sc|]; [|discriminate].
      destruct (length (s_parts sc) <? s_nbound sc)%nat; [discriminate|]. apply of_opt_ends in E4. exact (change_run _ _ _ _ E4).
  Qed.
  Lemma modify_z {A} (l : list A) i f : modify l i f = zmodify l (Z.of_nat i) f.
  Proof. symmetry. apply zmodify_of_nat. Qed.
  Lemma halo_run (body : Z -> subs_t -> run subs_t) (prg : Z -> @prog Z (sub X R) unit) g hs (l l' : subs_t) :
    (forall c a b, body c a = Done b -> lexec (prg c) a = Some (b, tt)) -> halo_work body g hs l = Done l' -> lexec (halo_prog prg g hs) l = Some (l', tt).
  Proof.
    intros HB E. destruct g as [|c rest]; cbn [halo_work] in E; [injection E as <-; reflexivity|]. cbn [glue_one] in E. cbn [halo_prog]. destruct hs as [|h0 others].
    - destruct (nth_error l c); discriminate.
    - cbn [lexec]. rewrite zget_of_nat. destruct (nth_error l c) as [s|] eqn:Es; [|discriminate]. destruct (modify l c _) as [l1|] eqn:E1; [|discriminate].
      rewrite modify_z in E1. rewrite <- zget_of_nat in Es. rewrite (zmodify_zupd _ _ _ _ _ Es E1). cbn [fst snd] in E.
      apply rbind_ends in E as (l2 & E2 & E3). rewrite lexec_bind, (HB _ _ _ E2). cbn [unglue_one] in E3. destruct (nth_error l2 c) as [w|] eqn:Ew; [|discriminate]. apply of_opt_ends in E3. rewrite modify_z in E3.
      rewrite <- zget_of_nat in Ew. apply change_run. unfold zmodify, modify in E3 |- *. unfold zget in Ew. destruct (Z.of_nat c <? 0); [discriminate|]. rewrite Ew in *. exact E3.
  Qed.
  Lemma own_run f i (l l' : subs_t) : unbind_at_with f i l = Done l' -> lexec (own_prog f i) l = Some (l', tt).
  Proof.
    unfold unbind_at_with. cbn [own_prog lexec]. rewrite zget_of_nat. destruct (nth_error l i) as [s|] eqn:Es; [|discriminate]. intros E. apply rbind_ends in E as (s' & -> & E). apply of_opt_ends in E. rewrite modify_z in E.
    rewrite <- zget_of_nat in Es. cbn [lexec]. rewrite (zmodify_zupd _ _ _ _ _ Es E). reflexivity.
  Qed.
  Variable pmass : Z * X -> Q.
  Variable snap : Z.
  Lemma merge_run fuel : forall p (l l' : subs_t), merge_rec pmass snap fuel p l = Done l' -> lexec (merge_prog pmass snap fuel p) l = Some (l', tt).
  Proof.
    induction fuel as [|f IH]; intros p l l' E; [discriminate|]. cbn [merge_rec] in E. cbn [merge_prog lexec]. destruct (zget l p) as [s|]; [|discriminate].
    apply rbind_ends in E as (l1 & E1 & E2). rewrite lexec_bind, (peach_run _ _ _ (fun x m m' _ => IH x m m') _ _ E1). cbn [lexec]. unfold merge_at in E2. destruct (zget l1 p) as [s1|]; [|discriminate].
    destruct (trapped s1 && alive s1); [|cbn; congruence]. cbn [lexec]. destruct (zget l1 (s_sink s1)) as [host|]; [|discriminate]. destruct (merge_to pmass s1 host) as [[s' host']|]; [|discriminate].
    apply rbind_ends in E2 as (l2 & E3 & E4). apply of_opt_ends in E3. apply of_opt_ends in E4. cbn [lexec]. rewrite E3, E4. reflexivity.
  Qed.
  Lemma depth_run fuel : forall d p (l l' : subs_t), fill_depth fuel d p l = Done l' -> lexec (depth_prog fuel d p) l = Some (l', tt).
  Proof.
    induction fuel as [|f IH]; intros d p l l' E; [discriminate|]. cbn [fill_depth] in E. cbn [depth_prog]. rewrite lexec_bind. destruct (zmodify l p (set_depth d)) as [l1|] eqn:E1; [|discriminate].
    rewrite (change_run _ _ _ _ E1). cbn [lexec]. destruct (zget l1 p) as [s|]; [|discriminate]. exact (peach_run _ _ _ (fun x m m' _ => IH (d + 1) x m m') _ _ E).
  Qed.
  Lemma level_run fuel : forall p (l l' : subs_t), level_up fuel p l = Done l' -> lexec (level_prog fuel p) l = Some (l', tt).
  Proof.
    induction fuel as [|f IH]; intros p l l' E; [discriminate|]. cbn [level_up] in E. cbn [level_prog lexec]. destruct (zget l p) as [s|]; [|discriminate]. rewrite lexec_bind.
    revert E. generalize (@nil Z) as kept. generalize (s_nest s) as nest. intros nest. revert l. induction nest as [|c r IHr]; intros l kept E.
    - cbn [pfold lexec]. apply of_opt_ends in E. exact (change_run _ _ _ _ E).
    - cbn [pfold]. rewrite lexec_bind. cbn [lexec]. destruct (zget l c) as [sc|]; [|discriminate]. destruct (negb (s_host sc =? s_host s) || (s_rank sc =? 0)).
      + destruct (zmodify l c (set_rank 0)) as [l1|] eqn:E1; [|discriminate]. apply rbind_ends in E as (l2 & E2 & E3). rewrite lexec_bind, (change_run _ _ _ _ E1), lexec_bind, (IH _ _ _ E2). cbn [lexec]. apply IHr. exact E3.
      + apply rbind_ends in E as (l2 & E2 & E3). rewrite lexec_bind, (IH _ _ _ E2). cbn [lexec]. apply IHr. exact E3.
  Qed.
End Does.

(** ** They stay within the tree they walk through. *)
Section Within.
  Context {X R : Type}.
  Local Notation subs_t := (list (sub X R)).
  Variable T : Z -> Prop.
  Definition keeps_nests (a b : subs_t) : Prop := forall i l, local_nest a i l -> local_nest b i l.
  Lemma keeps_refl a : keeps_nests a a. Proof. intros i l H. exact H. Qed.
  Lemma keeps_trans a b c : keeps_nests a b -> keeps_nests b c -> keeps_nests a c. Proof. intros H J i l Hi. apply J, H, Hi. Qed.
  Lemma keeps_tree a b t : keeps_nests a b -> represents (local_nest a) t -> represents (local_nest b) t.
  Proof. intros H HR. eapply represents_ext; [exact HR|]. intros i l _. apply H. Qed.
  Lemma keeps_put (a b : subs_t) i s v : zget a i = Some s -> zupd a i v = Some b -> s_nest v = s_nest s -> keeps_nests a b.
  Proof.
    intros Hs Hu Hn j l (u & Hj & El). unfold local_nest. rewrite (zget_zupd _ _ _ _ _ Hu). destruct (Z.eqb_spec j i) as [->|Hne]; [exists v; split; [reflexivity|]; congruence|exists u; auto].
  Qed.
  Lemma nest_at (a : subs_t) i ts s : represents (local_nest a) (Node i ts) -> zget a i = Some s -> s_nest s = map label ts /\ Forall (represents (local_nest a)) ts.
  Proof. intros HR Hs. inversion HR as [? ? (u & Hu & El) HF]; subst. split; [congruence|exact HF]. Qed.
  Definition inside (t : tree) : Prop := forall i, In i (nodes t) -> T i.
  Lemma inside_branch i ts t : inside (Node i ts) -> In t ts -> inside t.
  Proof. intros H Ht j Hj. apply H. cbn. right. apply in_flat. eauto. Qed.

  Lemma fold_within {A} (body : Z -> A -> @prog Z (sub X R) A) (I : subs_t -> Prop) ts :
    (forall t cur a, In t ts -> represents (local_nest cur) t -> I cur -> foot T (body (label t) a) cur (fun _ c => keeps_nests cur c /\ I c)) ->
    forall cur a, Forall (represents (local_nest cur)) ts -> I cur -> foot T (pfold (map label ts) body a) cur (fun _ c => keeps_nests cur c /\ I c).
  Proof.
    induction ts as [|t ts IH]; intros HB cur a HF HI; cbn; [split; [apply keeps_refl|exact HI]|]. inversion HF as [|? ? H1 H2]; subst. apply foot_bind. eapply foot_mono; [|apply HB; [left; reflexivity|exact H1|exact HI]].
    cbn beta. intros a1 c [Hk HI1]. eapply foot_mono; [|apply IH; [intros; apply HB; [right|..]; assumption| |exact HI1]].
    - cbn beta. intros _ c' [Hk' HI']. split; [eapply keeps_trans; eauto|exact HI'].
    - eapply Forall_impl; [|exact H2]. intros u. apply keeps_tree. exact Hk.
  Qed.
  Lemma each_within (body : Z -> @prog Z (sub X R) unit) (I : subs_t -> Prop) ts :
    (forall t cur, In t ts -> represents (local_nest cur) t -> I cur -> foot T (body (label t)) cur (fun _ c => keeps_nests cur c /\ I c)) ->
    forall cur, Forall (represents (local_nest cur)) ts -> I cur -> foot T (peach (map label ts) body) cur (fun _ c => keeps_nests cur c /\ I c).
  Proof. intros HB cur HF HI. unfold peach. apply fold_within; auto. Qed.
  Definition any (_ : subs_t) : Prop := True.

  Lemma mask_within t : forall fuel excl cur, inside t -> represents (local_nest cur) t -> foot T (mask_prog fuel (label t) excl) cur (fun _ c => keeps_nests cur c).
  Proof.
    induction t as [i ts IH] using tree_rect'. rewrite Forall_forall in IH. intros fuel excl cur Hin HR. destruct fuel as [|f]; [exact Logic.I|]. cbn [mask_prog foot label]. intros s Hs. split; [apply Hin; left; reflexivity|].
    destruct (nest_at _ _ _ _ HR Hs) as [-> HF]. apply foot_bind. eapply foot_mono; [|apply (fold_within _ any)].
    - cbn beta. intros e c [Hk _]. cbn [foot]. intros s1 Hs1. split; [apply Hin; left; reflexivity|]. destruct (s_nbound s1 <=? 1)%nat; [exact Hk|]. destruct (mask_parts e (s_parts s1)) as [e2 kept]. cbn [foot]. intros c' Hc'. split; [apply Hin; left; reflexivity|].
      eapply keeps_trans; [exact Hk|]. eapply keeps_put; eauto.
    - intros t cur' a Ht HRt _. eapply foot_mono; [|apply IH; [exact Ht|eapply inside_branch; eauto|exact HRt]]. cbn beta. intros _ c Hk. split; [exact Hk|exact Logic.I].
    - exact HF.
    - exact Logic.I.
  Qed.

  Variable unbind : sub X R -> run (sub X R).
  Hypothesis unbind_nest : forall s u, unbind s = Done u -> s_nest u = s_nest s.
  Lemma unbind_within t : forall fuel cur, inside t -> represents (local_nest cur) t -> foot T (unbind_prog unbind fuel (label t)) cur (fun _ c => keeps_nests cur c).
  Proof using unbind_nest.
    induction t as [i ts IH] using tree_rect'. rewrite Forall_forall in IH. intros fuel cur Hin HR. destruct fuel as [|f]; [exact Logic.I|]. cbn [unbind_prog foot label]. intros s Hs. split; [apply Hin; left; reflexivity|].
    destruct (nest_at _ _ _ _ HR Hs) as [-> HF]. apply foot_bind. eapply foot_mono; [|apply (each_within _ any)].
    - cbn beta. intros e c [Hk _]. cbn [foot]. intros s1 Hs1. split; [apply Hin; left; reflexivity|].
      destruct (unbind _) as [s2| |] eqn:Eu; [|exact Logic.I..]. cbn [foot]. intros c' Hc'. split; [apply Hin; left; reflexivity|]. eapply keeps_trans; [exact Hk|]. eapply keeps_put; [exact Hs1|exact Hc'|].
      apply unbind_nest in Eu. destruct (s_nbound s <=? 1)%nat; cbn in *; exact Eu.
    - intros t cur' Ht HRt _. apply foot_bind. eapply foot_mono; [|apply IH; [exact Ht|eapply inside_branch; eauto|exact HRt]]. cbn beta. intros _ c Hk. cbn [foot]. intros sc Hsc.
      assert (Tt : T (label t)) by (apply (inside_branch _ _ _ Hin Ht); destruct t; left; reflexivity). split; [exact Tt|]. destruct (length (s_parts sc) <? s_nbound sc)%nat; [exact Logic.I|].
      cbn [change foot]. intros q Hq. split; [apply Hin; left; reflexivity|]. intros c' Hc'. split; [apply Hin; left; reflexivity|]. split; [|exact Logic.I]. eapply keeps_trans; [exact Hk|]. eapply keeps_put; eauto.
    - exact HF.
    - exact Logic.I.
  Qed.

  Lemma depth_within t : forall fuel d cur, inside t -> represents (local_nest cur) t -> foot T (depth_prog fuel d (label t)) cur (fun _ c => keeps_nests cur c).
  Proof.
    induction t as [i ts IH] using tree_rect'. rewrite Forall_forall in IH. intros fuel d cur Hin HR. destruct fuel as [|f]; [exact Logic.I|]. cbn [depth_prog label]. apply foot_bind. cbn [change foot]. intros s Hs. split; [apply Hin; left; reflexivity|]. intros c Hc. split; [apply Hin; left; reflexivity|].
    intros s1 Hs1. split; [apply Hin; left; reflexivity|]. assert (Hk : keeps_nests cur c) by (eapply keeps_put; eauto).
    destruct (nest_at _ _ _ _ (keeps_tree _ _ _ Hk HR) Hs1) as [-> HF]. eapply foot_mono; [|apply (each_within _ any)].
    - cbn beta. intros _ c' [Hk' _]. eapply keeps_trans; eauto.
    - intros t cur' Ht HRt _. eapply foot_mono; [|apply IH; [exact Ht|eapply inside_branch; eauto|exact HRt]]. cbn beta. intros _ c' Hk'. split; [exact Hk'|exact Logic.I].
    - exact HF.
    - exact Logic.I.
  Qed.

  Variable pmass : Z * X -> Q.
  Variable snap : Z.
  Definition sinks_inside (cur : subs_t) : Prop := forall i s, T i -> zget cur i = Some s -> trapped s && alive s = true -> T (s_sink s).
  Lemma sinks_put (a b : subs_t) i s v : sinks_inside a -> zget a i = Some s -> zupd a i v = Some b -> s_sink v = s_sink s -> (s_death v = s_death s \/ alive v = false) -> sinks_inside b.
  Proof.
    intros H Hs Hu Ek Hd j u Tj Hj Ht. rewrite (zget_zupd _ _ _ _ _ Hu) in Hj. destruct (Z.eqb_spec j i) as [->|Hne]; [|exact (H j u Tj Hj Ht)]. injection Hj as <-. rewrite Ek. apply (H i s Tj Hs).
    apply andb_true_iff in Ht as [T1 T2]. unfold trapped, alive in *. rewrite Ek in T1. destruct Hd as [Hd|Hd]; [rewrite Hd in T2; rewrite T1, T2; reflexivity|congruence].
  Qed.
  Hypothesis snap_ok : snap <> -1.
  Lemma merge_within t : forall fuel cur, inside t -> represents (local_nest cur) t -> sinks_inside cur -> foot T (merge_prog pmass snap fuel (label t)) cur (fun _ c => keeps_nests cur c /\ sinks_inside c).
  Proof using snap_ok.
    induction t as [i ts IH] using tree_rect'. rewrite Forall_forall in IH. intros fuel cur Hin HR HS. destruct fuel as [|f]; [exact Logic.I|]. cbn [merge_prog foot label]. intros s Hs. assert (Ti : T i) by (apply Hin; left; reflexivity). split; [exact Ti|].
    destruct (nest_at _ _ _ _ HR Hs) as [-> HF]. apply foot_bind. eapply foot_mono; [|apply (each_within _ sinks_inside)].
    - cbn beta. intros e c [Hk HSc]. cbn [foot]. intros s1 Hs1. split; [exact Ti|]. destruct (trapped s1 && alive s1) eqn:Et; [|cbn [foot]; auto]. cbn [foot]. intros host Hh. pose proof (HSc i s1 Ti Hs1 Et) as Tk. split; [exact Tk|].
      destruct (merge_to pmass s1 host) as [[s' host']|] eqn:Em; [|exact Logic.I].
      assert (Hm : s_nest s' = s_nest s1 /\ s_sink s' = s_sink s1 /\ s_nest host' = s_nest host /\ s_sink host' = s_sink host /\ s_death host' = s_death host).
      { unfold merge_to in Em. destruct (s_nbound s1 <=? 1)%nat; [injection Em as <- <-; auto|]. destruct (s_parts s1); [discriminate|]. injection Em as <- <-. cbn. auto. }
      destruct Hm as (M1 & M2 & M3 & M4 & M5). cbn [foot]. intros c1 Hc1. split; [exact Tk|]. intros c2 Hc2. split; [exact Ti|].
      assert (K1 : keeps_nests c c1) by (eapply keeps_put; eauto). assert (S1 : sinks_inside c1) by (eapply sinks_put; eauto).
      destruct (zget_in_range c1 i (zupd_range _ _ _ _ Hc2)) as [w Hw].
      assert (Ew : s_nest w = s_nest s1 /\ s_sink w = s_sink s1).
      { rewrite (zget_zupd _ _ _ _ _ Hc1) in Hw. destruct (Z.eqb_spec i (s_sink s1)) as [Es|Es]; [|rewrite Hs1 in Hw; injection Hw as <-; auto]. injection Hw as <-. rewrite <- Es in Hh. rewrite Hs1 in Hh. injection Hh as <-. auto. }
      split; [eapply keeps_trans; [exact Hk|]; eapply keeps_trans; [exact K1|]; eapply keeps_put; [exact Hw|exact Hc2|]; cbn; destruct Ew; congruence|].
      eapply sinks_put; [exact S1|exact Hw|exact Hc2|cbn; destruct Ew; congruence|]. right. unfold alive. cbn. apply Z.eqb_neq. exact snap_ok.
    - intros t cur' Ht HRt HSt. apply IH; [exact Ht|eapply inside_branch; eauto|exact HRt|exact HSt].
    - exact HF.
    - exact HS.
  Qed.

  (** [LevelUpDetachedMembers] changes nests, but only of the tree. *)
  Definition keeps_outside (t : list Z) (a b : subs_t) : Prop := forall i l, ~ In i t -> local_nest a i l -> local_nest b i l.
  Lemma outside_put t (a b : subs_t) i v : In i t -> zupd a i v = Some b -> keeps_outside t a b.
  Proof. intros Hi Hu j l Hj (u & Hu' & El). exists u. rewrite (zget_zupd _ _ _ _ _ Hu). destruct (Z.eqb_spec j i); [subst; contradiction|auto]. Qed.
  Lemma level_within t : forall fuel cur, inside t -> NoDup (nodes t) -> represents (local_nest cur) t -> foot T (level_prog fuel (label t)) cur (fun _ c => keeps_outside (nodes t) cur c).
  Proof.
    induction t as [i ts IH] using tree_rect'. rewrite Forall_forall in IH. intros fuel cur Hin HN HR. destruct fuel as [|f]; [exact Logic.I|]. cbn [level_prog foot label]. intros s Hs. assert (Ti : T i) by (apply Hin; left; reflexivity). split; [exact Ti|].
    destruct (nest_at _ _ _ _ HR Hs) as [-> HF]. apply foot_bind. cbn in HN. inversion HN as [|? ? Hni HN']; subst.
    assert (Hb : forall us cur' kept, incl us ts -> NoDup (flat_map nodes us) -> Forall (represents (local_nest cur')) us ->
      foot T (pfold (map label us) (fun c kept => Get c (fun sc => if negb (s_host sc =? s_host s) || (s_rank sc =? 0) then pbind (change c (set_rank 0)) (fun _ => pbind (level_prog f c) (fun _ => Ret kept)) else pbind (level_prog f c) (fun _ => Ret (c :: kept)))) kept) cur' (fun _ c => keeps_outside (flat_map nodes us) cur' c)).
    { induction us as [|u us IHu]; intros cur' kept Hincl HNu HFu; [cbn; intros j l _ Hj; exact Hj|]. cbn [map pfold]. apply foot_bind. cbn [foot]. intros sc Hsc.
      assert (Hu : In u ts) by (apply Hincl; left; reflexivity). assert (Inu : inside u) by (eapply inside_branch; eauto). assert (Lu : In (label u) (nodes u)) by (destruct u; left; reflexivity). split; [apply Inu; exact Lu|].
      cbn in HNu. pose proof (NoDup_app_remove_r _ _ HNu) as N1. pose proof (NoDup_app_remove_l _ _ HNu) as N2. pose proof (fun x => NoDup_app_disjoint _ _ x HNu) as N3. inversion HFu as [|? ? R1 R2]; subst.
      assert (Hrest : forall c kept', keeps_outside (nodes u) cur' c -> foot T (pfold (map label us) (fun c kept => Get c (fun sc => if negb (s_host sc =? s_host s) || (s_rank sc =? 0) then pbind (change c (set_rank 0)) (fun _ => pbind (level_prog f c) (fun _ => Ret kept)) else pbind (level_prog f c) (fun _ => Ret (c :: kept)))) kept') c (fun _ c' => keeps_outside (flat_map nodes (u :: us)) cur' c')).
      { intros c kept' Hk. eapply foot_mono; [|apply IHu; [intros x Hx; apply Hincl; right; exact Hx|exact N2|]].
        - cbn beta. intros _ c' Hk' j l Hj Hl. cbn in Hj. apply Hk'; [intros H; apply Hj, in_or_app; right; exact H|]. apply Hk; [intros H; apply Hj, in_or_app; left; exact H|exact Hl].
        - apply Forall_forall. intros w Hw. rewrite Forall_forall in R2. eapply represents_ext; [apply R2; exact Hw|]. intros j l Hj Hl. apply Hk; [|exact Hl]. intros Hju. apply (N3 j Hju). apply in_flat. eauto. }
      destruct (negb (s_host sc =? s_host s) || (s_rank sc =? 0)).
      - apply foot_bind. cbn [change foot]. intros s1 Hs1. split; [apply Inu; exact Lu|]. intros c1 Hc1. split; [apply Inu; exact Lu|]. apply foot_bind.
        eapply foot_mono; [|apply (IH u Hu f c1 Inu N1); eapply keeps_tree; [eapply keeps_put; [exact Hs1|exact Hc1|reflexivity]|exact R1]].
        cbn beta. intros _ c2 Hk. cbn [foot]. apply Hrest. intros j l Hj Hl. apply Hk; [exact Hj|]. eapply keeps_put; [exact Hs1|exact Hc1|reflexivity|exact Hl].
      - apply foot_bind. eapply foot_mono; [|apply (IH u Hu f cur' Inu N1 R1)]. cbn beta. intros _ c2 Hk. cbn [foot]. apply Hrest. exact Hk. }
    eapply foot_mono; [|apply (Hb ts cur []); [intros x Hx; exact Hx|exact HN'|exact HF]]. cbn beta. intros kept c Hk. cbn [change foot]. intros w Hw. split; [exact Ti|]. intros c' Hc'. split; [exact Ti|].
    intros j l Hj Hl. cbn in Hj. apply Decidable.not_or in Hj as [Hj1 Hj2]. pose proof (Hk j l Hj2 Hl) as (u & Hu & El). exists u. rewrite (zget_zupd _ _ _ _ _ Hc'). destruct (Z.eqb_spec j i); [congruence|auto].
  Qed.
End Within.
