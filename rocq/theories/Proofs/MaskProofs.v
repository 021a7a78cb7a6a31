(** Masking. *)
From Coq Require Import List ZArith Bool Lia Sorting.Permutation.
From Verif.Model Require Import ListMem Mpi Run Hash Subhalo Nest Mask.
From Verif.Spec Require Import Members Forest Nesting Masking.
From Verif.Proofs Require Import ListMemProofs MpiProofs ListExtra MemberProofs TreeProofs NestProofs NestProofs2 NestProofs3 NestProofs4 NestProofs5 LocalizeProofs ForestSteps HistorySteps ReachProofs GlueProofs GlueTree HaloWork.
Import ListNotations.
Local Open Scope Z_scope.

(** Members before their parents. *)
Fixpoint post (t : tree) : list Z := match t with Node i ts => flat_map post ts ++ [i] end.
Lemma post_nodes t : Permutation (post t) (nodes t).
Proof.
  induction t as [i ts IH] using tree_rect'. cbn. rewrite Permutation_app_comm. cbn. constructor. apply flat_map_perm2. rewrite Forall_forall in IH. exact IH.
Qed.
Definition before {A} (l : list A) (x y : A) : Prop := exists a b c, l = a ++ x :: b ++ y :: c.
Lemma before_in_r {A} (l : list A) x y : before l x y -> In x l /\ In y l.
Proof. intros (a & b & c & ->). split; apply in_or_app; right; [left; reflexivity|right]. apply in_or_app. right. left. reflexivity. Qed.
Lemma before_cons {A} (z : A) l x y : before (z :: l) x y <-> (x = z /\ In y l) \/ before l x y.
Proof.
  split.
  - intros (a & b & c & E). destruct a as [|w a]; cbn in E; injection E as -> ->; [left; split; [reflexivity|apply in_or_app; right; left; reflexivity]|right; exists a, b, c; reflexivity].
  - intros [[-> H]|(a & b & c & ->)]; [apply in_split in H as (b & c & ->); exists [], b, c; reflexivity|exists (z :: a), b, c; reflexivity].
Qed.
Lemma before_app {A} (l m : list A) x y : before (l ++ m) x y <-> before l x y \/ before m x y \/ (In x l /\ In y m).
Proof.
  induction l as [|z l IH]; [cbn; split; [intros H; right; left; exact H|intros [(a & b & c & E)|[H|[[] _]]]; [destruct a; discriminate|exact H]]|].
  cbn. rewrite !before_cons, IH, in_app_iff. cbn. intuition subst; auto.
Qed.
Lemma before_trans {A} (l : list A) x y z : NoDup l -> before l x y -> before l y z -> before l x z.
Proof.
  induction l as [|w l IH]; intros Hn H1 H2; [destruct H1 as (a & b & c & E); destruct a; discriminate|]. apply before_cons in H1. apply before_cons in H2. apply before_cons. inversion Hn as [|? ? Hw Hn']; subst.
  destruct H2 as [[-> Hz]|H2]; [destruct H1 as [[-> H]|H1]; [contradiction|apply before_in_r in H1; tauto]|]. destruct H1 as [[-> H]|H1]; [left; split; [reflexivity|apply before_in_r in H2; tauto]|right; eauto].
Qed.
Lemma post_edge t p c : NoDup (nodes t) -> In (p, c) (edges t) -> before (post t) c p.
Proof.
  induction t as [i ts IH] using tree_rect'. intros Hn He. cbn in He |- *. rewrite Forall_forall in IH. apply before_app. apply in_app_or in He as [He|He].
  - right. right. apply in_map_iff in He as (t & E & Ht). injection E as <- <-. split; [|left; reflexivity]. apply in_flat. exists t. split; [exact Ht|]. eapply Permutation_in; [symmetry; apply post_nodes|apply label_in].
  - left. apply in_flat in He as (t & Ht & He). destruct (nodup_branch i ts t Hn Ht) as [Hnt _]. specialize (IH t Ht Hnt He). apply in_split in Ht as (a & b & ->). rewrite flat_map_app. cbn. rewrite !before_app. tauto.
Qed.
Lemma reach_post {X R} (subs : list (sub X R)) t i d j : represents (local_nest subs) t -> NoDup (nodes t) -> In i (nodes t) -> reach subs i (S d) j -> before (post t) j i.
Proof.
  intros HR Hn Hi. assert (Hnp : NoDup (post t)) by (eapply Permutation_NoDup; [symmetry; apply post_nodes|exact Hn]).
  remember (S d) as e eqn:Ee. intros Hr. revert d Ee. induction Hr as [|e m c Hr IH Hl]; intros d Ee; [discriminate|].
  destruct e as [|e].
  - inversion Hr; subst. apply post_edge; [exact Hn|]. apply (lists_edge subs t); assumption.
  - specialize (IH e eq_refl). eapply before_trans; [exact Hnp| |exact IH]. apply post_edge; [exact Hn|]. apply (lists_edge subs t); [exact HR| |exact Hl]. eapply Permutation_in; [apply post_nodes|]. apply before_in_r in IH. tauto.
Qed.

Lemma run_each_app {A S} (l m : list A) (body : A -> S -> run S) s : run_each (l ++ m) body s = rbind (run_each l body s) (run_each m body).
Proof. revert s. induction l as [|x l IH]; intros s; cbn; [reflexivity|]. destruct (body x s); cbn; auto. Qed.

Section Mask.
  Context {X R : Type}.
  Local Notation subs_t := (list (sub X R)).
  Lemma mask_parts_spec (ps : list (Z * X)) : forall e e' kept, mask_parts e ps = (e', kept) ->
    sublist kept ps /\ NoDup (map fst kept) /\ (forall id, In id (map fst kept) <-> In id (map fst ps) /\ ~ In id e) /\ (forall id, In id e' <-> In id e \/ In id (map fst ps)).
  Proof.
    induction ps as [|p ps IH]; intros e e' kept E; cbn in E.
    - injection E as <- <-. split; [constructor|]. split; [constructor|]. cbn. split; intros; tauto.
    - destruct (existsb (Z.eqb (fst p)) e) eqn:Ex.
      + destruct (IH _ _ _ E) as (A & B & C & D). split; [constructor; exact A|]. split; [exact B|]. apply existsb_exists in Ex as (z & Hz & Ez). apply Z.eqb_eq in Ez. subst z.
        split; intros id; cbn; [rewrite C|rewrite D]; intuition subst; tauto.
      + destruct (mask_parts (fst p :: e) ps) as [e1 k1] eqn:E1. injection E as <- <-. destruct (IH _ _ _ E1) as (A & B & C & D).
        assert (Hp : ~ In (fst p) e). { intros Hin. assert (existsb (Z.eqb (fst p)) e = true) by (apply existsb_exists; exists (fst p); split; [exact Hin|apply Z.eqb_refl]). congruence. }
        split; [constructor; exact A|]. split; [cbn; constructor; [rewrite C; cbn; tauto|exact B]|]. split; intros id; cbn; [rewrite C|rewrite D]; cbn; [|tauto].
        split; [intros [<-|[H1 H2]]; tauto|]. intros [[<-|H1] H2]; [tauto|]. destruct (Z.eq_dec (fst p) id) as [->|Hne]; [left; reflexivity|right]. tauto.
  Qed.

  Definition mask_at (p : Z) (st : list Z * subs_t) : run (list Z * subs_t) :=
    match zget (snd st) p with
    | None => Crash
    | Some s1 => if (s_nbound s1 <=? 1)%nat then Done st
                 else let (excl, kept) := mask_parts (fst st) (s_parts s1) in rbind (of_opt (zmodify (snd st) p (set_parts kept))) (fun subs2 => Done (excl, subs2))
    end.
  Definition src (s : sub X R) : list Z := if (s_nbound s <=? 1)%nat then [] else part_ids s.
  Lemma mask_at_spec p st s : zget (snd st) p = Some s -> exists e' subs' kept, mask_at p st = Done (e', subs') /\ length subs' = length (snd st) /\
    (forall i, zget subs' i = if i =? p then Some (set_parts kept s) else zget (snd st) i) /\
    sublist kept (s_parts s) /\ ((s_nbound s <= 1)%nat -> kept = s_parts s) /\
    NoDup (src (set_parts kept s)) /\ (forall id, In id (src (set_parts kept s)) <-> In id (src s) /\ ~ In id (fst st)) /\ (forall id, In id e' <-> In id (fst st) \/ In id (src s)).
  Proof.
    intros Hs. unfold mask_at. rewrite Hs. unfold src, part_ids. cbn. destruct (Nat.leb_spec (s_nbound s) 1) as [Hle|Hgt].
    - exists (fst st), (snd st), (s_parts s). destruct st as [e subs]. cbn in *. split; [reflexivity|]. split; [reflexivity|]. split.
      + intros i. destruct (Z.eqb_spec i p) as [->|]; [|reflexivity]. rewrite Hs. destruct s; reflexivity.
      + split; [generalize (s_parts s); intros l; induction l; constructor; assumption|]. split; [reflexivity|]. split; [constructor|]. cbn. split; intros; tauto.
    - destruct (mask_parts (fst st) (s_parts s)) as [e' kept] eqn:E. destruct (mask_parts_spec _ _ _ _ E) as (A & B & C & D).
      destruct (zmodify_some (snd st) p (set_parts kept) s Hs) as [subs' E']. rewrite E'. cbn. exists e', subs', kept. split; [reflexivity|]. split; [eapply zmodify_length; eauto|]. split.
      + intros i. rewrite (zmodify_get _ _ _ _ i E'). destruct (Z.eqb_spec i p) as [->|]; [rewrite Hs|]; reflexivity.
      + split; [exact A|]. split; [lia|]. split; [exact B|]. split; [exact C|exact D].
  Qed.

  (** masking the list [l] of subhalos one after the other *)
  Definition masked (l : list Z) (st st' : list Z * subs_t) : Prop :=
    length (snd st') = length (snd st) /\ (forall i, ~ In i l -> zget (snd st') i = zget (snd st) i) /\
    (forall i s, In i l -> zget (snd st) i = Some s -> exists kept, zget (snd st') i = Some (set_parts kept s) /\ sublist kept (s_parts s) /\
       ((s_nbound s <= 1)%nat -> kept = s_parts s) /\ NoDup (src (set_parts kept s)) /\ (forall id, In id (src (set_parts kept s)) -> In id (src s) /\ ~ In id (fst st))) /\
    (forall id, In id (fst st') <-> In id (fst st) \/ exists i s, In i l /\ zget (snd st) i = Some s /\ In id (src s)) /\
    (forall id i s, In i l -> zget (snd st) i = Some s -> In id (src s) -> ~ In id (fst st) -> exists j s', In j l /\ zget (snd st') j = Some s' /\ In id (src s')) /\
    (forall i j s s' id, before l j i -> zget (snd st) j = Some s -> zget (snd st') i = Some s' -> In id (src s) -> ~ In id (src s')).
  Lemma mask_list l : forall st, NoDup l -> (forall i, In i l -> exists s, zget (snd st) i = Some s) -> exists st', run_each l mask_at st = Done st' /\ masked l st st'.
  Proof.
    induction l as [|p l IH]; intros st Hn Hr.
    - exists st. split; [reflexivity|]. split; [reflexivity|]. split; [reflexivity|]. split; [intros i s []|]. split; [split; [tauto|intros [H|(i & s & [] & _)]; exact H]|]. split; [intros id i s []|].
      intros i j s s' id (a & b & c & E). destruct a; discriminate.
    - inversion Hn as [|? ? Hp Hn']; subst. destruct (Hr p (or_introl eq_refl)) as [s Hs]. destruct (mask_at_spec p st s Hs) as (e1 & subs1 & kept & E1 & L1 & G1 & K1 & O1 & N1 & I1 & X1).
      cbn [run_each]. rewrite E1. cbn [rbind]. destruct (IH (e1, subs1) Hn') as (st' & E2 & L2 & G2 & K2 & X2 & T2 & B2).
      { intros i Hi. cbn. rewrite G1. destruct (Z.eqb_spec i p); [eauto|]. apply Hr. right. exact Hi. }
      cbn [fst snd] in *. exists st'. split; [exact E2|].
      assert (Gl : forall i, In i l -> zget subs1 i = zget (snd st) i). { intros i Hi. rewrite G1. destruct (Z.eqb_spec i p) as [->|]; [contradiction|reflexivity]. }
      assert (Gp : zget (snd st') p = Some (set_parts kept s)). { rewrite (G2 p Hp), G1, Z.eqb_refl. reflexivity. }
      split; [congruence|]. split; [|split; [|split; [|split]]].
      + intros i Hi. rewrite G2, G1 by (intros H; apply Hi; right; exact H). destruct (Z.eqb_spec i p) as [->|]; [exfalso; apply Hi; left; reflexivity|reflexivity].
      + intros i si Hi Hsi. destruct (Z.eq_dec i p) as [->|Hne].
        * assert (si = s) by congruence. subst si. exists kept. split; [exact Gp|]. split; [exact K1|]. split; [exact O1|]. split; [exact N1|]. intros id. apply I1.
        * destruct Hi as [Hi|Hi]; [congruence|]. rewrite <- (Gl i Hi) in Hsi. destruct (K2 i si Hi Hsi) as (k & A & B & C & D & F). exists k. split; [exact A|]. split; [exact B|]. split; [exact C|]. split; [exact D|].
          intros id Hid. destruct (F id Hid) as [F1 F2]. split; [exact F1|]. rewrite X1 in F2. tauto.
      + intros id. rewrite X2, X1. split.
        * intros [[H|H]|(i & si & Hi & Hsi & H)]; [tauto|right; exists p, s; split; [left; reflexivity|auto]|]. right. exists i, si. rewrite (Gl i Hi) in Hsi. split; [right; exact Hi|auto].
        * intros [H|(i & si & [<-|Hi] & Hsi & H)]; [tauto|left; right; congruence|]. right. exists i, si. rewrite (Gl i Hi). auto.
      + intros id i si Hi Hsi Hid Hne. destruct (in_dec Z.eq_dec id (src s)) as [Hin|Hin].
        * exists p, (set_parts kept s). split; [left; reflexivity|]. split; [exact Gp|]. apply I1. split; assumption.
        * destruct Hi as [<-|Hi]; [exfalso; apply Hin; congruence|]. destruct (T2 id i si Hi) as (j & s' & A & B & C); [rewrite (Gl i Hi); exact Hsi|exact Hid|rewrite X1; tauto|]. exists j, s'. split; [right; exact A|auto].
      + intros i j sj s' id Hb Hsj Hs' Hid. apply before_cons in Hb as [[-> Hi]|Hb].
        * assert (sj = s) by congruence. subst sj. destruct (Hr i (or_intror Hi)) as [si Hsi]. rewrite <- (Gl i Hi) in Hsi. destruct (K2 i si Hi Hsi) as (k & A & _ & _ & _ & F). assert (s' = set_parts k si) by congruence. subst s'. intros H. destruct (F id H) as [_ F2]. apply F2. apply X1. right. exact Hid.
        * destruct (before_in_r _ _ _ Hb) as [Hj _]. rewrite <- (Gl j Hj) in Hsj. eapply B2; eauto.
  Qed.
  Lemma masked_nests l st st' t : masked l st st' -> represents (local_nest (snd st)) t -> represents (local_nest (snd st')) t.
  Proof.
    intros (HL & Ho & Hi & _) HR. eapply represents_ext; [exact HR|]. intros i m _ (s & Hs & Em). destruct (in_dec Z.eq_dec i l) as [H|H].
    - destruct (Hi i s H Hs) as (k & A & _). exists (set_parts k s). split; [exact A|exact Em].
    - exists s. rewrite (Ho i H). auto.
  Qed.
  Lemma mask_tree t : forall fuel st, (height t <= fuel)%nat -> represents (local_nest (snd st)) t -> NoDup (nodes t) -> mask fuel (label t) st = run_each (post t) mask_at st.
  Proof.
    induction t as [p ts IH] using tree_rect'. intros fuel st Hf HR Hn. destruct fuel as [|f]; [cbn in Hf; lia|]. rewrite Forall_forall in IH.
    assert (HR' := HR). apply represents_node_inv in HR' as [(s & Hs & Es) HRt]. cbn [label mask post]. rewrite Hs, Es.
    rewrite run_each_app. assert (Hnd : NoDup (flat_map nodes ts)) by (cbn in Hn; inversion Hn; assumption).
    assert (Hh : forall t, In t ts -> (height t <= f)%nat) by (intros t Ht; pose proof (height_branch p ts t Ht); lia).
    assert (HE : run_each (map label ts) (mask f) st = run_each (flat_map post ts) mask_at st).
    { clear Hs Es Hn Hf HR. revert st HRt. induction ts as [|t l IHl]; intros st HRt; [reflexivity|]. cbn. inversion HRt as [|? ? H1 H2]; subst. cbn in Hnd. rewrite run_each_app.
      rewrite (IH t (or_introl eq_refl) f st (Hh t (or_introl eq_refl)) H1 (NoDup_app_remove_r _ _ Hnd)).
      destruct (mask_list (post t) st) as (st1 & E1 & M1).
      - eapply Permutation_NoDup; [symmetry; apply post_nodes|]. eapply NoDup_app_remove_r; eauto.
      - intros i Hi. apply (Permutation_in _ (post_nodes t)) in Hi. eapply represents_get; eauto.
      - rewrite E1. cbn. apply IHl; [intros; apply IH; [right; assumption|assumption..]|eapply NoDup_app_remove_l; eauto|intros; apply Hh; right; assumption|].
        rewrite Forall_forall in H2 |- *. intros u Hu. eapply masked_nests; [exact M1|apply H2; exact Hu]. }
    rewrite HE. destruct (run_each (flat_map post ts) mask_at st) as [st1| |]; [|reflexivity|reflexivity]. cbn [rbind run_each]. unfold mask_at at 1.
    destruct (zget (snd st1) p); [|reflexivity]. destruct (s_nbound s0 <=? 1)%nat; [reflexivity|]. destruct (mask_parts (fst st1) (s_parts s0)). destruct (zmodify (snd st1) p (set_parts l0)); reflexivity.
  Qed.

  Lemma src_holds s id : In id (src s) <-> (1 < s_nbound s)%nat /\ In id (part_ids s).
  Proof. unfold src. destruct (Nat.leb_spec (s_nbound s) 1); split; intros; try tauto; [destruct H0|lia]. Qed.
  Lemma holds_src subs i id : holds (R := R) subs i id <-> exists s, zget subs i = Some s /\ In id (src s).
  Proof. unfold holds. split; intros (s & Hs & H); exists s; rewrite src_holds in *; tauto. Qed.
  Definition mask_post (t : tree) (a b : subs_t) : Prop :=
    forall below : Z -> Z -> Prop, (forall i j, In i (nodes t) -> below i j -> before (post t) j i) -> exclusive a b (fun i => In i (nodes t)) below.
  Lemma agree_holds (l : list Z) (a b : subs_t) i id : agree l a b -> In i l -> holds a i id -> holds b i id.
  Proof. intros Hab Hi (s & Hs & H). exists s. rewrite <- (Hab i Hi). auto. Qed.
  Lemma agree_sym (l : list Z) (a b : subs_t) : agree l a b -> agree l b a.
  Proof. intros H i Hi. symmetry. auto. Qed.
  Lemma mask_body fuel : body_ok (fun c l => rbind (mask fuel c ([], l)) (fun st => Done (snd st))) fuel (fun _ _ => True) mask_post.
  Proof.
    split; [|auto|].
    - intros t cur HR Hn Hh _. rewrite (mask_tree t fuel ([], cur) Hh HR Hn). destruct (mask_list (post t) ([], cur)) as (st' & E & M).
      + eapply Permutation_NoDup; [symmetry; apply post_nodes|exact Hn].
      + intros i Hi. apply (Permutation_in _ (post_nodes t)) in Hi. cbn. eapply represents_get; eauto.
      + rewrite E. cbn. exists (snd st'). split; [reflexivity|]. assert (M' := M). destruct M' as (HL & Ho & Hi & Hx & Ht & Hb). cbn in *.
        assert (Hpn : forall i, In i (post t) <-> In i (nodes t)) by (intros i; split; apply Permutation_in; [|symmetry]; apply post_nodes).
        split; [exact HL|]. split; [intros i H; apply Ho; rewrite Hpn; exact H|]. split.
        * intros i s s' Hs Hs'. destruct (in_dec Z.eq_dec i (post t)) as [H|H]; [|rewrite (Ho i H) in Hs'; congruence]. destruct (Hi i s H Hs) as (k & A & _). assert (s' = set_parts k s) by congruence. subst. reflexivity.
        * intros below Hbel. assert (Hget : forall i, In i (nodes t) -> exists s, zget cur i = Some s) by (intros i H; eapply represents_get; eauto). split.
          -- intros i s H Hs Hb1. destruct (Hget i H) as [s0 Hs0]. rewrite <- Hpn in H. destruct (Hi i s0 H Hs0) as (k & A & _ & _ & N & _). assert (s = set_parts k s0) by congruence. subst. unfold src in N. cbn in N, Hb1. destruct (Nat.leb_spec (s_nbound s0) 1); [lia|exact N].
          -- intros i j id H1 H2 Hd1 Hd2. apply holds_src in Hd1 as (s1 & Hs1 & Hd1). apply holds_src in Hd2 as (s2 & Hs2 & Hd2). destruct (Z.eq_dec i j) as [|Hne]; [assumption|exfalso].
             destruct (Hget i H1) as [a Ha]. destruct (Hget j H2) as [b Hbb]. rewrite <- Hpn in H1, H2.
             destruct (Hi i a H1 Ha) as (k & A & _ & _ & _ & F). assert (s1 = set_parts k a) by congruence. subst s1. destruct (Hi j b H2 Hbb) as (k' & A' & _ & _ & _ & F'). assert (s2 = set_parts k' b) by congruence. subst s2.
             assert (Hor : before (post t) i j \/ before (post t) j i).
             { apply in_split in H1 as (l1 & l2 & El). rewrite El in H2 |- *. apply in_app_or in H2 as [H2|[H2|H2]]; [right|congruence|left]; apply before_app; right; [right; split; [exact H2|left; reflexivity]|left; apply before_cons; left; auto]. }
             destruct Hor as [Hor|Hor]; [apply (Hb j i a (set_parts k' b) id Hor Ha A'); [apply F; exact Hd1|exact Hd2]|apply (Hb i j b (set_parts k a) id Hor Hbb A); [apply F'; exact Hd2|exact Hd1]].
          -- intros id. split; intros (i & H & Hd); apply holds_src in Hd as (s & Hs & Hd).
             ++ rewrite <- Hpn in H. destruct (Ht id i s H Hs Hd (fun f => f)) as (j & s' & A & B & C). exists j. rewrite Hpn in A. split; [exact A|]. apply holds_src. eauto.
             ++ exists i. split; [exact H|]. destruct (Hget i H) as [s0 Hs0]. rewrite <- Hpn in H. destruct (Hi i s0 H Hs0) as (k & A & _ & _ & _ & F). assert (s = set_parts k s0) by congruence. subst. apply holds_src. exists s0. split; [exact Hs0|]. apply F. exact Hd.
          -- intros i j id H Hij Hd Hd'. apply holds_src in Hd as (s & Hs & Hd). apply holds_src in Hd' as (s' & Hs' & Hd'). exact (Hb i j s s' id (Hbel i j H Hij) Hs Hs' Hd Hd').
          -- intros i s H Hs. rewrite <- Hpn in H. destruct (Hi i s H Hs) as (k & A & B & _). eauto.
          -- intros i s H Hs Hle. rewrite <- Hpn in H. destruct (Hi i s H Hs) as (k & A & B & C & _). rewrite (C Hle) in A. rewrite A. destruct s; reflexivity.
    - intros t a b c d Hac Hbd HQ below Hbel. destruct (HQ below Hbel) as [Q1 Q2 Q3 Q4 Q5 Q6].
      assert (Hac' := agree_sym _ _ _ Hac). assert (Hbd' := agree_sym _ _ _ Hbd). split.
      + intros i s H Hs. rewrite <- (Hbd i H) in Hs. eauto.
      + intros i j id H1 H2 A B. eapply Q2; eauto; eapply agree_holds; eauto.
      + intros id. split; intros (i & H & Hd).
        * destruct (proj1 (Q3 id) (ex_intro _ i (conj H (agree_holds _ _ _ _ _ Hac' H Hd)))) as (j & A & B). exists j. split; [exact A|exact (agree_holds _ _ _ _ _ Hbd A B)].
        * destruct (proj2 (Q3 id) (ex_intro _ i (conj H (agree_holds _ _ _ _ _ Hbd' H Hd)))) as (j & A & B). exists j. split; [exact A|exact (agree_holds _ _ _ _ _ Hac A B)].
      + intros i j id H Hij Hd Hd'. destruct (in_dec Z.eq_dec j (nodes t)) as [Hj|Hj].
        * exact (Q4 i j id H Hij (agree_holds _ _ _ _ _ Hac' Hj Hd) (agree_holds _ _ _ _ _ Hbd' H Hd')).
        * apply Hj. eapply Permutation_in; [apply post_nodes|]. destruct (before_in_r _ _ _ (Hbel i j H Hij)). assumption.
      + intros i s H Hs. rewrite <- (Hac i H) in Hs. rewrite <- (Hbd i H). auto.
      + intros i s H Hs. rewrite <- (Hac i H) in Hs. rewrite <- (Hbd i H). auto.
  Qed.
End Mask.
