(** Forests through localisation and globalisation. *)
From Coq Require Import List ZArith Bool Lia Sorting.Permutation.
From Verif.Model Require Import ListMem Mpi Run Hash Subhalo Nest.
From Verif.Spec Require Import Lookup Forest Nesting.
From Verif.Proofs Require Import ListMemProofs MpiProofs ListExtra HashProofs MemberProofs CentralProofs2 TreeProofs NestProofs NestProofs2 NestProofs3 NestProofs4 LocalizeProofs.
Import ListNotations.
Local Open Scope Z_scope.

(** ** Renaming labels *)
Fixpoint relabel (f : Z -> Z) (t : tree) : tree := match t with Node i ts => Node (f i) (map (relabel f) ts) end.
Lemma relabel_label f t : label (relabel f t) = f (label t).
Proof. destruct t; reflexivity. Qed.
Lemma relabel_nodes f t : nodes (relabel f t) = map f (nodes t).
Proof.
  induction t as [i ts IH] using tree_rect'. cbn. f_equal. rewrite Forall_forall in IH. induction ts as [|t ts IHl]; cbn; [reflexivity|].
  rewrite map_app, (IH t (or_introl eq_refl)). f_equal. apply IHl. intros u Hu. apply IH. right; exact Hu.
Qed.
Lemma relabel_edges f t : edges (relabel f t) = map (fun e => (f (fst e), f (snd e))) (edges t).
Proof.
  induction t as [i ts IH] using tree_rect'. cbn. rewrite map_app, !map_map. f_equal; [apply map_ext; intros t; rewrite relabel_label; reflexivity|].
  rewrite Forall_forall in IH. induction ts as [|t ts IHl]; cbn; [reflexivity|].
  rewrite map_app, (IH t (or_introl eq_refl)). f_equal. apply IHl. intros u Hu. apply IH. right; exact Hu.
Qed.
Lemma relabel_represents f (m m' : Z -> list Z -> Prop) t : represents m t ->
  (forall i l, In i (nodes t) -> (forall c, In c l -> In c (nodes t)) -> m i l -> m' (f i) (map f l)) -> represents m' (relabel f t).
Proof.
  induction t as [i ts IH] using tree_rect'. intros HR Hm. apply represents_node_inv in HR as [H1 H2]. cbn. rewrite Forall_forall in IH, H2. constructor.
  - rewrite map_map. rewrite (map_ext _ (fun t => f (label t))) by (intros; apply relabel_label). rewrite <- map_map. apply Hm; [left; reflexivity| |exact H1].
    intros c Hc. apply in_map_iff in Hc as (t & <- & Ht). right. apply in_flat. exists t. split; [exact Ht|apply label_in].
  - rewrite Forall_forall. intros u Hu. apply in_map_iff in Hu as (t & <- & Ht). apply (IH t Ht); [apply H2; exact Ht|].
    intros j l Hj Hl. apply Hm; [right; apply in_flat; eauto|]. intros c Hc. right. apply in_flat. exists t. split; [exact Ht|apply Hl; exact Hc].
Qed.
Lemma represents_members m t : represents m t -> forall i l, In i (nodes t) -> (forall l1 l2, m i l1 -> m i l2 -> l1 = l2) -> m i l -> forall c, In c l -> In (i, c) (edges t).
Proof.
  induction t as [p ts IH] using tree_rect'. intros HR i l Hi Hu Hm c Hc. apply represents_node_inv in HR as [H1 H2]. cbn in Hi |- *. rewrite in_app_iff. destruct Hi as [<-|Hi].
  - left. rewrite (Hu _ _ Hm H1) in Hc. apply in_map_iff in Hc as (t & <- & Ht). apply in_map_iff. eauto.
  - right. apply in_flat in Hi as (t & Ht & Hi). apply in_flat. exists t. split; [exact Ht|]. rewrite Forall_forall in IH, H2. eapply (IH t Ht (H2 t Ht)); eauto.
Qed.
Lemma represents_edge m t p c : represents m t -> In (p, c) (edges t) -> exists l, m p l /\ In c l.
Proof.
  induction t as [i ts IH] using tree_rect'. intros HR He. apply represents_node_inv in HR as [H1 H2]. cbn in He. apply in_app_or in He as [He|He].
  - apply in_map_iff in He as (t & E & Ht). injection E as <- <-. exists (map label ts). split; [exact H1|apply in_map; exact Ht].
  - apply in_flat in He as (t & Ht & He). rewrite Forall_forall in IH, H2. apply (IH t Ht); auto.
Qed.
(** a property constant along edges is constant on the tree *)
Lemma tree_uniform {A} (f : Z -> A) t : (forall p c, In (p, c) (edges t) -> f c = f p) -> forall i, In i (nodes t) -> f i = f (label t).
Proof.
  induction t as [p ts IH] using tree_rect'. intros He i Hi. cbn in Hi. destruct Hi as [<-|Hi]; [reflexivity|]. apply in_flat in Hi as (t & Ht & Hi). cbn.
  rewrite Forall_forall in IH. rewrite (IH t Ht) by (try exact Hi; intros a b Hab; apply He; cbn; apply in_or_app; right; apply in_flat; eauto).
  apply He. cbn. apply in_or_app. left. apply in_map_iff. eauto.
Qed.

(** ** Position of a track *)
Fixpoint pos (t : Z) (l : list Z) : nat := match l with [] => O | x :: r => if x =? t then O else S (pos t r) end.
Lemma pos_spec t l : In t l -> nth_error l (pos t l) = Some t.
Proof. induction l as [|x r IH]; [intros []|]. cbn. destruct (Z.eqb_spec x t) as [->|Hne]; [reflexivity|]. intros [E|H]; [contradiction|]. apply IH. exact H. Qed.

Section Steps.
  Context {X R : Type}.
  Local Notation subs_t := (list (sub X R)).
  Definition idx (subs : subs_t) (t : Z) : Z := Z.of_nat (pos t (map s_track subs)).
  Lemma idx_at (subs : subs_t) t : is_local subs t = true -> at_index subs t (idx subs t).
  Proof.
    unfold is_local, idx, at_index. destruct (memb_spec t (map s_track subs)) as [H|]; [|discriminate]. intros _. apply pos_spec in H. rewrite nth_error_map in H.
    rewrite zget_of_nat. destruct (nth_error subs (pos t (map s_track subs))) as [s|]; [|discriminate]. exists s. split; [reflexivity|]. injection H as <-. reflexivity.
  Qed.

  Variable procs : list (list (Z * Z) * subs_t).
  Variable outs : list subs_t.
  Variable ts : list tree.
  Hypothesis Htables : Forall (fun p => mapped_fill (track_keys (snd p)) (fst p)) procs.
  Hypothesis Hglobal : global_forest (concat (map snd procs)) ts.
  Hypothesis Houts : localize procs = Some outs.

  Notation all := (concat (map snd procs)).

  Lemma in_all k p s : nth_error procs k = Some p -> In s (snd p) -> In s all.
  Proof. intros Hk Hs. apply in_concat. exists (snd p). split; [apply in_map; eapply nth_error_In; eauto|exact Hs]. Qed.
  Lemma in_reg k p s : nth_error procs k = Some p -> In s (snd p) -> 0 <= s_track s -> In s (registered all).
  Proof. intros. apply filter_In. split; [eapply in_all; eauto|]. apply Z.leb_le. assumption. Qed.
  Lemma reg_unique s u : In s (registered all) -> In u (registered all) -> s_track s = s_track u -> s = u.
  Proof. intros. destruct Hglobal as [Hnd _]. eapply (NoDup_map_inv_eq s_track); eauto. Qed.
  Lemma ts_nodup : NoDup (flat_map nodes ts).
  Proof. destruct Hglobal as (Hnd & [_ HP] & _). eapply Permutation_NoDup; [symmetry; exact HP|exact Hnd]. Qed.
  Lemma ts_node t : In t (flat_map nodes ts) <-> exists s, In s (registered all) /\ s_track s = t.
  Proof.
    destruct Hglobal as (_ & [_ HP] & _). split.
    - intros H. apply (Permutation_in _ HP) in H. apply in_map_iff in H as (s & E & Hs). eauto.
    - intros (s & Hs & <-). apply (Permutation_in _ (Permutation_sym HP)). apply in_map. exact Hs.
  Qed.
  Lemma ts_nonneg t : In t (flat_map nodes ts) -> 0 <= t.
  Proof. intros H. apply ts_node in H as (s & Hs & <-). apply filter_In in Hs as [_ Hs]. apply Z.leb_le in Hs. exact Hs. Qed.
  (** a listed track and its parent *)
  Lemma listed_edge s t : In s (registered all) -> In t (s_nest s) -> In (s_track s, t) (flat_map edges ts).
  Proof.
    intros Hs Ht. destruct Hglobal as (_ & [HF _] & _). assert (Hn : In (s_track s) (flat_map nodes ts)) by (apply ts_node; eauto).
    apply in_flat in Hn as (u & Hu & Hn). apply in_flat. exists u. split; [exact Hu|]. rewrite Forall_forall in HF.
    eapply (represents_members _ u (HF u Hu) (s_track s) (s_nest s) Hn); [|exists s; auto|exact Ht].
    intros l1 l2 (a & Ha & Ea & <-) (b & Hb & Eb & <-). f_equal. apply reg_unique; congruence.
  Qed.
  Lemma edge_listed p c : In (p, c) (flat_map edges ts) -> exists s, In s (registered all) /\ s_track s = p /\ In c (s_nest s).
  Proof.
    intros He. apply in_flat in He as (u & Hu & He). destruct Hglobal as (_ & [HF _] & _). rewrite Forall_forall in HF.
    destruct (represents_edge _ u p c (HF u Hu) He) as (l & (s & Hs & E & El) & Hc). exists s. subst l. auto.
  Qed.
  Lemma edge_parent_unique p q c : In (p, c) (flat_map edges ts) -> In (q, c) (flat_map edges ts) -> p = q.
  Proof.
    intros H1 H2. apply in_flat in H1 as (t & Ht & H1). apply in_flat in H2 as (u & Hu & H2). pose proof ts_nodup as Hn.
    assert (Ec : t = u).
    { pose proof (proj2 (edge_nodes _ _ _ H1)) as N1. pose proof (proj2 (edge_nodes _ _ _ H2)) as N2. clear -Ht Hu N1 N2 Hn.
      induction ts as [|a l IH]; [destruct Ht|]. cbn in Hn. destruct Hu as [<-|Hu], Ht as [<-|Ht]; [reflexivity| | |].
      - exfalso. eapply NoDup_app_disjoint; [exact Hn|exact N2|]. apply in_flat; eauto.
      - exfalso. eapply NoDup_app_disjoint; [exact Hn|exact N1|]. apply in_flat; eauto.
      - apply IH; auto. eapply NoDup_app_remove_l; eauto. }
    subst u. eapply (parent_unique t); eauto. apply in_split in Ht as (a & b & E). rewrite E, flat_map_app in Hn. apply NoDup_app_remove_l in Hn. eapply NoDup_app_remove_r; exact Hn.
  Qed.
  Lemma root_not_member c p : In c (map label ts) -> ~ In (p, c) (flat_map edges ts).
  Proof.
    intros Hc He. apply in_map_iff in Hc as (t & El & Ht). apply in_flat in He as (u & Hu & He). pose proof ts_nodup as Hn.
    assert (Ec : t = u).
    { pose proof (proj2 (edge_nodes _ _ _ He)) as N2. assert (N1 : In c (nodes t)) by (rewrite <- El; apply label_in). clear -Ht Hu N1 N2 Hn.
      induction ts as [|a l IH]; [destruct Ht|]. cbn in Hn. destruct Hu as [<-|Hu], Ht as [<-|Ht]; [reflexivity| | |].
      - exfalso. eapply NoDup_app_disjoint; [exact Hn|exact N2|]. apply in_flat; eauto.
      - exfalso. eapply NoDup_app_disjoint; [exact Hn|exact N1|]. apply in_flat; eauto.
      - apply IH; auto. eapply NoDup_app_remove_l; eauto. }
    subst u. rewrite <- El in He. eapply (root_no_member t); [|exact He]. apply in_split in Ht as (a & b & E). rewrite E, flat_map_app in Hn. apply NoDup_app_remove_l in Hn. eapply NoDup_app_remove_r; exact Hn.
  Qed.
  Lemma node_root_or_member t : In t (flat_map nodes ts) -> In t (map label ts) \/ exists p, In (p, t) (flat_map edges ts).
  Proof.
    intros H. apply in_flat in H as (u & Hu & H). apply (Permutation_in _ (nodes_edges u)) in H. destruct H as [<-|H]; [left; apply in_map; exact Hu|].
    right. apply in_map_iff in H as ([p c] & E & He). cbn in E. subst c. exists p. apply in_flat. eauto.
  Qed.

  (** ** After LocalizeNestedIds *)
  Lemma localized k p subs' : nth_error procs k = Some p -> nth_error outs k = Some subs' ->
    exists ts', local_forest subs' ts' /\
      (forall i s, nth_error (snd p) i = Some s -> exists s', nth_error subs' i = Some s' /\ local_copy procs k (snd p) s s') /\
      length subs' = length (snd p) /\
      (forall i j, In (i, j) (flat_map edges ts') <-> exists a b, zget (snd p) i = Some a /\ zget (snd p) j = Some b /\ In (s_track b) (s_nest a)).
  Proof.
    intros Hk Ho. destruct Hglobal as (Hnd & [HF HP] & Hrk & Hnew).
    destruct (localize_spec procs Htables Hnd) as (outs' & E & HLo & Hspec). rewrite Houts in E. injection E as <-. destruct (Hspec k p subs' Hk Ho) as [HL Hcopy]. clear Hspec.
    set (subs := snd p) in *. set (loc := is_local subs). set (cut := fun a b => negb (Bool.eqb (loc a) (loc b))).
    set (ps := flat_map (pieces cut) ts).
    assert (Hcutf : forall a b, cut a b = false <-> loc a = loc b).
    { intros a b. unfold cut. destruct (loc a), (loc b); cbn; split; congruence. }
    assert (HPp : Permutation (flat_map nodes ps) (flat_map nodes ts)).
    { unfold ps. rewrite flat_map_flat. apply flat_map_perm2. intros t _. apply split_nodes. }
    assert (Hpe : forall a b, In (a, b) (flat_map edges ps) <-> In (a, b) (flat_map edges ts) /\ loc a = loc b).
    { intros a b. unfold ps. rewrite flat_map_flat. rewrite <- Hcutf. split.
      - intros H. apply in_flat in H as (t & Ht & H). apply (split_edges cut t (a, b)) in H as [H Hc]. split; [apply in_flat; eauto|exact Hc].
      - intros [H Hc]. apply in_flat in H as (t & Ht & H). apply in_flat. exists t. split; [exact Ht|]. apply (split_edges cut t (a, b)). auto. }
    assert (Huni : forall u i, In u ps -> In i (nodes u) -> loc i = loc (label u)).
    { intros u i Hu Hi. apply (tree_uniform loc u); [|exact Hi]. intros a b Hab. symmetry. apply Hpe. apply in_flat. eauto. }
    assert (Hat : forall t i s, nth_error subs i = Some s -> 0 <= s_track s -> s_track s = t -> idx subs t = Z.of_nat i).
    { intros t i s Hs Hp <-. assert (El : is_local subs (s_track s) = true). { apply is_local_spec. exists (Z.of_nat i), s. rewrite zget_of_nat. auto. }
      destruct (idx_at subs (s_track s) El) as (u & Hu & Eu). pose proof (zget_some _ _ _ Hu) as Hr. rewrite zget_nat in Hu by lia.
      assert (Hn := nd_proc procs Hnd k p Hk). fold subs in Hn. assert (Z.to_nat (idx subs (s_track s)) = i); [|lia].
      clear -Hu Hs Eu Hn Hp. set (j := Z.to_nat (idx subs (s_track s))) in *. clearbody j. revert i j Hu Hs. induction subs as [|x r IH]; intros [|i] [|j] Hu Hs; cbn in Hu, Hs; try discriminate; [reflexivity| | |].
      - exfalso. injection Hs as ->. cbn in Hn. destruct (Z.leb_spec 0 (s_track s)); [|lia]. cbn in Hn. inversion Hn as [|? ? H1 _]. apply H1. rewrite <- Eu. apply in_map.
        apply filter_In. split; [eapply nth_error_In; eauto|]. apply Z.leb_le. lia.
      - exfalso. injection Hu as ->. cbn in Hn. destruct (Z.leb_spec 0 (s_track u)); [|lia]. cbn in Hn. inversion Hn as [|? ? H1 _]. apply H1. rewrite Eu. apply in_map.
        apply filter_In. split; [eapply nth_error_In; eauto|]. apply Z.leb_le. lia.
      - f_equal. apply IH; auto. cbn in Hn. destruct (0 <=? s_track x); [inversion Hn; assumption|exact Hn]. }
    assert (Hat2 : forall t i, 0 <= t -> at_index subs t i -> i = idx subs t).
    { intros t i Hp (s & Hs & Es). pose proof (zget_some _ _ _ Hs) as Hr. rewrite zget_nat in Hs by lia. rewrite (Hat t (Z.to_nat i) s Hs) by lia. lia. }
    assert (Hreg : forall i s, nth_error subs i = Some s -> 0 <= s_track s -> In s (registered all)).
    { intros i s Hs Hp. eapply in_reg; [exact Hk|eapply nth_error_In; exact Hs|exact Hp]. }
    assert (Hlocget : forall t, In t (flat_map nodes ts) -> loc t = true -> exists i s, nth_error subs i = Some s /\ s_track s = t /\ idx subs t = Z.of_nat i).
    { intros t Ht Hl. destruct (idx_at subs t Hl) as (s & Hs & Es). pose proof (zget_some _ _ _ Hs) as Hr. rewrite zget_nat in Hs by lia. exists (Z.to_nat (idx subs t)), s. split; [exact Hs|]. split; [exact Es|lia]. }
    set (good := filter (fun u => loc (label u)) ps).
    assert (Hgood : forall u, In u good <-> In u ps /\ loc (label u) = true) by (intros u; apply filter_In).
    set (fresh := filter (fun i => match zget subs i with Some s => s_track s <? 0 | None => false end) (map Z.of_nat (seq 0 (length subs)))).
    assert (Hfresh : forall i, In i fresh <-> exists s, zget subs i = Some s /\ s_track s < 0).
    { intros i. unfold fresh. rewrite filter_In. split.
      - intros [_ H]. destruct (zget subs i) as [s|]; [|discriminate]. exists s. split; [reflexivity|]. apply Z.ltb_lt. exact H.
      - intros (s & Hs & Hlt). split; [|rewrite Hs; apply Z.ltb_lt; exact Hlt]. apply (in_zs_range i (length subs)). eapply zget_some; eauto. }
    (* nests of local subhalos *)
    assert (Hnest : forall i s s', nth_error subs i = Some s -> nth_error subs' i = Some s' -> s_nest s' = map (idx subs) (filter loc (s_nest s))).
    { intros i s s' Hs Hs'. destruct (Hcopy i s Hs) as (s2 & Hs2 & kept & r & E2 & Hkept & _). rewrite Hs' in Hs2. injection Hs2 as ->. subst s2. cbn [s_nest set_nest].
      assert (Hpos : forall c, In c (s_nest s) -> 0 <= c).
      { intros c Hc. destruct (Z.neg_nonneg_cases (s_track s)) as [Hneg|Hp].
        - destruct (Hnew s) as [Hn0 _]; [eapply in_all; [exact Hk|eapply nth_error_In; exact Hs]|exact Hneg|]. rewrite Hn0 in Hc. destruct Hc.
        - apply ts_nonneg. assert (He := listed_edge s c (Hreg i s Hs Hp) Hc). apply in_flat in He as (u & Hu & He). apply in_flat. exists u. split; [exact Hu|]. eapply edge_nodes; eauto. }
      assert (Ef : filter (found subs) (s_nest s) = filter loc (s_nest s)).
      { apply filter_ext_in. intros c Hc. unfold found. destruct (Z.leb_spec 0 c); [reflexivity|]. specialize (Hpos c Hc). lia. }
      rewrite Ef in Hkept. assert (Hpos' : forall c, In c (filter loc (s_nest s)) -> 0 <= c) by (intros c Hc; apply filter_In in Hc as [Hc _]; auto).
      clear -Hkept Hpos' Hat2. induction Hkept as [|c i' l l' H1 H2 IH]; [reflexivity|]. cbn. f_equal; [apply Hat2; [apply Hpos'; left; reflexivity|exact H1]|].
      apply IH. intros c' Hc'. apply Hpos'. right; exact Hc'. }
    exists (map (relabel (idx subs)) good ++ map (fun i => Node i []) fresh). split; [split; [split|]|].
    - apply Forall_app. split; rewrite Forall_forall; intros u Hu; apply in_map_iff in Hu as (t & <- & Ht).
      + apply Hgood in Ht as [Ht Hlt].
        assert (Hrp : represents (fun i l => exists s, In s (registered all) /\ s_track s = i /\ filter (fun c => negb (cut i c)) (s_nest s) = l) t).
        { unfold ps in Ht. apply in_flat in Ht as (t0 & Ht0 & Ht). rewrite Forall_forall in HF. 
          assert (HA : Forall (represents (fun i l => exists s, In s (registered all) /\ s_track s = i /\ filter (fun c => negb (cut i c)) (s_nest s) = l)) (pieces cut t0)).
          { eapply split_represents; [apply HF; exact Ht0|]. intros i l _ (s & Hs & Es & El). exists s. subst l. auto. }
          rewrite Forall_forall in HA. apply HA. exact Ht. }
        eapply relabel_represents; [exact Hrp|]. intros i l Hi _ (s & Hs & Es & El).
        assert (Hli : loc i = true) by (rewrite (Huni t i Ht Hi); exact Hlt).
        assert (Hin : In i (flat_map nodes ts)) by (eapply Permutation_in; [exact HPp|]; apply in_flat; eauto).
        destruct (Hlocget i Hin Hli) as (j & s0 & Hs0 & Es0 & Ej). assert (s0 = s). { apply reg_unique; [|exact Hs|congruence]. apply (Hreg j); [exact Hs0|]. rewrite Es0. apply ts_nonneg. exact Hin. }
        subst s0. destruct (Hcopy j s Hs0) as (s' & Hs' & _). exists s'. rewrite Ej, zget_of_nat. split; [exact Hs'|]. rewrite (Hnest j s s' Hs0 Hs'). f_equal. rewrite <- El.
        apply filter_ext. intros c. unfold cut. rewrite negb_involutive, Hli. destruct (loc c); reflexivity.
      + constructor; [|constructor]. apply Hfresh in Ht as (s & Hs & Hlt). pose proof (zget_some _ _ _ Hs) as Hr. rewrite zget_nat in Hs by lia. destruct (Hcopy _ s Hs) as (s' & Hs' & _).
        exists s'. rewrite zget_nat by lia. split; [exact Hs'|]. rewrite (Hnest _ s s' Hs Hs'). destruct (Hnew s) as [Hn0 _]; [eapply in_all; [exact Hk|eapply nth_error_In; exact Hs]|exact Hlt|]. rewrite Hn0. reflexivity.
    - rewrite flat_map_app. apply NoDup_Permutation.
      + apply NoDup_app_intro.
        * rewrite flat_map_concat_map, map_map. rewrite (map_ext _ (fun t => map (idx subs) (nodes t))) by (intros; apply relabel_nodes). rewrite <- map_map, <- concat_map, <- flat_map_concat_map.
          apply NoDup_map_inj.
          -- intros a b Ha Hb Eab. apply in_flat in Ha as (u & Hu & Ha). apply in_flat in Hb as (v & Hv & Hb). apply Hgood in Hu as [Hu Hlu]. apply Hgood in Hv as [Hv Hlv].
             assert (La : loc a = true) by (rewrite (Huni u a Hu Ha); exact Hlu). assert (Lb : loc b = true) by (rewrite (Huni v b Hv Hb); exact Hlv).
             destruct (idx_at subs a La) as (sa & Hsa & <-). destruct (idx_at subs b Lb) as (sb & Hsb & <-). congruence.
          -- assert (HNp : NoDup (flat_map nodes ps)) by (eapply Permutation_NoDup; [symmetry; exact HPp|exact ts_nodup]).
             pose proof (flat_map_perm nodes _ _ (filter_split (fun u => loc (label u)) ps)) as HPs. rewrite flat_map_app in HPs. eapply Permutation_NoDup in HNp; [|exact HPs].
             eapply NoDup_app_remove_r; exact HNp.
        * rewrite flat_map_concat_map, map_map. cbn [nodes flat_map]. replace (concat (map (fun x => [x]) fresh)) with fresh by (clear; induction fresh; cbn; [reflexivity|f_equal; assumption]).
          unfold fresh. apply NoDup_filter. apply NoDup_map_inj; [intros x y _ _; apply Nat2Z.inj|apply seq_NoDup].
        * intros i Hi Hj. rewrite flat_map_concat_map, map_map in Hj. cbn [nodes flat_map] in Hj. replace (concat (map (fun x => [x]) fresh)) with fresh in Hj by (clear; induction fresh; cbn; [reflexivity|f_equal; assumption]).
          apply Hfresh in Hj as (s & Hs & Hlt). apply in_flat in Hi as (v & Hv & Hi). apply in_map_iff in Hv as (u & <- & Hu). rewrite relabel_nodes in Hi. apply in_map_iff in Hi as (t & <- & Ht).
          apply Hgood in Hu as [Hu Hlu]. assert (Lt : loc t = true) by (rewrite (Huni u t Hu Ht); exact Hlu). destruct (idx_at subs t Lt) as (s2 & Hs2 & Es2).
          assert (0 <= t); [|assert (s2 = s) by congruence; subst; lia]. apply ts_nonneg. eapply Permutation_in; [exact HPp|]. apply in_flat. eauto.
      + apply NoDup_map_inj; [intros x y _ _; apply Nat2Z.inj|apply seq_NoDup].
      + intros i. fold (zs (seq 0 (length subs'))). rewrite in_zs_range, HL, in_app_iff. rewrite (flat_map_concat_map nodes (map _ fresh)), map_map. cbn [nodes flat_map].
        replace (concat (map (fun x => [x]) fresh)) with fresh by (clear; induction fresh; cbn; [reflexivity|f_equal; assumption]). split.
        * intros [Hi|Hi].
          -- apply in_flat in Hi as (v & Hv & Hi). apply in_map_iff in Hv as (u & <- & Hu). rewrite relabel_nodes in Hi. apply in_map_iff in Hi as (t & <- & Ht).
             apply Hgood in Hu as [Hu Hlu]. assert (Lt : loc t = true) by (rewrite (Huni u t Hu Ht); exact Hlu). destruct (idx_at subs t Lt) as (s2 & Hs2 & Es2). eapply zget_some; eauto.
          -- apply Hfresh in Hi as (s & Hs & _). eapply zget_some; eauto.
        * intros Hi. destruct (zget_in_range subs i Hi) as [s Hs]. destruct (Z.neg_nonneg_cases (s_track s)) as [Hneg|Hp]; [right; apply Hfresh; eauto|]. left.
          assert (Hs' := Hs). rewrite zget_nat in Hs' by lia. assert (Hin : In (s_track s) (flat_map nodes ps)).
          { eapply Permutation_in; [symmetry; exact HPp|]. apply ts_node. exists s. split; [eapply Hreg; eauto|reflexivity]. }
          apply in_flat in Hin as (u & Hu & Hin). apply in_flat. exists (relabel (idx subs) u). split.
          -- apply in_map. apply Hgood. split; [exact Hu|]. rewrite <- (Huni u _ Hu Hin). apply is_local_spec. exists i, s. auto.
          -- rewrite relabel_nodes. apply in_map_iff. exists (s_track s). split; [|exact Hin]. symmetry. apply Hat2; [exact Hp|]. exists s. auto.
    - intros i s' Hs'. pose proof (zget_some _ _ _ Hs') as Hr. rewrite HL in Hr. destruct (zget_in_range subs i Hr) as [s Hs]. rewrite zget_nat in Hs', Hs by lia.
      destruct (Hcopy _ s Hs) as (s2 & Hs2 & kept & r & E2 & _ & Hr1 & Hr2). rewrite Hs' in Hs2. injection Hs2 as ->. subst s2. cbn [s_rank set_nest set_rank].
      rewrite map_app, in_app_iff, !map_map. cbn [label]. rewrite map_id.
      destruct (Z.neg_nonneg_cases (s_track s)) as [Hneg|Hp].
      + rewrite (Hr2 (or_introl Hneg)). destruct (Hnew s) as [_ Hn0]; [eapply in_all; [exact Hk|eapply nth_error_In; exact Hs]|exact Hneg|]. split; [|intros _; exact Hn0]. intros _. right.
        apply Hfresh. exists s. rewrite zget_nat by lia. auto.
      + assert (Hsr : In s (registered all)) by (eapply Hreg; eauto). assert (Hnode : In (s_track s) (flat_map nodes ts)) by (apply ts_node; eauto).
        assert (Hls : loc (s_track s) = true) by (apply is_local_spec; exists i, s; rewrite zget_nat by lia; auto).
        assert (Hidx : idx subs (s_track s) = i) by (rewrite (Hat _ (Z.to_nat i) s Hs Hp eq_refl); lia).
        assert (Hroots : (In i (map (fun x => label (relabel (idx subs) x)) good) \/ In i fresh) <-> (In (s_track s) (map label ps))).
        { split.
          - intros [H|H].
            + apply in_map_iff in H as (u & Eu & Hu). rewrite relabel_label in Eu. apply Hgood in Hu as [Hu Hlu]. destruct (idx_at subs _ Hlu) as (v & Hv & Ev).
              rewrite Eu, zget_nat in Hv by lia. assert (v = s) by congruence. subst v. rewrite Ev. apply in_map. exact Hu.
            + exfalso. apply Hfresh in H as (v & Hv & Hlt). rewrite zget_nat in Hv by lia. assert (v = s) by congruence. subst. lia.
          - intros H. left. apply in_map_iff in H as (u & Eu & Hu). apply in_map_iff. exists u. split; [rewrite relabel_label, Eu; exact Hidx|]. apply Hgood. split; [exact Hu|]. rewrite Eu. exact Hls. }
        rewrite Hroots.
        assert (Hps : In (s_track s) (map label ps) <-> In (s_track s) (map label ts) \/ exists q, In (q, s_track s) (flat_map edges ts) /\ loc q = false).
        { unfold ps. split.
          - intros H. apply in_map_iff in H as (u & Eu & Hu). apply in_flat in Hu as (t & Ht & Hu). destruct Hu as [<-|Hu].
            + left. rewrite <- Eu, split_label. apply in_map. exact Ht.
            + right. assert (Hl : In (s_track s) (map label (snd (split cut t)))) by (rewrite <- Eu; apply in_map; exact Hu). apply split_roots in Hl as (q & Hq & Hc). exists q. split; [apply in_flat; eauto|].
              unfold cut in Hc. rewrite Hls in Hc. destruct (loc q); [discriminate|reflexivity].
          - intros [H|(q & Hq & Hl)].
            + apply in_map_iff in H as (t & Et & Ht). apply in_map_iff. exists (fst (split cut t)). split; [rewrite split_label; exact Et|]. apply in_flat. exists t. split; [exact Ht|left; reflexivity].
            + apply in_flat in Hq as (t & Ht & Hq). assert (Hr' : In (s_track s) (map label (snd (split cut t)))). { apply split_roots. exists q. split; [exact Hq|]. unfold cut. rewrite Hl, Hls. reflexivity. }
              apply in_map_iff in Hr' as (u & Eu & Hu). apply in_map_iff. exists u. split; [exact Eu|]. apply in_flat. exists t. split; [exact Ht|right; exact Hu]. }
        rewrite Hps.
        assert (Helse : listed_elsewhere procs k (s_track s) <-> exists q, In (q, s_track s) (flat_map edges ts) /\ loc q = false).
        { split.
          - intros (j & p2 & u & Hne & Hj & Hu & Hin). assert (Hpu : 0 <= s_track u).
            { destruct (Z.neg_nonneg_cases (s_track u)) as [Hneg|]; [|assumption]. destruct (Hnew u) as [Hn0 _]; [eapply in_all; eauto|exact Hneg|]. rewrite Hn0 in Hin. destruct Hin. }
            exists (s_track u). split; [apply listed_edge; [eapply in_reg; eauto|exact Hin]|]. destruct (loc (s_track u)) eqn:El; [|reflexivity]. exfalso. apply is_local_spec in El as (i2 & v & Hv & Ev).
            pose proof (zget_some _ _ _ Hv). rewrite zget_nat in Hv by lia. apply Hne. eapply one_proc; [exact Hnd|exact Hj|exact Hk|exact Hu|eapply nth_error_In; exact Hv|congruence|exact Hpu].
          - intros (q & Hq & Hl). apply edge_listed in Hq as (u & Hu & Eu & Hin). assert (Hu2 := Hu). apply filter_In in Hu2 as [Hu2 _]. apply in_concat in Hu2 as (l & Hl2 & Hul).
            apply in_map_iff in Hl2 as (p2 & <- & Hp2). apply In_nth_error in Hp2 as [j Hj]. exists j, p2, u. split; [|auto]. intros ->. assert (p2 = p) by congruence. subst p2.
            assert (loc q = true); [|congruence]. apply is_local_spec. apply In_nth_error in Hul as [i2 Hi2]. exists (Z.of_nat i2), u. rewrite zget_of_nat. auto. }
        destruct (node_root_or_member _ Hnode) as [Hroot|[q Hq]].
        * split; [intros _; left; exact Hroot|]. intros _. rewrite Hr2; [apply (Hrk s Hsr); exact Hroot|]. right. rewrite Helse. intros (q & Hq & _). eapply root_not_member; eauto.
        * destruct (loc q) eqn:Elq.
          -- assert (Hnl : ~ listed_elsewhere procs k (s_track s)). { rewrite Helse. intros (q' & Hq' & Hl'). assert (q' = q) by (eapply edge_parent_unique; eauto). congruence. }
             rewrite (Hr2 (or_intror Hnl)), (Hrk s Hsr). split; [intros H; left; exact H|]. intros [H|H]; [exact H|]. exfalso. apply Hnl. apply Helse. exact H.
          -- rewrite Hr1; [|exact Hp|apply Helse; eauto]. split; [|reflexivity]. intros _. right. eauto.
    - split; [|split; [exact HL|]].
      { exact Hcopy. }
      intros i j. rewrite flat_map_app, in_app_iff. split.
      + intros [H|H].
        * apply in_flat in H as (v & Hv & H). apply in_map_iff in Hv as (u & <- & Hu). rewrite relabel_edges in H. apply in_map_iff in H as ([a b] & Eab & Hab). cbn in Eab. injection Eab as <- <-.
          apply Hgood in Hu as [Hu Hlu]. assert (La : loc a = true) by (rewrite (Huni u a Hu (proj1 (edge_nodes _ _ _ Hab))); exact Hlu). assert (Lb : loc b = true) by (rewrite (Huni u b Hu (proj2 (edge_nodes _ _ _ Hab))); exact Hlu).
          destruct (idx_at subs a La) as (sa & Hsa & Ea). destruct (idx_at subs b Lb) as (sb & Hsb & Eb). exists sa, sb. split; [exact Hsa|]. split; [exact Hsb|].
          assert (He : In (a, b) (flat_map edges ts)) by (apply Hpe; apply in_flat; eauto). apply edge_listed in He as (s & Hs & Es & Hin).
          assert (sa = s); [|subst; congruence]. apply reg_unique; [|exact Hs|congruence]. pose proof (zget_some _ _ _ Hsa). rewrite zget_nat in Hsa by lia. eapply Hreg; [exact Hsa|]. rewrite Ea, <- Es.
          apply filter_In in Hs as [_ Hs]. apply Z.leb_le in Hs. exact Hs.
        * apply in_flat in H as (v & Hv & H). apply in_map_iff in Hv as (u & <- & Hu). destruct H.
      + intros (a & b & Ha & Hb & Hin). left. pose proof (zget_some _ _ _ Ha) as Hra. pose proof (zget_some _ _ _ Hb) as Hrb. rewrite zget_nat in Ha, Hb by lia.
        assert (Hpa : 0 <= s_track a).
        { destruct (Z.neg_nonneg_cases (s_track a)) as [Hneg|]; [|assumption]. destruct (Hnew a) as [Hn0 _]; [eapply in_all; [exact Hk|eapply nth_error_In; exact Ha]|exact Hneg|]. rewrite Hn0 in Hin. destruct Hin. }
        assert (He := listed_edge a _ (Hreg _ a Ha Hpa) Hin). assert (Hpb : 0 <= s_track b). { apply ts_nonneg. apply in_flat in He as (u & Hu & He). apply in_flat. exists u. split; [exact Hu|]. eapply edge_nodes; eauto. }
        assert (La : loc (s_track a) = true) by (apply is_local_spec; exists i, a; rewrite zget_nat by lia; auto).
        assert (Lb : loc (s_track b) = true) by (apply is_local_spec; exists j, b; rewrite zget_nat by lia; auto).
        assert (Hep : In (s_track a, s_track b) (flat_map edges ps)) by (apply Hpe; split; [exact He|congruence]). apply in_flat in Hep as (u & Hu & Hep).
        apply in_flat. exists (relabel (idx subs) u). split; [apply in_map; apply Hgood; split; [exact Hu|]; rewrite <- (Huni u _ Hu (proj1 (edge_nodes _ _ _ Hep))); exact La|].
        rewrite relabel_edges. apply in_map_iff. exists (s_track a, s_track b). split; [|exact Hep]. cbn. rewrite (Hat _ _ a Ha Hpa eq_refl), (Hat _ _ b Hb Hpb eq_refl). f_equal; lia.
  Qed.
End Steps.
