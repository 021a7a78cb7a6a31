(** Unbinding of nests: stripped particles go to the host subhalo. *)
From Coq Require Import List ZArith QArith Qround Bool Lia Sorting.Permutation Sorting.Sorted.
From Verif.Model Require Import ListMem Mpi Run Hash Subhalo Nest Mask Unbind.
From Verif.Spec Require Import Members Forest Nesting NestHistory Unbinding.
From Verif.Proofs Require Import ListMemProofs MpiProofs ListExtra MemberProofs TreeProofs NestProofs NestProofs2 NestProofs3 NestProofs4 NestProofs5 LocalizeProofs ForestSteps HistorySteps HistorySteps2 ReachProofs GlueProofs GlueTree HaloWork MaskProofs UnbindProofs.
Import ListNotations.
Local Open Scope nat_scope.

Section S.
  Context {X R E : Type}.
  Local Notation subs_t := (list (sub X R)).
  Local Notation entry := (nat * E)%type.
  Variables neg pos : E -> bool.
  Variable lt : E -> E -> bool.
  Variable sorter : sort_site -> list entry -> list entry.
  Variable shuffle : list (Z * X) -> list (Z * X).
  Variable energy : list (Z * X) * R -> nat -> list entry -> nat -> E.
  Variable inner : list (Z * X) * R -> list entry -> nat -> E.
  Variable no_energy : E.
  Variable rest_of : list (Z * X) -> nat -> R -> R.
  Variable pmass : Z * X -> Q.
  Variables (min_part : nat) (converged : nat -> nat -> bool) (max_sample : nat) (refine : bool) (snap : Z).
  Hypothesis one_sign : forall e, neg e = true -> pos e = false.
  Hypothesis sorter_ok : forall site l, Permutation (sorter site l) l /\ ascending lt snd (sorter site l).
  Hypothesis shuffle_ok : forall l, Permutation (shuffle l) l.
  Hypothesis min_ok : 2 <= min_part.
  Hypothesis converged_ok : forall n, converged n n = true.
  Local Notation unbind := (unbind neg pos sorter shuffle energy inner no_energy rest_of pmass min_part converged max_sample refine snap).
  Local Notation unbinding := (unbinding neg pos lt energy inner no_energy min_part converged max_sample refine snap pmass).
  Local Notation stripped := (stripped neg pos lt energy inner no_energy min_part converged max_sample refine snap pmass).
  Local Notation recursive_unbind := (recursive_with (Unbind.unbind neg pos sorter shuffle energy inner no_energy rest_of pmass min_part converged max_sample refine snap)).

  Lemma unbind_total s : exists s', unbind s = Done s' /\ unbinding s s'.
  Proof.
    destruct (unbind_ok neg pos lt sorter shuffle energy inner no_energy rest_of pmass min_part converged max_sample refine snap one_sign sorter_ok shuffle_ok ltac:(lia) converged_ok s (or_introl min_ok)) as (s' & A & B).
    exists s'. split; [exact A|exact B].
  Qed.
  Lemma same_nest (s s' : sub X R) : same_otherwise s s' -> s_nest s' = s_nest s /\ s_track s' = s_track s /\ s_rank s' = s_rank s /\ s_host s' = s_host s.
  Proof. intros H. rewrite H. auto. Qed.
  Lemma stripped_ok subs' i s ch : stripped subs' i s ch -> exists s', zget subs' i = Some s' /\ s_nbound s' <= length (s_parts s') /\ s_nest s' = s_nest s /\
    Permutation (s_parts s') (s_parts s ++ flat_map (leftover subs') ch).
  Proof.
    intros (u & H). destruct (s_nbound s <=? 1) eqn:En; destruct H as [(HS & HP & HB & _) Hz]; apply same_nest in HS as (HS & _).
    - exists (set_parts (s_parts s ++ flat_map (leftover subs') ch) u). split; [exact Hz|]. cbn. split; [|split; [exact HS|reflexivity]]. rewrite app_length. apply Permutation_length in HP. lia.
    - exists u. split; [exact Hz|]. split; [exact HB|]. split; [exact HS|exact HP].
  Qed.
  Lemma leftover_ext (a b : subs_t) l : agree l a b -> flat_map (leftover a) l = flat_map (leftover b) l.
  Proof.
    intros H. induction l as [|x r IH]; [reflexivity|]. cbn. rewrite IH by (intros i Hi; apply H; right; exact Hi). f_equal. unfold leftover. rewrite (H x (or_introl eq_refl)). reflexivity.
  Qed.
  Lemma stripped_ext (a b : subs_t) i s ch : zget a i = zget b i -> agree ch a b -> stripped a i s ch -> stripped b i s ch.
  Proof. intros Hi Hc. unfold Unbinding.stripped. rewrite <- Hi, (leftover_ext a b ch Hc). auto. Qed.

  Definition strip_post (t : tree) (a b : subs_t) : Prop :=
    represents (local_nest a) t /\ forall i s, In i (nodes t) -> zget a i = Some s -> stripped b i s (s_nest s).
  Lemma child_in t i s c (a : subs_t) : represents (local_nest a) t -> In i (nodes t) -> zget a i = Some s -> In c (s_nest s) -> In c (nodes t).
  Proof.
    revert i s c. induction t as [p ts IH] using tree_rect'. intros i s c HR Hi Hs Hc. apply represents_node_inv in HR as [(s0 & Hs0 & E0) HRt]. cbn. destruct Hi as [<-|Hi].
    - right. assert (s0 = s) by congruence. subst s0. rewrite E0 in Hc. apply in_map_iff in Hc as (t & <- & Ht). apply in_flat. exists t. split; [exact Ht|destruct t; left; reflexivity].
    - right. apply in_flat in Hi as (t & Ht & Hi). apply in_flat. exists t. split; [exact Ht|]. rewrite Forall_forall in IH, HRt. eapply IH; eauto.
  Qed.
  Lemma strip_tree t : forall fuel cur, (height t <= fuel) -> represents (local_nest cur) t -> NoDup (nodes t) ->
    exists cur', recursive_unbind fuel (label t) cur = Done cur' /\ length cur' = length cur /\ (forall i, ~ In i (nodes t) -> zget cur' i = zget cur i) /\
      (forall i s s', zget cur i = Some s -> zget cur' i = Some s' -> s_nest s' = s_nest s) /\ strip_post t cur cur'.
  Proof.
    induction t as [p ts IH] using tree_rect'. intros fuel cur Hf HR Hn. destruct fuel as [|f]; [cbn in Hf; lia|]. rewrite Forall_forall in IH.
    assert (HR' := HR). apply represents_node_inv in HR' as [(s & Hs & Es) HRt]. cbn [label recursive_with]. rewrite Hs, Es.
    assert (Hnp : ~ In p (flat_map nodes ts)) by (cbn in Hn; inversion Hn; assumption). assert (Hnd : NoDup (flat_map nodes ts)) by (cbn in Hn; inversion Hn; assumption).
    set (step := fun c l => rbind (recursive_unbind f c l) (fun l1 => match zget l1 c with None => Crash | Some sc => if length (s_parts sc) <? s_nbound sc then Crash else of_opt (zmodify l1 p (fun q => set_parts (s_parts q ++ skipn (s_nbound sc) (s_parts sc)) q)) end)).
    (* the children *)
    assert (HC : forall ts2 ts1 cur1, ts = ts1 ++ ts2 -> length cur1 = length cur -> zget cur1 p = Some (set_parts (s_parts s ++ flat_map (leftover cur1) (map label ts1)) s) ->
        (forall i, i <> p -> ~ In i (flat_map nodes ts1) -> zget cur1 i = zget cur i) -> (forall t, In t ts1 -> forall i si, In i (nodes t) -> zget cur i = Some si -> stripped cur1 i si (s_nest si)) ->
        exists cur2, run_each (map label ts2) step cur1 = Done cur2 /\ length cur2 = length cur /\ zget cur2 p = Some (set_parts (s_parts s ++ flat_map (leftover cur2) (map label ts)) s) /\
          (forall i, i <> p -> ~ In i (flat_map nodes ts) -> zget cur2 i = zget cur i) /\ (forall t, In t ts -> forall i si, In i (nodes t) -> zget cur i = Some si -> stripped cur2 i si (s_nest si))).
    { induction ts2 as [|t ts2 IHl]; intros ts1 cur1 Ets HL1 Hp1 Ho1 Hd1.
      - rewrite app_nil_r in Ets. subst ts1. exists cur1. split; [reflexivity|]. auto.
      - assert (Ht : In t ts) by (rewrite Ets; apply in_or_app; right; left; reflexivity). cbn [map run_each].
        assert (Htp : ~ In p (nodes t)) by (intros H; apply Hnp; apply in_flat; eauto).
        assert (Hnd' := Hnd). rewrite Ets, flat_map_app in Hnd'. cbn in Hnd'.
        assert (Ht1 : forall i, In i (nodes t) -> ~ In i (flat_map nodes ts1)) by (intros i Hi H; eapply NoDup_app_disjoint; [exact Hnd'|exact H|apply in_or_app; left; exact Hi]).
        assert (Hag : agree (nodes t) cur cur1). { intros i Hi. symmetry. apply Ho1; [intros ->; contradiction|apply Ht1; exact Hi]. }
        destruct (IH t Ht f cur1) as (c2 & E2 & L2 & O2 & N2 & HR2 & P2).
        { pose proof (height_branch p ts t Ht). lia. }
        { rewrite Forall_forall in HRt. eapply represents_ext; [apply HRt; exact Ht|]. intros i m Hi (si & Hsi & Em). exists si. rewrite <- (Hag i Hi). auto. }
        { apply NoDup_app_remove_l in Hnd'. eapply NoDup_app_remove_r. exact Hnd'. }
        unfold step at 1. rewrite E2. cbn [rbind]. assert (Hlt : In (label t) (nodes t)) by (destruct t; left; reflexivity).
        destruct (represents_get _ _ _ HR2 Hlt) as [st Hst]. destruct (stripped_ok _ _ _ _ (P2 _ _ Hlt Hst)) as (st' & Hst' & Hb & _). rewrite Hst'. destruct (Nat.ltb_spec (length (s_parts st')) (s_nbound st')); [lia|].
        assert (Hp2 : zget c2 p = zget cur1 p) by (apply O2; exact Htp).
        destruct (zmodify_some c2 p (fun q => set_parts (s_parts q ++ skipn (s_nbound st') (s_parts st')) q) _ (eq_trans Hp2 Hp1)) as [c3 E3]. rewrite E3. cbn [of_opt rbind].
        assert (G3 : forall i, i <> p -> zget c3 i = zget c2 i). { intros i Hi. rewrite (zmodify_get _ _ _ _ i E3). destruct (Z.eqb_spec i p); [contradiction|reflexivity]. }
        assert (Hlab : forall u i, In u ts -> In i (nodes u) -> i <> p) by (intros u i Hu Hi ->; apply Hnp; apply in_flat; eauto).
        assert (Hts1 : forall u, In u ts1 -> In u ts) by (intros u Hu; rewrite Ets; apply in_or_app; left; exact Hu).
        assert (Hag1 : forall i, In i (flat_map nodes ts1) -> zget c3 i = zget cur1 i).
        { intros i Hi. assert (Hi' := Hi). apply in_flat in Hi' as (u & Hu & Hiu). rewrite G3 by exact (Hlab u i (Hts1 u Hu) Hiu). apply O2. intros Hit. exact (Ht1 i Hit Hi). }
        assert (Hag2 : forall i, In i (nodes t) -> zget c3 i = zget c2 i) by (intros i Hi; apply G3; eapply Hlab; eauto).
        apply (IHl (ts1 ++ [t])).
        + rewrite Ets, <- app_assoc. reflexivity.
        + rewrite (zmodify_length _ _ _ _ E3). congruence.
        + rewrite (zmodify_get _ _ _ _ p E3), Z.eqb_refl, Hp2, Hp1. cbn. f_equal. unfold set_parts; cbn. f_equal. rewrite map_app, flat_map_app. cbn. rewrite app_nil_r, <- app_assoc. f_equal. f_equal.
          * apply leftover_ext. intros i Hi. symmetry. apply Hag1. apply in_map_iff in Hi as (u & <- & Hu). apply in_flat. exists u. split; [exact Hu|destruct u; left; reflexivity].
          * unfold leftover. rewrite (Hag2 _ Hlt), Hst'. reflexivity.
        + intros i Hip Hi. rewrite flat_map_app in Hi. cbn in Hi. rewrite app_nil_r in Hi. rewrite G3 by exact Hip. rewrite O2 by (intros H1; apply Hi; apply in_or_app; right; exact H1). apply Ho1; [exact Hip|]. intros H1. apply Hi. apply in_or_app. left. exact H1.
        + intros u Hu i si Hi Hsi. apply in_app_or in Hu as [Hu|[<-|[]]].
          * eapply stripped_ext; [| |apply (Hd1 u Hu i si Hi Hsi)]; [symmetry; apply Hag1; apply in_flat; eauto|]. intros c Hc. symmetry. apply Hag1. apply in_flat. exists u. split; [exact Hu|]. rewrite Forall_forall in HRt. eapply child_in; eauto.
          * assert (Hsi1 := Hsi). rewrite (Hag i Hi) in Hsi1. eapply stripped_ext; [| |apply (P2 i si Hi Hsi1)]; [symmetry; apply Hag2; exact Hi|]. intros c Hc. symmetry. apply Hag2. eapply child_in; [exact HR2|exact Hi|exact Hsi1|exact Hc]. }
    destruct (HC ts [] cur) as (c2 & E2 & L2 & P2 & O2 & D2); [reflexivity|reflexivity|cbn; rewrite app_nil_r, Hs; destruct s; reflexivity|reflexivity|intros t []|]. clear HC.
    rewrite E2. cbn [rbind]. rewrite P2. set (given := flat_map (leftover c2) (map label ts)) in *.
    set (arg := if s_nbound s <=? 1 then set_parts (s_parts s) (set_parts (s_parts s ++ given) s) else set_parts (s_parts s ++ given) s).
    destruct (unbind_total arg) as (u & Eu & Hu). rewrite Eu. cbn [rbind].
    destruct (zmodify_some c2 p (fun _ => if s_nbound s <=? 1 then set_parts (s_parts (set_parts (s_parts s ++ given) s)) u else u) _ P2) as [c3 E3]. rewrite E3. cbn [of_opt].
    exists c3. split; [reflexivity|]. split; [rewrite (zmodify_length _ _ _ _ E3); exact L2|].
    assert (G3 : forall i, i <> p -> zget c3 i = zget c2 i). { intros i Hi. rewrite (zmodify_get _ _ _ _ i E3). destruct (Z.eqb_spec i p); [contradiction|reflexivity]. }
    assert (Gp : zget c3 p = Some (if s_nbound s <=? 1 then set_parts (s_parts s ++ given) u else u)). { rewrite (zmodify_get _ _ _ _ p E3), Z.eqb_refl, P2. reflexivity. }
    assert (Hgiven : given = flat_map (leftover c3) (map label ts)).
    { apply leftover_ext. intros i Hi. symmetry. apply G3. intros ->. apply Hnp. apply in_map_iff in Hi as (t & Et & Ht). apply in_flat. exists t. split; [exact Ht|destruct t; cbn in Et; subst; left; reflexivity]. }
    assert (HSp : stripped c3 p s (s_nest s)).
    { unfold Unbinding.stripped. rewrite Es, <- Hgiven. exists u. unfold arg in Hu. destruct (s_nbound s <=? 1) eqn:En; [|auto]. split; [|exact Gp]. destruct s; exact Hu. }
    assert (HS : forall i si, In i (nodes (Node p ts)) -> zget cur i = Some si -> stripped c3 i si (s_nest si)).
    { intros i si [<-|Hi] Hsi; [assert (si = s) by congruence; subst si; exact HSp|]. assert (Hi' := Hi). apply in_flat in Hi' as (t & Ht & Hit).
      eapply stripped_ext; [| |apply (D2 t Ht i si Hit Hsi)].
      - symmetry. apply G3. intros ->. contradiction.
      - intros c Hc. symmetry. apply G3. intros ->. apply Hnp. apply in_flat. exists t. split; [exact Ht|]. rewrite Forall_forall in HRt. eapply child_in; eauto. }
    assert (HO : forall i, ~ In i (nodes (Node p ts)) -> zget c3 i = zget cur i).
    { intros i Hi. cbn in Hi. rewrite G3 by (intros ->; apply Hi; left; reflexivity). apply O2; [intros ->; apply Hi; left; reflexivity|intros H; apply Hi; right; exact H]. }
    split; [exact HO|]. split; [|split; [exact HR|exact HS]].
    intros i si si' Hsi Hsi'. destruct (in_dec Z.eq_dec i (nodes (Node p ts))) as [Hi|Hi].
    - destruct (stripped_ok _ _ _ _ (HS i si Hi Hsi)) as (x & Hx & _ & Hnx & _). congruence.
    - rewrite (HO i Hi) in Hsi'. congruence.
  Qed.
  Lemma strip_body fuel : body_ok (recursive_unbind fuel) fuel (fun _ _ => True) strip_post.
  Proof.
    split; [|auto|].
    - intros t cur HR Hn Hh _. destruct (strip_tree t fuel cur Hh HR Hn) as (c & A & B & C & D & F). exists c. auto.
    - intros t a b c d Hac Hbd [HR HS]. split.
      + eapply represents_ext; [exact HR|]. intros i m Hi (s & Hs & Em). exists s. rewrite <- (Hac i Hi). auto.
      + intros i s Hi Hs. rewrite <- (Hac i Hi) in Hs. eapply stripped_ext; [apply Hbd; exact Hi| |apply (HS i s Hi Hs)]. intros k Hk. apply Hbd. eapply child_in; eauto.
  Qed.

  (** Particles are conserved over a tree. *)
  Lemma strip_conserved t (a b : subs_t) : strip_post t a b -> Permutation (flat_map (bound_parts b) (nodes t) ++ leftover b (label t)) (flat_map (held_by a) (nodes t)).
  Proof.
    induction t as [p ts IH] using tree_rect'. intros [HR HS]. rewrite Forall_forall in IH. apply represents_node_inv in HR as [(s & Hs & Es) HRt]. rewrite Forall_forall in HRt. cbn [nodes flat_map label].
    destruct (stripped_ok _ _ _ _ (HS p s (or_introl eq_refl) Hs)) as (s' & Hs' & _ & _ & HP).
    assert (Hsub : Permutation (flat_map (bound_parts b) (flat_map nodes ts) ++ flat_map (leftover b) (map label ts)) (flat_map (held_by a) (flat_map nodes ts))).
    { assert (HS' : forall t, In t ts -> strip_post t a b). { intros t Ht. split; [apply HRt; exact Ht|]. intros i si Hi. apply HS. right. apply in_flat. eauto. }
      clear -IH HS'. induction ts as [|t ts IHl]; [reflexivity|]. cbn. rewrite !flat_map_app. rewrite <- (IHl (fun u Hu => IH u (or_intror Hu)) (fun u Hu => HS' u (or_intror Hu))).
      rewrite <- (IH t (or_introl eq_refl) (HS' t (or_introl eq_refl))). rewrite <- !app_assoc. apply Permutation_app_head. rewrite !app_assoc. apply Permutation_app_tail. apply Permutation_app_comm. }
    rewrite Es in HP. assert (E1 : bound_parts b p ++ leftover b p = s_parts s') by (unfold bound_parts, leftover; rewrite Hs'; apply firstn_skipn).
    assert (E2 : held_by a p = s_parts s) by (unfold held_by; rewrite Hs; reflexivity). rewrite E2.
    rewrite <- Hsub. rewrite <- app_assoc. rewrite (Permutation_app_comm (flat_map (bound_parts b) (flat_map nodes ts)) (leftover b p)). rewrite app_assoc, E1, HP. rewrite <- app_assoc. apply Permutation_app_head. apply Permutation_app_comm.
  Qed.
End S.
