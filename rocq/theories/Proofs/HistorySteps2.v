(** The steps of one snapshot after nesting. *)
From Coq Require Import List ZArith QArith Bool Lia Sorting.Permutation.
From Verif.Model Require Import ListMem Mpi Run Hash Subhalo Tracks Nest UpdateTracks.
From Verif.Spec Require Import Members Lookup Forest Nesting NestHistory.
From Verif.Proofs Require Import ListMemProofs MpiProofs ListExtra HashProofs MemberProofs CentralProofs CentralProofs2 TrackProofs TreeProofs NestProofs NestProofs2 NestProofs3 NestProofs4 NestProofs5 LocalizeProofs ForestSteps HistorySteps.
Import ListNotations.
Local Open Scope Z_scope.

Section S.
  Context {X R H : Type}.
  Local Notation subs_t := (list (sub X R)).

  Definition same_place (a b : sub X R) : Prop := nesting_of a = nesting_of b /\ s_host a = s_host b.
  Lemma F2_zget {A B} (P : A -> B -> Prop) l l' i y : Forall2 P l l' -> zget l' i = Some y -> exists x, zget l i = Some x /\ P x y.
  Proof.
    intros HF Hy. pose proof (zget_some _ _ _ Hy) as Hr. rewrite zget_nat in Hy by lia. rewrite zget_nat by lia.
    destruct (nth_error_in_range l (Z.to_nat i)) as [x Hx]; [rewrite (F2_length _ _ _ HF); eapply nth_error_lt; eauto|]. exists x. split; [exact Hx|]. eapply F2_nth; eauto.
  Qed.
  Lemma F2_zget' {A B} (P : A -> B -> Prop) l l' i x : Forall2 P l l' -> zget l i = Some x -> exists y, zget l' i = Some y /\ P x y.
  Proof.
    intros HF Hy. pose proof (zget_some _ _ _ Hy) as Hr. rewrite zget_nat in Hy by lia. rewrite zget_nat by lia. eapply Forall2_nth; eauto.
  Qed.
  Lemma local_forest_ext (a b : subs_t) ts : Forall2 (fun x y => s_rank x = s_rank y /\ s_nest x = s_nest y) a b -> local_forest a ts -> local_forest b ts.
  Proof.
    intros HF [Hfor Hroot]. split.
    - eapply is_forest_ext; [| |exact Hfor].
      + intros i l (s & Hs & El). destruct (F2_zget' _ _ _ _ _ HF Hs) as (y & Hy & _ & E). exists y. split; [exact Hy|congruence].
      + rewrite (F2_length _ _ _ HF). reflexivity.
    - intros i s Hs. destruct (F2_zget _ _ _ _ _ HF Hs) as (x & Hx & E & _). rewrite <- E. apply Hroot. exact Hx.
  Qed.
  Lemma same_place_rn (a b : subs_t) : Forall2 same_place a b -> Forall2 (fun x y => s_rank x = s_rank y /\ s_nest x = s_nest y) a b.
  Proof. apply Forall2_impl. intros x y [E _]. apply nesting_fields in E as (_ & E1 & E2). auto. Qed.
  Lemma hostz_same (a b : subs_t) i : Forall2 same_place a b -> hostz b i = hostz a i.
  Proof.
    intros HF. unfold hostz. destruct (zget b i) as [y|] eqn:E.
    - destruct (F2_zget _ _ _ _ _ HF E) as (x & -> & _ & Eh). congruence.
    - destruct (zget a i) as [x|] eqn:E2; [|reflexivity]. destruct (F2_zget' _ _ _ _ _ HF E2) as (y & Hy & _). congruence.
  Qed.
  Lemma F2_skipn {A B} (P : A -> B -> Prop) n l l' : Forall2 P l l' -> Forall2 P (skipn n l) (skipn n l').
  Proof. intros HF. revert n. induction HF; intros [|n]; cbn; auto. Qed.
  Lemma nested_as_ext moved nh table (a b : subs_t) ts : Forall2 same_place a b -> nested_as moved nh table a ts -> nested_as moved nh table b ts.
  Proof.
    intros HF (HLf & HL & HTL & HTG & Hold & Hnew & Hnd & Hedge & Hfield & Hcen). unfold nested_as.
    split; [eapply local_forest_ext; [apply same_place_rn; exact HF|exact HLf]|]. split; [rewrite <- (F2_length _ _ _ HF); exact HL|]. split; [exact HTL|]. split; [exact HTG|].
    split; [|split; [|split; [|split; [|split]]]].
    - intros i s Hs. destruct (Hold i s Hs) as (x & Hx & E1 & E2). destruct (Forall2_nth _ _ _ i x HF Hx) as (y & Hy & E & Eh). apply nesting_fields in E as (E3 & _). exists y. split; [exact Hy|]. split; congruence.
    - pose proof (F2_skipn _ (length moved) _ _ HF) as HS. rewrite Forall_forall in *. intros y Hy. apply In_nth_error in Hy as [j Hj].
      destruct (nth_error_in_range (skipn (length moved) a) j) as [x Hx]; [rewrite (F2_length _ _ _ HS); eapply nth_error_lt; eauto|]. destruct (F2_nth _ _ _ HS j x y Hx Hj) as [E Eh]. apply nesting_fields in E as (E1 & E2 & E3).
      destruct (Hnew x (nth_error_In _ _ Hx)) as (F1 & F2 & F3 & g & Eg & Hg). split; [congruence|]. split; [congruence|]. split; [congruence|]. exists g. split; congruence.
    - pose proof (F2_skipn _ (length moved) _ _ HF) as HS. replace (map s_host (skipn (length moved) b)) with (map s_host (skipn (length moved) a)); [exact Hnd|].
      clear -HS. induction HS as [|x y l l' [_ E] _ IH]; [reflexivity|]. cbn. rewrite E, IH. reflexivity.
    - intros p c Hpc. rewrite !(hostz_same a b) by exact HF. apply Hedge. exact Hpc.
    - intros i s Hs Hh. destruct (F2_zget _ _ _ _ _ HF Hs) as (x & Hx & E & Eh). apply nesting_fields in E as (_ & _ & E3). rewrite <- E3. eapply Hfield; [exact Hx|congruence].
    - intros h c rest Hc s Hs. assert (Hs' : zget b (Z.of_nat c) = Some s) by (rewrite zget_of_nat; exact Hs). destruct (F2_zget _ _ _ _ _ HF Hs') as (x & Hx & E & _). rewrite zget_of_nat in Hx.
      apply nesting_fields in E as (_ & E2 & _). rewrite <- E2. eapply Hcen; eauto.
  Qed.

  (** ** RegisterNewTracks *)
  Lemma host_trees_old moved nh table (work : subs_t) ts : nested_as moved nh table work ts ->
    forall t i, In t ts -> In i (nodes t) -> Z.of_nat (length moved) <= i -> t = Node i [].
  Proof.
    intros ([[HF HP] Hroot] & HL & _ & _ & _ & Hnew & _) t i Ht Hi Hge.
    assert (Hr : In i (zs (seq 0 (length work)))) by (eapply Permutation_in; [exact HP|]; apply in_flat; eauto). apply in_zs_range in Hr. destruct (zget_in_range work i Hr) as [s Hs].
    assert (Hfs : fresh_sub table s).
    { rewrite Forall_forall in Hnew. apply Hnew. rewrite zget_nat in Hs by lia. apply (nth_error_In _ (Z.to_nat i - length moved)). rewrite nth_skipn. replace (length moved + (Z.to_nat i - length moved))%nat with (Z.to_nat i) by lia. exact Hs. }
    destruct Hfs as (_ & Hrk & Hne & _). apply (Hroot i s Hs) in Hrk. apply in_map_iff in Hrk as (u & Eu & Hu).
    assert (Hnd : NoDup (flat_map nodes ts)). { eapply Permutation_NoDup; [symmetry; exact HP|]. apply NoDup_map_inj; [intros x y _ _; apply Nat2Z.inj|apply seq_NoDup]. }
    assert (t = u). { clear -Ht Hu Hi Eu Hnd. assert (Hi2 : In i (nodes u)) by (rewrite <- Eu; apply label_in). induction ts as [|a l IH]; [destruct Ht|]. cbn in Hnd. destruct Hu as [<-|Hu], Ht as [<-|Ht]; [reflexivity| | |].
      - exfalso. eapply NoDup_app_disjoint; [exact Hnd|exact Hi2|]. apply in_flat; eauto.
      - exfalso. eapply NoDup_app_disjoint; [exact Hnd|exact Hi|]. apply in_flat; eauto.
      - apply IH; auto. eapply NoDup_app_remove_l; eauto. }
    subst u. rewrite Forall_forall in HF. specialize (HF t Ht). destruct t as [j us]. cbn in Eu. subst j. apply represents_node_inv in HF as [(s' & Hs' & E) _]. assert (s' = s) by congruence. subst s'. rewrite Hne in E. destruct us; [reflexivity|discriminate].
  Qed.

  Lemma map_host_filter (f : sub X R -> bool) l : NoDup (map s_host l) -> NoDup (map s_host (filter f l)).
  Proof.
    induction l as [|s l IH]; cbn; intros Hn; [constructor|]. inversion Hn; subst. destruct (f s); cbn; [constructor|]; auto. intros Hin. apply H2. apply in_map_iff in Hin as (x & E & Hx). apply filter_In in Hx as [Hx _]. apply in_map_iff. eauto.
  Qed.
  Lemma number_from_in base (l : subs_t) s : In s (number_from base l) -> exists s0 k, In s0 l /\ s = set_track (base + Z.of_nat k) s0 /\ (k < length l)%nat.
  Proof.
    intros Hs. apply In_nth_error in Hs as [k Hk]. rewrite number_from_nth in Hk. destruct (nth_error l k) as [s0|] eqn:E; [|discriminate]. injection Hk as <-. exists s0, k. split; [eapply nth_error_In; eauto|]. split; [reflexivity|eapply nth_error_lt; eauto].
  Qed.
  Lemma number_from_hosts base (l : subs_t) : map s_host (number_from base l) = map s_host l.
  Proof. revert base; induction l as [|s l IH]; intros base; cbn; [reflexivity|]. rewrite IH. reflexivity. Qed.

  (** what is known after registration *)
  Definition registered_as (moved : subs_t) (nh : nat) (table : list (list nat)) (work reg : subs_t) (ts : list tree) : Prop :=
    local_forest reg ts /\
    (forall i, (i < length moved)%nat -> nth_error reg i = nth_error work i) /\ (length moved <= length reg)%nat /\
    (forall i s, nth_error reg i = Some s -> (length moved <= i)%nat -> s_nest s = [] /\ s_rank s = 0 /\ exists g, s_host s = Z.of_nat g /\ nth_error table (S g) = Some []) /\
    (forall i j s u, nth_error reg i = Some s -> nth_error reg j = Some u -> (length moved <= i)%nat -> (length moved <= j)%nat -> s_host s = s_host u -> i = j) /\
    (forall p c, In (p, c) (flat_map edges ts) -> hostz reg c = hostz reg p) /\
    (forall i s, zget reg i = Some s -> s_host s = -1 -> s_nest s = []) /\
    (forall i s, nth_error reg i = Some s -> -1 <= s_host s < Z.of_nat nh).

  Lemma register_forest moved nh table (work : subs_t) ts base : Forall (fun s => -1 <= s_host s < Z.of_nat nh) moved ->
    nested_as moved nh table work ts ->
    exists ts', registered_as moved nh table work (old_of (work, count_empty table) ++ number_from base (new_of (work, count_empty table))) ts'.
  Proof.
    intros Hmh HN. pose proof (host_trees_old _ _ _ _ _ HN) as Hsep. destruct HN as ([[HF HP] Hroot] & HL & HTL & HTG & Hold & Hnew & Hnd & Hedge & Hfield & _).
    unfold old_of, new_of. cbn [fst snd]. replace (length work - count_empty table)%nat with (length moved) by lia.
    set (B := number_from base (filter isbound (skipn (length moved) work))). set (n := length moved) in *. set (reg := firstn n work ++ B).
    assert (HfL : length (firstn n work) = n) by (rewrite firstn_length; lia).
    assert (HB : forall s, In s B -> s_nest s = [] /\ s_rank s = 0 /\ exists g, s_host s = Z.of_nat g /\ nth_error table (S g) = Some []).
    { intros s Hs. apply number_from_in in Hs as (s0 & k & Hs0 & -> & _). apply filter_In in Hs0 as [Hs0 _]. rewrite Forall_forall in Hnew. destruct (Hnew s0 Hs0) as (_ & E1 & E2 & E3). cbn. auto. }
    assert (HBd : NoDup (map s_host B)) by (unfold B; rewrite number_from_hosts; apply map_host_filter; exact Hnd).
    assert (Hlo : forall i, (i < n)%nat -> nth_error reg i = nth_error work i).
    { intros i Hi. unfold reg. rewrite nth_error_app1 by lia. rewrite nth_firstn. destruct (Nat.ltb_spec i n); [reflexivity|lia]. }
    assert (Hhi : forall i, (n <= i)%nat -> nth_error reg i = nth_error B (i - n)).
    { intros i Hi. unfold reg. rewrite nth_error_app2, HfL by lia. reflexivity. }
    assert (Hnd2 : NoDup (flat_map nodes ts)). { eapply Permutation_NoDup; [symmetry; exact HP|]. apply NoDup_map_inj; [intros x y _ _; apply Nat2Z.inj|apply seq_NoDup]. }
    assert (Hdom : forall i, In i (flat_map nodes ts) <-> 0 <= i < Z.of_nat (length work)).
    { intros i. rewrite <- in_zs_range. split; apply Permutation_in; [exact HP|symmetry; exact HP]. }
    set (low := filter (fun t => label t <? Z.of_nat n) ts).
    assert (Hlow : forall t, In t low -> In t ts /\ forall i, In i (nodes t) -> 0 <= i < Z.of_nat n).
    { intros t Ht. apply filter_In in Ht as [Ht Hlt]. apply Z.ltb_lt in Hlt. split; [exact Ht|]. intros i Hi. split; [apply (Hdom i); apply in_flat; eauto|]. destruct (Z.lt_ge_cases i (Z.of_nat n)) as [|Hge]; [assumption|].
      rewrite (Hsep t i Ht Hi Hge) in Hlt. cbn in Hlt. lia. }
    set (hi := map (fun i => Node (Z.of_nat i) []) (seq n (length B))).
    assert (Hhi_n : flat_map nodes hi = zs (seq n (length B))).
    { unfold hi. generalize (seq n (length B)). intros l. induction l as [|x l IHl]; [reflexivity|]. cbn. f_equal. exact IHl. }
    assert (Hhi_e : flat_map edges hi = []).
    { unfold hi. generalize (seq n (length B)). intros l. induction l as [|x l IHl]; [reflexivity|]. cbn. exact IHl. }
    assert (Hregl : length reg = (n + length B)%nat) by (unfold reg; rewrite app_length; lia).
    assert (Hloz : forall i, 0 <= i < Z.of_nat n -> zget reg i = zget work i).
    { intros i Hi. rewrite !zget_nat by lia. apply Hlo. lia. }
    exists (low ++ hi). split; [split; [split|]|split; [exact Hlo|split; [lia|split; [|split; [|split; [|split]]]]]].
    - apply Forall_app. split; rewrite Forall_forall; intros t Ht.
      + destruct (Hlow t Ht) as [Ht' Hn']. rewrite Forall_forall in HF. specialize (HF t Ht'). clear -HF Hn' Hloz. induction t as [i us IH] using tree_rect'. apply represents_node_inv in HF as [(s & Hs & El) H2]. rewrite Forall_forall in IH, H2.
        constructor; [|rewrite Forall_forall; intros u Hu; apply IH; [exact Hu|apply H2; exact Hu|intros j Hj; apply Hn'; cbn; right; apply in_flat; eauto]].
        exists s. split; [|exact El]. rewrite Hloz; [exact Hs|]. apply Hn'. left; reflexivity.
      + unfold hi in Ht. apply in_map_iff in Ht as (i & <- & Hi). apply in_seq in Hi. constructor; [|constructor]. cbn [map]. destruct (nth_error_in_range B (i - n)) as [s Hs]; [lia|]. exists s. rewrite zget_of_nat, Hhi by lia.
        split; [exact Hs|]. apply HB. eapply nth_error_In; eauto.
    - rewrite flat_map_app, Hhi_n. apply NoDup_Permutation.
      + apply NoDup_app_intro.
        * pose proof (flat_map_perm nodes _ _ (filter_split (fun t => label t <? Z.of_nat n) ts)) as HPs. rewrite flat_map_app in HPs. eapply Permutation_NoDup in Hnd2; [|exact HPs]. eapply NoDup_app_remove_r; exact Hnd2.
        * apply NoDup_map_inj; [intros x y _ _; apply Nat2Z.inj|apply seq_NoDup].
        * intros i Hi Hj. apply in_flat in Hi as (t & Ht & Hi). apply (Hlow t Ht) in Hi. apply in_map_iff in Hj as (j & <- & Hj). apply in_seq in Hj. lia.
      + apply NoDup_map_inj; [intros x y _ _; apply Nat2Z.inj|apply seq_NoDup].
      + intros i. fold (zs (seq 0 (length reg))). rewrite in_zs_range, Hregl, in_app_iff. split.
        * intros [Hi|Hi]; [apply in_flat in Hi as (t & Ht & Hi); apply (Hlow t Ht) in Hi; lia|]. apply in_map_iff in Hi as (j & <- & Hj). apply in_seq in Hj. lia.
        * intros Hi. destruct (Z.lt_ge_cases i (Z.of_nat n)) as [Hlt|Hge].
          -- left. assert (Hin : In i (flat_map nodes ts)) by (apply Hdom; lia). apply in_flat in Hin as (t & Ht & Hin). apply in_flat. exists t. split; [|exact Hin]. apply filter_In. split; [exact Ht|]. apply Z.ltb_lt.
             destruct (Z.lt_ge_cases (label t) (Z.of_nat n)) as [|Hge]; [assumption|]. assert (E := Hsep t (label t) Ht (label_in t) Hge). rewrite E in Hin. cbn in Hin. destruct Hin as [E2|[]]. lia.
          -- right. apply in_map_iff. exists (Z.to_nat i). split; [lia|]. apply in_seq. lia.
    - intros i s Hs. rewrite map_app, in_app_iff. assert (Hhil : map label hi = zs (seq n (length B))) by (unfold hi, zs; rewrite map_map; reflexivity). rewrite Hhil.
      pose proof (zget_some _ _ _ Hs) as Hr. destruct (Z.lt_ge_cases i (Z.of_nat n)) as [Hlt|Hge].
      + rewrite Hloz in Hs by lia. rewrite (Hroot i s Hs). split.
        * intros Hin. left. apply in_map_iff in Hin as (t & E & Ht). apply in_map_iff. exists t. split; [exact E|]. apply filter_In. split; [exact Ht|]. apply Z.ltb_lt. lia.
        * intros [Hin|Hin]; [apply in_map_iff in Hin as (t & E & Ht); apply in_map_iff; exists t; split; [exact E|apply Hlow; exact Ht]|]. apply in_map_iff in Hin as (j & <- & Hj). apply in_seq in Hj. lia.
      + split; [|intros _; rewrite zget_nat, Hhi in Hs by lia; apply (HB s); eapply nth_error_In; eauto]. intros _. right. apply in_map_iff. exists (Z.to_nat i). split; [lia|]. apply in_seq. lia.
    - intros i s Hs Hi. rewrite Hhi in Hs by exact Hi. apply HB. eapply nth_error_In; eauto.
    - intros i j s u Hs Hu Hi Hj E. rewrite Hhi in Hs, Hu by assumption. assert (i - n = j - n)%nat; [|lia].
      pose proof (map_nth_error s_host _ _ Hs) as M1. pose proof (map_nth_error s_host _ _ Hu) as M2. rewrite E in M1. rewrite NoDup_nth_error in HBd. apply HBd; [rewrite map_length; eapply nth_error_lt; eauto|congruence].
    - intros p c Hpc. rewrite flat_map_app, Hhi_e, app_nil_r in Hpc. apply in_flat in Hpc as (t & Ht & Hpc). destruct (Hlow t Ht) as [Ht' Hn']. destruct (edge_nodes _ _ _ Hpc) as [Hp Hc]. unfold hostz. rewrite !Hloz by (apply Hn'; assumption).
      apply (Hedge p c). apply in_flat. eauto.
    - intros i s Hs Hh. pose proof (zget_some _ _ _ Hs) as Hr. destruct (Z.lt_ge_cases i (Z.of_nat n)) as [Hlt|Hge].
      + rewrite Hloz in Hs by lia. eapply Hfield; eauto.
      + rewrite zget_nat, Hhi in Hs by lia. apply (HB s). eapply nth_error_In; eauto.
    - intros i s Hs. destruct (lt_dec i n) as [Hlt|Hge].
      + rewrite Hlo in Hs by exact Hlt. destruct (nth_error_in_range moved i Hlt) as [a Ha]. destruct (Hold i a Ha) as (b & Hb & _ & E). assert (b = s) by congruence. subst b. rewrite E.
        rewrite Forall_forall in Hmh. apply Hmh. eapply nth_error_In; eauto.
      + rewrite Hhi in Hs by lia. destruct (HB s (nth_error_In _ _ Hs)) as (_ & _ & g & Eg & Hg). pose proof (nth_error_lt _ _ _ Hg). lia.
  Qed.

  (** ** The end of the snapshot *)
  Lemma table_for_build sort nh (reg : subs_t) : (forall i s, nth_error reg i = Some s -> -1 <= s_host s < Z.of_nat nh) -> sorts_by_mass reg sort ->
    exists table, build_table sort true nh reg = Some table /\ table_for reg nh table.
  Proof.
    intros Hh Hs. assert (HF : Forall (fun s => -1 <= s_host s < Z.of_nat nh) reg). { rewrite Forall_forall. intros s Hin. apply In_nth_error in Hin as [i Hi]. eauto. }
    destruct (table_props sort nh reg HF Hs true) as (table & HB & HL & HG). exists table. split; [exact HB|]. split; [exact HL|]. split; [|exact Hh].
    intros k g Hk. destruct (HG k g Hk) as (H1 & H2 & _). split; [exact H2|]. intros i. rewrite H1. split; [intros (s & A & B & _); eauto|intros (s & A & B); eauto 6].
  Qed.

  Lemma ranked_facts moved nh table (nst work reg : subs_t) ts ts' heads sort :
    Forall2 same_place nst work -> nested_as moved nh table nst ts -> registered_as moved nh table work reg ts' ->
    mapM (heads_of nst) (tl table) = Some heads -> sorts_by_mass reg sort ->
    exists table2, build_table sort true nh reg = Some table2 /\ table_for reg nh table2 /\
      (forall t i, In t ts' -> In i (nodes t) -> hostz reg i = hostz reg (label t)) /\ length heads = nh /\
      (forall h g hs, nth_error table2 (S h) = Some g -> nth_error heads h = Some hs -> (2 <= length g)%nat ->
        Permutation (zs hs) (filter (fun i => hostz reg i =? Z.of_nat h) (map label ts'))).
  Proof.
    intros HW HN HR Hheads Hsort.
    destruct HN as (_ & HLn & HTL & HTG & Holdn & _ & _ & _ & _ & _). destruct HR as ([Hfor Hroot] & Hlo & Hle & Hnew & Hinj & Hedge & Hfield & Hhost).
    destruct (table_for_build sort nh reg Hhost Hsort) as (table2 & HB & HT2).
    assert (Huni : forall t i, In t ts' -> In i (nodes t) -> hostz reg i = hostz reg (label t)).
    { intros t i Ht Hi. apply (tree_uniform (hostz reg) t); [|exact Hi]. intros p c Hpc. apply Hedge. apply in_flat. eauto. }
    assert (Hhl : length heads = nh). { rewrite (mapM_length _ _ _ Hheads). destruct table; [discriminate|]. cbn in HTL |- *. lia. }
    assert (Hhd : forall h g hs, nth_error table2 (S h) = Some g -> nth_error heads h = Some hs -> (2 <= length g)%nat ->
      Permutation (zs hs) (filter (fun i => hostz reg i =? Z.of_nat h) (map label ts'))).
    { intros h g hs Hg Hhs Hlen. assert (Hh : (h < nh)%nat) by (rewrite <- Hhl; eapply nth_error_lt; eauto).
      destruct (nth_error_in_range table (S h)) as [g0 Hg0]; [lia|]. assert (Hg0' : nth_error (tl table) h = Some g0) by (destruct table; [discriminate|exact Hg0]).
      destruct (mapM_nth _ _ _ _ _ Hheads Hg0') as (hs' & Hhs' & Eh). assert (hs' = hs) by congruence. subst hs'.
      destruct (HTG (S h) g0 Hg0) as [Hmem Hnd0].
      assert (Hg0lt : forall i, In i g0 -> (i < length moved)%nat) by (intros i Hi; apply Hmem in Hi; eapply hosted_lt; eauto).
      apply heads_spec in Hhs'; [|intros i Hi; specialize (Hg0lt i Hi); lia]. 
      assert (Hrk : forall i, (i < length moved)%nat -> exists a b, nth_error nst i = Some a /\ nth_error reg i = Some b /\ s_rank a = s_rank b /\ exists m, nth_error moved i = Some m /\ s_host b = s_host m).
      { intros i Hi. destruct (nth_error_in_range moved i Hi) as [m Hm]. destruct (Holdn i m Hm) as (a & Ha & _ & Eha). destruct (Forall2_nth _ _ _ i a HW Ha) as (b & Hb & E & Ehb). apply nesting_fields in E as (_ & E2 & _).
        exists a, b. split; [exact Ha|]. split; [rewrite Hlo by exact Hi; exact Hb|]. split; [exact E2|]. exists m. split; [exact Hm|congruence]. }
      destruct HT2 as (_ & HT2g & _). destruct (HT2g (S h) g Hg) as [Hndg Hmemg].
      assert (Hnf : forall i s, nth_error reg i = Some s -> s_host s = Z.of_nat h -> (i < length moved)%nat).
      { intros i s Hs Hsh. destruct (lt_dec i (length moved)) as [|Hge]; [assumption|]. exfalso. destruct (Hnew i s Hs) as (_ & _ & g1 & Eg & Hg1); [lia|]. assert (g1 = h) by lia. subst g1. rewrite Hg0 in Hg1. injection Hg1 as ->.
        assert (Hall : forall j, In j g -> j = i).
        { intros j Hj. apply Hmemg in Hj as (u & Hu & Ehu). assert (length moved <= j)%nat.
          { destruct (le_dec (length moved) j) as [|Hjl]; [assumption|]. exfalso. destruct (Hrk j) as (a & b & _ & Hb & _ & m & Hm & Ehm); [lia|]. apply (Hmem j). exists m. split; [exact Hm|]. assert (b = u) by congruence. subst. lia. }
          eapply Hinj; [exact Hu|exact Hs|lia|lia|lia]. }
        destruct g as [|x [|y g]]; cbn in Hlen; try lia. inversion Hndg as [|? ? Hx _]; subst. apply Hx. rewrite (Hall x (or_introl eq_refl)), (Hall y (or_intror (or_introl eq_refl))). left; reflexivity. }
      apply NoDup_Permutation.
      - apply NoDup_map_inj; [intros x y _ _; apply Nat2Z.inj|]. rewrite Hhs'. apply NoDup_filter. exact Hnd0.
      - apply NoDup_filter. destruct Hfor as [_ HP]. assert (Hndn : NoDup (flat_map nodes ts')). { eapply Permutation_NoDup; [symmetry; exact HP|]. apply NoDup_map_inj; [intros x y _ _; apply Nat2Z.inj|apply seq_NoDup]. }
        clear -Hndn. induction ts' as [|t l IH]; cbn in *; [constructor|]. constructor; [|apply IH; eapply NoDup_app_remove_l; eauto]. intros Hin. apply in_map_iff in Hin as (u & E & Hu).
        eapply NoDup_app_disjoint; [exact Hndn|apply label_in|]. apply in_flat. exists u. split; [exact Hu|]. rewrite <- E. apply label_in.
      - intros i. rewrite filter_In. split.
        + intros Hi. apply in_map_iff in Hi as (j & <- & Hj). rewrite Hhs' in Hj. apply filter_In in Hj as [Hj Hrj]. destruct (Hrk j (Hg0lt j Hj)) as (a & b & Ha & Hb & Er & m & Hm & Ehm). rewrite Ha in Hrj. apply Z.eqb_eq in Hrj.
          split; [apply (Hroot (Z.of_nat j) b); [rewrite zget_of_nat; exact Hb|congruence]|]. unfold hostz. rewrite zget_of_nat, Hb. apply Z.eqb_eq. apply Hmem in Hj as (m' & Hm' & E'). assert (m' = m) by congruence. subst. lia.
        + intros [Hi Eh2]. apply Z.eqb_eq in Eh2. destruct Hfor as [_ HP]. assert (Hin : In i (zs (seq 0 (length reg)))).
          { eapply Permutation_in; [exact HP|]. apply in_map_iff in Hi as (t & <- & Ht). apply in_flat. exists t. split; [exact Ht|apply label_in]. }
          apply in_zs_range in Hin. destruct (zget_in_range reg i Hin) as [s Hs]. unfold hostz in Eh2. rewrite Hs in Eh2. apply (Hroot i s Hs) in Hi. rewrite zget_nat in Hs by lia.
          assert (Hil := Hnf _ s Hs Eh2). apply in_map_iff. exists (Z.to_nat i). split; [lia|]. rewrite Hhs'. destruct (Hrk _ Hil) as (a & b & Ha & Hb & Er & m & Hm & Ehm). assert (b = s) by congruence. subst b. apply filter_In. split.
          * apply Hmem. exists m. split; [exact Hm|]. lia.
          * rewrite Ha. apply Z.eqb_eq. congruence. }
    exists table2. auto.
  Qed.
  Lemma ranked_spec moved nh table (nst work reg : subs_t) ts ts' heads sort order :
    Forall2 same_place nst work -> nested_as moved nh table nst ts -> registered_as moved nh table work reg ts' ->
    mapM (heads_of nst) (tl table) = Some heads -> sorts_by_mass reg sort -> Permutation order (seq 0 nh) ->
    exists table2 s1 s2 s3, build_table sort true nh reg = Some table2 /\ extend_nests (length reg) order table2 heads reg = Done s1 /\
      assign_ranks table2 s1 = Some s2 /\ fill_depths (length reg) table2 s2 = Done s3 /\ table_for reg nh table2 /\ updated reg table2 s3 /\
      exists ts3, local_forest s3 ts3.
  Proof.
    intros HW HN HR Hheads Hsort Hord. destruct (ranked_facts _ _ _ _ _ _ _ _ _ _ HW HN HR Hheads Hsort) as (table2 & HB & HT2 & Huni & Hhl & Hhd).
    destruct HR as ([Hfor Hroot] & _ & _ & _ & _ & _ & Hfield & _).
    destruct (update_spec reg ts' nh table2 heads (length reg) Hfor Hroot Huni Hfield HT2 Hhl Hhd (le_n _) order Hord) as (s1 & s2 & s3 & E1 & E2 & E3 & HU).
    exists table2, s1, s2, s3. split; [exact HB|]. split; [exact E1|]. split; [exact E2|]. split; [exact E3|]. split; [exact HT2|]. split; [exact HU|].
    destruct (updated_forest reg ts' nh table2 heads (length reg) Hroot Huni Hfield HT2 Hhl Hhd (le_n _) s3 HU) as (ts3 & A & B). exists ts3. split; assumption.
  Qed.
End S.
