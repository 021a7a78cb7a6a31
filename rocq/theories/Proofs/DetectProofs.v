(** Detection of sinking subhalos. *)
From Coq Require Import List ZArith QArith Bool Lia Sorting.Permutation.
From Verif.Model Require Import ListMem Mpi Run Subhalo Nest Mask Unbind Merge.
From Verif.Spec Require Import Forest Nesting Masking Sinking.
From Verif.Proofs Require Import ListMemProofs MpiProofs ListExtra MemberProofs TreeProofs NestProofs NestProofs2 NestProofs3 NestProofs4 NestProofs5.
Import ListNotations.
Local Open Scope Z_scope.

Section Above.
  Variable up : Z -> Z -> Prop.
  Hypothesis one : forall p q c, up p c -> up q c -> p = q.
  Lemma above_fun i d k : above up i d k -> forall k', above up i d k' -> k = k'.
  Proof.
    intros H. induction H as [|d m p H IH Hu]; intros k' H'; inversion H' as [|d' m' p' H1 H2]; subst; [reflexivity|]. specialize (IH _ H1). subst m'. eapply one; eauto.
  Qed.
  Lemma above_max i D r : above up i D r -> (forall p, ~ up p r) -> forall d k, above up i d k -> (d <= D)%nat.
  Proof.
    intros HD Hr d k H. induction H as [|d m p H IH Hu]; [lia|]. destruct (Nat.eq_dec d D) as [->|]; [|lia]. exfalso. apply (Hr p). rewrite (above_fun _ _ _ HD _ H). exact Hu.
  Qed.
End Above.
Lemma above_ext (up up' : Z -> Z -> Prop) i d k : (forall p c, up p c -> up' p c) -> above up i d k -> above up' i d k.
Proof. intros He H. induction H; econstructor; eauto. Qed.

Section Detect.
  Context {X R : Type}.
  Local Notation subs_t := (list (sub X R)).
  Variable near : nat * list (Z * X) * R -> nat * list (Z * X) * R -> bool.
  Variable snap : Z.
  Variable g : subs_t.
  Hypothesis Hpar : forall p q c, lists g p c -> lists g q c -> p = q.
  Hypothesis Hex : forall p c, lists g p c -> exists s, zget g c = Some s.
  Hypothesis Hdep : forall i s, zget g i = Some s -> exists D r, (D < length g)%nat /\ above (lists g) i D r /\ forall p, ~ lists g p r.
  Local Notation sinks := (sinks_by near (lists g) g).

  Lemma sinks_fun i k k' : sinks i k -> sinks i k' -> k = k'.
  Proof.
    intros (d & A & B & C) (d' & A' & B' & C'). destruct (lt_eq_lt_dec d d') as [[H|H]|H]; [exfalso; eapply C'; eauto|subst d'; eapply above_fun; eauto|exfalso; eapply C; eauto].
  Qed.

  Definition host_of (c : Z) (v : Z) : Prop := lists g v c \/ (v = -1 /\ forall p, ~ lists g p c).
  Lemma fill_inner i s l : forall hosts, length hosts = length g -> nth_error g i = Some s -> incl l (s_nest s) ->
    exists hosts', for_each l (fun c hs => zupd hs c (Z.of_nat i)) hosts = Some hosts' /\ length hosts' = length g /\ forall c, zget hosts' c = if in_dec Z.eq_dec c l then Some (Z.of_nat i) else zget hosts c.
  Proof.
    induction l as [|c l IH]; intros hosts HL Hs Hl.
    - exists hosts. split; [reflexivity|]. split; [exact HL|]. reflexivity.
    - cbn [for_each]. destruct (Hex (Z.of_nat i) c) as [u Hu]. { exists s. rewrite zget_of_nat. split; [exact Hs|apply Hl; left; reflexivity]. }
      destruct (zupd_some hosts c (Z.of_nat i)) as [h1 E1]; [rewrite HL; eapply zget_some; eauto|]. rewrite E1.
      destruct (IH h1) as (h2 & E2 & L2 & G2); [rewrite (zupd_length _ _ _ _ E1); exact HL|exact Hs|intros x Hx; apply Hl; right; exact Hx|]. exists h2. split; [exact E2|]. split; [exact L2|]. intros x. rewrite G2, (zget_zupd _ _ _ _ _ E1).
      destruct (in_dec Z.eq_dec x l) as [Hx|Hx], (in_dec Z.eq_dec x (c :: l)) as [Hy|Hy], (Z.eqb_spec x c) as [Hz|Hz]; cbn in Hy; try reflexivity; exfalso; subst; intuition congruence.
  Qed.
  Lemma fill_hosts_ok order : Permutation order (seq 0 (length g)) -> exists hosts, fill_hosts order g = Some hosts /\ length hosts = length g /\
    forall c s, zget g c = Some s -> exists v, zget hosts c = Some v /\ host_of c v.
  Proof.
    intros Hord. unfold fill_hosts.
    set (Inv := fun (pre : list nat) (hs : list Z) => length hs = length g /\ forall c s, zget g c = Some s -> exists v, zget hs c = Some v /\ (lists g v c \/ (v = -1 /\ forall i, In i pre -> ~ lists g (Z.of_nat i) c))).
    destruct (for_each_inv Inv order (fun i hosts => match nth_error g i with None => None | Some s => for_each (s_nest s) (fun c hs => zupd hs c (Z.of_nat i)) hosts end) (repeat (-1) (length g))) as (hosts & E & HL & HI).
    - split; [apply repeat_length|]. intros c s Hs. exists (-1). apply zget_some in Hs. split; [|right; split; [reflexivity|intros i []]]. rewrite zget_nat by lia. apply nth_error_repeat. lia.
    - intros pre i q hs Eo (HL & HI). assert (Hi : (i < length g)%nat). { assert (In i (seq 0 (length g))) as Hin by (apply (Permutation_in _ Hord); rewrite Eo; apply in_or_app; right; left; reflexivity). apply in_seq in Hin. lia. }
      destruct (nth_error_in_range g i Hi) as [s Hs]. rewrite Hs. destruct (fill_inner i s (s_nest s) hs HL Hs (incl_refl _)) as (hs' & E' & L' & G'). exists hs'. split; [exact E'|]. split; [exact L'|].
      intros c u Hu. rewrite G'. destruct (in_dec Z.eq_dec c (s_nest s)) as [Hc|Hc].
      + exists (Z.of_nat i). split; [reflexivity|]. left. exists s. rewrite zget_of_nat. auto.
      + destruct (HI c u Hu) as (v & Hv & [Hl|[-> Hl]]); [eauto|]. exists (-1). split; [exact Hv|]. right. split; [reflexivity|]. intros j Hj. apply in_app_or in Hj as [Hj|[<-|[]]]; [auto|]. intros (s' & Hs' & Hc'). rewrite zget_of_nat in Hs'. congruence.
    - exists hosts. split; [exact E|]. split; [exact HL|]. intros c s Hs. destruct (HI c s Hs) as (v & Hv & [Hl|[-> Hl]]); exists v || exists (-1); (split; [exact Hv|]); [left; exact Hl|right]. split; [reflexivity|].
      intros p Hp. destruct Hp as (sp & Hsp & Hc). pose proof (zget_some _ _ _ Hsp). apply (Hl (Z.to_nat p)); [apply (Permutation_in _ (Permutation_sym Hord)); apply in_seq; lia|]. exists sp. replace (Z.of_nat (Z.to_nat p)) with p by lia. auto.
  Qed.

  Definition same_counts (cur : subs_t) : Prop := forall k s, zget g k = Some s -> exists u, zget cur k = Some u /\ s_nbound u = s_nbound s.
  Lemma takes_dec i s k u : zget g i = Some s -> zget g k = Some u -> takes near g i k <-> ((1 <? s_nbound u)%nat && near (core s) (core u) = true).
  Proof.
    intros Hs Hu. rewrite andb_true_iff, Nat.ltb_lt. split; [intros (s' & u' & A & B & C & D)|intros [C D]; exists s, u; auto]. assert (s' = s) by congruence. assert (u' = u) by congruence. subst. auto.
  Qed.
  Lemma find_sink_ok hosts cur i s D r : (forall c s, zget g c = Some s -> exists v, zget hosts c = Some v /\ host_of c v) -> same_counts cur -> zget g i = Some s ->
    above (lists g) i D r -> (forall p, ~ lists g p r) -> forall n e m v fuel, (D - e)%nat = n -> (e <= D)%nat -> above (lists g) i e m -> zget hosts m = Some v -> host_of m v -> (n <= fuel)%nat ->
    (forall d' k', (d' < e)%nat -> above (lists g) i (S d') k' -> ~ takes near g i k') ->
    exists o, find_sink near fuel hosts g cur s v = Done o /\ match o with Some k => sinks i k | None => forall k, ~ sinks i k end.
  Proof.
    intros Hh Hc Hs HD Hr. induction n as [|n IH]; intros e m v fuel En He Hm Hv Hho Hf Hmin.
    - assert (e = D) by lia. subst e. rewrite (above_fun _ Hpar _ _ _ HD _ Hm) in Hr. destruct Hho as [Hl|[-> _]]; [exfalso; eapply Hr; eauto|].
      exists None. split; [destruct fuel; reflexivity|]. intros k (d & A & B & _). pose proof (above_max _ Hpar _ _ _ HD ltac:(rewrite (above_fun _ Hpar _ _ _ HD _ Hm); exact Hr) _ _ A). eapply Hmin; [|exact A|exact B]. lia.
    - destruct Hho as [Hl|[-> Hno]].
      + pose proof Hl as (p0 & Hp0 & _). assert (Hv0 : 0 <= v) by (apply zget_some in Hp0; lia). destruct fuel as [|f]; [lia|]. cbn [find_sink]. replace (v <? 0) with false by (symmetry; apply Z.ltb_ge; exact Hv0).
        destruct (Hc v p0 Hp0) as (u & Hu & Enb). destruct (Hh v p0 Hp0) as (w & Hw & Hho'). rewrite Hu, Hp0, Hw, Enb.
        assert (Hab : above (lists g) i (S e) v) by (econstructor; eauto). assert (HTD := takes_dec i s v p0 Hs Hp0). destruct ((1 <? s_nbound p0)%nat && near (core s) (core p0)).
        * exists (Some v). split; [reflexivity|]. exists e. split; [exact Hab|]. split; [apply HTD; reflexivity|]. exact Hmin.
        * apply (IH (S e) v w f); try assumption; try lia. intros d' k' Hd Hk. destruct (Nat.eq_dec d' e) as [->|]; [|apply (Hmin d' k'); [lia|exact Hk]]. rewrite <- (above_fun _ Hpar _ _ _ Hab _ Hk). rewrite HTD. discriminate.
      + exists None. split; [destruct fuel; reflexivity|]. intros k (d & A & B & _). pose proof (above_max _ Hpar _ _ _ Hm Hno _ _ A). eapply Hmin; [|exact A|exact B]. lia.
  Qed.

  Definition to_merge (k : Z) (P : nat -> Prop) : Prop := exists i s, P i /\ nth_error g i = Some s /\ s_sink s = -1 /\ (1 < s_nbound s)%nat /\ sinks (Z.of_nat i) k.
  Lemma detect_ok fuel o1 o2 : (length g <= fuel)%nat -> Permutation o1 (seq 0 (length g)) -> Permutation o2 (seq 0 (length g)) ->
    exists a mg, detect_traps near snap fuel o1 o2 g = Done (a, mg) /\ length a = length g /\ length mg = length g /\
      (forall i s, nth_error g i = Some s -> exists u, nth_error a i = Some u /\ detected snap sinks (Z.of_nat i) s u) /\
      (forall k b, zget mg k = Some b -> (b = true <-> to_merge k (fun _ => True))).
  Proof.
    intros Hf Ho1 Ho2. unfold detect_traps. destruct (fill_hosts_ok o1 Ho1) as (hosts & -> & HLh & Hh).
    set (Inv := fun (pre : list nat) (st : subs_t * list bool) => length (fst st) = length g /\ length (snd st) = length g /\
      (forall i s, nth_error g i = Some s -> exists u, nth_error (fst st) i = Some u /\ (In i pre -> detected snap sinks (Z.of_nat i) s u) /\ (~ In i pre -> u = s)) /\
      (forall k b, zget (snd st) k = Some b -> (b = true <-> to_merge k (fun i => In i pre)))).
    destruct (run_each_inv Inv (detect_one near snap fuel hosts g) o2 [] (g, repeat false (length g))) as ([a mg] & E & H1 & H2 & H3 & H4).
    - split; [reflexivity|]. split; [apply repeat_length|]. split; [intros i s Hs; exists s; split; [exact Hs|split; [intros []|reflexivity]]|].
      intros k b Hb. cbn [snd] in Hb. assert (b = false). { rewrite zget_nat in Hb by (apply zget_some in Hb; lia). apply nth_error_In, repeat_spec in Hb. exact Hb. } subst b. split; [discriminate|]. intros (i & s & [] & _).
    - intros pre i q [cur mg] Eo (H1 & H2 & H3 & H4). cbn [fst snd app] in *.
      assert (Hi : (i < length g)%nat). { assert (In i (seq 0 (length g))) as Hin by (apply (Permutation_in _ Ho2); rewrite Eo; apply in_or_app; right; left; reflexivity). apply in_seq in Hin. lia. }
      assert (Hnp : ~ In i pre). { intros Hin. assert (NoDup o2) as Hno by (eapply Permutation_NoDup; [symmetry; exact Ho2|apply seq_NoDup]). rewrite Eo in Hno. eapply NoDup_app_disjoint; [exact Hno|exact Hin|left; reflexivity]. }
      destruct (nth_error_in_range g i Hi) as [s Hs]. destruct (H3 i s Hs) as (u & Hu & _ & Hus). specialize (Hus Hnp). subst u.
      assert (Hzs : zget g (Z.of_nat i) = Some s) by (rewrite zget_of_nat; exact Hs). destruct (Hh _ _ Hzs) as (v & Hv & Hho). rewrite zget_of_nat in Hv.
      unfold detect_one. cbn [fst snd]. rewrite Hu, Hv. unfold trapped. destruct (Z.eqb_spec (s_sink s) (-1)) as [Es|Es]; cbn [negb].
      + assert (Hsc : same_counts cur). { intros k w Hw. pose proof (zget_some _ _ _ Hw). rewrite zget_nat in Hw by lia. destruct (H3 _ w Hw) as (w' & Hw' & A & B). exists w'. rewrite zget_nat by lia. split; [exact Hw'|].
          destruct (in_dec Nat.eq_dec (Z.to_nat k) pre) as [Hk|Hk]; [|rewrite (B Hk); reflexivity]. specialize (A Hk). unfold detected in A. destruct (s_sink w =? -1); [destruct A as [(x & _ & ->)|[_ ->]]; reflexivity|rewrite A; reflexivity]. }
        destruct (Hdep _ _ Hzs) as (D & r & HD & HDr & Hr).
        destruct (find_sink_ok hosts cur (Z.of_nat i) s D r Hh Hsc Hzs HDr Hr (D - 0)%nat 0%nat (Z.of_nat i) v fuel) as (o & Eo2 & Ho); [reflexivity|lia|constructor|rewrite zget_of_nat; exact Hv|exact Hho|lia|intros d' k' Hd; lia|]. rewrite Eo2. cbn [rbind].
        assert (Hnomore : forall k, ~ (1 < s_nbound s)%nat \/ ~ sinks (Z.of_nat i) k -> to_merge k (fun j => In j (pre ++ [i])) <-> to_merge k (fun j => In j pre)).
        { intros k Hk. split; intros (j & w & A & B & C & D' & F).
          - apply in_app_or in A as [A|[<-|[]]]; [exists j, w; auto|]. assert (w = s) by congruence. subst w. destruct Hk; contradiction.
          - exists j, w. split; [apply in_or_app; left; exact A|auto]. }
        destruct o as [k|].
        * destruct (modify_some cur i (set_sink k snap) s Hu) as [cur' Ec]. rewrite Ec. assert (HLc := modify_length _ _ _ _ Ec). assert (Hm := fun j => modify_nth _ _ _ _ j Ec).
          assert (Hk : exists w, zget g k = Some w) by (destruct Ho as (d & _ & (? & w & _ & Hw & _) & _); eauto). destruct Hk as [w Hw].
          assert (H3' : forall j sj, nth_error g j = Some sj -> exists u, nth_error cur' j = Some u /\ (In j (pre ++ [i]) -> detected snap sinks (Z.of_nat j) sj u) /\ (~ In j (pre ++ [i]) -> u = sj)).
          { intros j sj Hj. rewrite Hm. destruct (Nat.eqb_spec j i) as [->|Hne].
            - rewrite Hu. cbn. exists (set_sink k snap s). split; [reflexivity|]. assert (sj = s) by congruence. subst sj. split; [|intros Hc; exfalso; apply Hc; apply in_or_app; right; left; reflexivity]. intros _. unfold detected. rewrite Es. cbn. left. exists k. auto.
            - destruct (H3 j sj Hj) as (u & Hu' & A & B). exists u. split; [exact Hu'|]. split; intros Hc; [apply A; apply in_app_or in Hc as [Hc|[Hc|[]]]; [exact Hc|congruence]|apply B; intros Hc'; apply Hc; apply in_or_app; left; exact Hc']. }
          destruct (Nat.ltb_spec 1 (s_nbound s)) as [Hnb|Hnb].
          -- destruct (zupd_some mg k true) as [mg' Em]; [rewrite H2; eapply zget_some; eauto|]. rewrite Em. exists (cur', mg'). split; [reflexivity|]. split; [cbn; congruence|]. split; [cbn; rewrite (zupd_length _ _ _ _ Em); exact H2|]. split; [exact H3'|].
             cbn. intros k' b Hb. rewrite (zget_zupd _ _ _ _ _ Em) in Hb. destruct (Z.eqb_spec k' k) as [->|Hne].
             ++ injection Hb as <-. split; [|reflexivity]. intros _. exists i, s. split; [apply in_or_app; right; left; reflexivity|]. auto.
             ++ rewrite Hnomore; [apply H4; exact Hb|]. right. intros Hs'. apply Hne. eapply sinks_fun; eauto.
          -- exists (cur', mg). split; [reflexivity|]. split; [cbn; congruence|]. split; [exact H2|]. split; [exact H3'|]. cbn. intros k' b Hb. rewrite Hnomore by (left; lia). apply H4. exact Hb.
        * exists (cur, mg). split; [reflexivity|]. split; [exact H1|]. split; [exact H2|]. split.
          -- cbn. intros j sj Hj. destruct (H3 j sj Hj) as (u & Hu' & A & B). exists u. split; [exact Hu'|]. split; intros Hc; [|apply B; intros Hc'; apply Hc; apply in_or_app; left; exact Hc'].
             apply in_app_or in Hc as [Hc|[<-|[]]]; [auto|]. assert (sj = s) by congruence. subst sj. rewrite (B Hnp). unfold detected. rewrite Es. cbn. right. auto.
          -- cbn. intros k' b Hb. rewrite Hnomore by (right; apply Ho). apply H4. exact Hb.
      + exists (cur, mg). split; [reflexivity|]. split; [exact H1|]. split; [exact H2|]. split.
        * cbn. intros j sj Hj. destruct (H3 j sj Hj) as (u & Hu' & A & B). exists u. split; [exact Hu'|]. split; intros Hc; [|apply B; intros Hc'; apply Hc; apply in_or_app; left; exact Hc'].
          apply in_app_or in Hc as [Hc|[<-|[]]]; [auto|]. assert (sj = s) by congruence. subst sj. rewrite (B Hnp). unfold detected. destruct (Z.eqb_spec (s_sink s) (-1)); [contradiction|reflexivity].
        * cbn. intros k b Hb. rewrite (H4 k b Hb). split; intros (j & w & A & B & C & D' & F); exists j, w; (split; [|auto]); [apply in_or_app; left; exact A|]. apply in_app_or in A as [A|[<-|[]]]; [exact A|congruence].
    - cbn [fst snd app] in *. exists a, mg. split; [exact E|]. split; [exact H1|]. split; [exact H2|]. assert (Hall : forall i, In i o2 <-> (i < length g)%nat).
      { intros i. split; intros Hi; [apply (Permutation_in _ Ho2), in_seq in Hi; lia|]. apply (Permutation_in _ (Permutation_sym Ho2)). apply in_seq. lia. }
      split.
      + intros i s Hs. destruct (H3 i s Hs) as (u & Hu & A & _). exists u. split; [exact Hu|]. apply A. apply Hall. eapply nth_error_lt; eauto.
      + intros k b Hb. rewrite (H4 k b Hb). split; intros (i & s & A & B & C); exists i, s; (split; [|auto]); [exact I|]. apply Hall. eapply nth_error_lt; eauto.
  Qed.
End Detect.
