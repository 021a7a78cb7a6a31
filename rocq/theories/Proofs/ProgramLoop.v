(** The program: one snapshot, and the loop over snapshots. *)
From Coq Require Import List ZArith QArith Bool Lia Sorting.Sorted Sorting.Permutation.
From Verif.Model Require Import Run ListMem Mpi Mymath Hash Exchange ParticleExchange HaloExchange Hosts Subhalo Nest Unbind Tracks Catalogue Program.
From Verif.Spec Require Import Exchange Query Members Hosts Forest Nesting NestHistory Catalogue Masking Program Ownership Leading.
From Verif.Proofs Require Import ListMemProofs MpiProofs ListExtra HistorySteps HistoryProofs CatalogueProofs RestartProofs OwnProofs ProgramLoad ProgramHosts ProgramSteps.
Import ListNotations.
Local Open Scope nat_scope.

Section Loop.
  Context {X R S E : Type}.
  Variable g : setup X R S E.
  Hypothesis Hg : sane g.
  Local Notation subhalo := (sub X R).
  Local Notation halo := (list (Z * X) * S)%type.
  Local Notation catalogue := (list (list (sub X R))).
  Variable W : nat.
  Hypothesis HW : 1 <= W.

  (** What every catalogue of the run satisfies after snapshot [snap]. *)
  Record state (snap : Z) (cat : catalogue) : Prop := {
    st_length : length cat = W;
    st_history : exists before : catalogue, nest_history (H := S) before /\ Permutation (map nesting_of (concat before)) (map nesting_of (concat cat));
    st_bound : bound_inside cat;
    st_sink : forall s, In s (concat cat) -> (s_snapsink s <= snap)%Z;
    st_birth : forall s, In s (concat cat) -> (s_birth s <= snap)%Z }.

  Lemma tracks_ok (before cat : catalogue) : nest_history (H := S) before -> Permutation (map nesting_of (concat before)) (map nesting_of (concat cat)) ->
    Permutation (map s_track (concat cat)) (map Z.of_nat (seq 0 (length (concat cat)))) /\ exists ts, global_forest (concat cat) ts.
  Proof.
    intros Hh HP. destruct (history_ok _ Hh) as [HT [ts HF]]. assert (HT' := keys_tracks _ _ HP). assert (HL := Permutation_length HP). rewrite !map_length in HL.
    assert (HT2 : Permutation (map s_track (concat cat)) (map Z.of_nat (seq 0 (length (concat cat))))) by (rewrite <- HL, <- HT, HT'; reflexivity).
    split; [exact HT2|]. exists ts. apply (global_keys (concat before)); [apply registered_keys; exact HP| |exact HF].
    intros s Hs Hneg. exfalso. apply (in_map s_track) in Hs. apply (Permutation_in _ HT2) in Hs. apply in_map_iff in Hs as (n & En & _). lia.
  Qed.

  Lemma NoDup_concat_part {A B} (f : A -> B) ls l : NoDup (map f (concat ls)) -> In l ls -> NoDup (map f l).
  Proof using.
    clear. intros HN Hl. apply in_split in Hl as (a & b & ->). rewrite concat_app, map_app in HN. apply NoDup_app_remove_l in HN. cbn in HN. rewrite map_app in HN. apply NoDup_app_remove_r in HN. exact HN.
  Qed.
  Lemma nodup_concat_same {A B} (f : A -> B) : forall ls i j a b x y, NoDup (map f (concat ls)) -> nth_error ls i = Some a -> nth_error ls j = Some b -> In x a -> In y b -> f x = f y -> i = j.
  Proof using.
    clear. intros ls. assert (D : forall a r (z : A) x, NoDup (map f (a ++ r)) -> In x a -> In z r -> f x <> f z).
    { intros a r z x HN Hx Hz Ef. rewrite map_app in HN. induction a as [|c a IH]; [destruct Hx|]. cbn in HN. inversion HN as [|? ? Hc Hn]; subst. destruct Hx as [->|Hx]; [|auto]. apply Hc. rewrite Ef. apply in_or_app. right. apply in_map. exact Hz. }
    assert (C : forall (l : list (list A)) j b y, nth_error l j = Some b -> In y b -> In y (concat l)) by (intros l j b y Hj Hy; apply in_concat; exists b; split; [eapply nth_error_In; eauto|exact Hy]).
    induction ls as [|l ls IH]; intros [|i] [|j] a b x y HN Ha Hb Hx Hy Ef; try discriminate; cbn in *; try reflexivity.
    - injection Ha as <-. exfalso. eapply (D l (concat ls) y x); eauto.
    - injection Hb as <-. exfalso. eapply (D l (concat ls) x y); eauto.
    - f_equal. eapply (IH i j a b x y); eauto. rewrite map_app in HN. apply NoDup_app_remove_l in HN. exact HN.
  Qed.

  Local Notation duplicate := (duplicate (X := X) (R := R) nothing (g_mbid g)).
  Definition one (snap : Z) := one_snapshot nothing (g_mbid g) (g_snapid g) (g_chunk g) (g_sort_local g) (g_sort_roam g) (snap_ranges g) (snap_procs g) (derived g) (later_steps g) snap.
  Definition loop := main_loop nothing (g_mbid g) (g_snapid g) (g_chunk g) (g_sort_local g) (g_sort_roam g) (snap_ranges g) (snap_procs g) (derived g) (later_steps g).

  Lemma in_map2 {A B} (f : A -> B) ls y : In y (concat (map (map f) ls)) -> exists x, In x (concat ls) /\ y = f x.
  Proof. rewrite <- concat_map. intros H. apply in_map_iff in H as (x & <- & Hx). eauto. Qed.
  Lemma map2_in {A B} (f : A -> B) ls x : In x (concat ls) -> In (f x) (concat (map (map f) ls)).
  Proof. rewrite <- concat_map. apply in_map. Qed.

  (** The same catalogue, except for the attributes of the particles. *)
  Definition alike (cat out : catalogue) : Prop := Forall2 (Forall2 (fun s s' => same_but_particles (ids_of s) s s')) cat out.
  Lemma alike_refl cat : alike cat cat.
  Proof. induction cat as [|c r IH]; constructor; [|exact IH]. induction c as [|s l IHl]; constructor; [|exact IHl]. split; [destruct s; reflexivity|reflexivity]. Qed.
  Lemma alike_in cat out s' : alike cat out -> In s' (concat out) -> exists s, In s (concat cat) /\ same_but_particles (ids_of s) s s'.
  Proof.
    induction 1 as [|c c' r r' Hc Hr IH]; cbn; intros Hs; [destruct Hs|]. apply in_app_or in Hs as [Hs|Hs]; [|destruct (IH Hs) as (s & A & B); exists s; split; [apply in_or_app; right; exact A|exact B]].
    clear -Hc Hs. induction Hc as [|t t' l l' Ht Hl IH]; [destruct Hs|]. destruct Hs as [<-|Hs]; [exists t; split; [left; reflexivity|exact Ht]|]. destruct (IH Hs) as (s & A & B). exists s. split; [right; exact A|exact B].
  Qed.
  Lemma alike_renewed parts cat out : alike cat out -> map (map (renewed (derived g) parts)) out = map (map (renewed (derived g) parts)) cat.
  Proof.
    induction 1 as [|c c' r r' Hc Hr IH]; [reflexivity|]. cbn [map]. rewrite IH. f_equal. clear -Hc. induction Hc as [|s s' l l' Hs Hl IH]; [reflexivity|]. cbn [map]. rewrite IH. f_equal. apply renewed_same. exact Hs.
  Qed.
  Lemma alike_bound cat out : alike cat out -> bound_inside cat -> bound_inside out.
  Proof.
    intros HA Hb c s' Hc Hs. destruct (alike_in cat out s' HA) as (s & Hs0 & E1 & E2); [apply in_concat; eauto|]. apply in_concat in Hs0 as (c0 & Hc0 & Hs0). specialize (Hb c0 s Hc0 Hs0).
    apply (f_equal (@length _)) in E2. unfold ids_of in E2. rewrite !map_length in E2. rewrite E2. apply (f_equal s_nbound) in E1. cbn in E1. lia.
  Qed.
  (** The files of snapshot [snap] contain the catalogue [c]. *)
  Definition stored (snap : Z) (c : catalogue) (d : disk X R) : Prop := holds nothing (g_mbid g) (g_snapid g) snap 0 (length c) (nsum (map (@length _) c)) c d d.

  (** Every particle of the catalogue is in the snapshot, in no subhalo twice, and unresolved subhalos have no others. *)
  Definition prepared (snap : Z) (cat : catalogue) : Prop :=
    forall s, In s (concat cat) -> compact s /\ NoDup (part_ids s) /\ forall p, In p (s_parts s) -> now g snap (fst p) <> None.
  (** With inclusive masses: which particle leads a subhalo, and that no subhalo lists a particle twice. *)
  Definition inclusive_ok (snap : Z) (cat out : catalogue) : Prop := tidy_groups g snap -> led (concat out) /\
    ((forall s, In s (concat cat) -> NoDup (part_ids s)) -> forall s, In s (concat out) -> NoDup (part_ids s)).
  Definition settled (snap : Z) (cat : catalogue) : Prop := Forall (owned_g g) (concat cat) /\ separate (g_merge g) snap (concat cat).

  Lemma one_ok snap cat : (0 <= snap)%Z -> valid_snapshot g W snap -> state (snap - 1) cat ->
    (forall s p, In s (concat cat) -> In p (s_parts s) -> within g snap (fst p)) ->
    exists c, (forall d out, alike cat out -> exists d', one snap (tt, d, out) = Done (tt, d', map (map duplicate) c) /\ stored snap c d' /\
        forall s j, s <> snap -> d_sub d' s j = d_sub d s j /\ d_src d' s j = d_src d s j) /\
      length c = W /\ bound_inside c /\ state snap (map (map duplicate) c) /\ sound g W snap (map (map duplicate) c) /\ evolves g snap cat (map (map duplicate) c) /\
      (g_inclusive g = false -> tidy_groups g snap -> prepared snap cat -> settled snap (map (map duplicate) c)) /\ (g_inclusive g = true -> inclusive_ok snap cat (map (map duplicate) c)).
  Proof.
    intros Hsnap HV [S1 (before & S2 & S2') S3 S4 S5] Hwithin. destruct (load_ok g Hg W snap HW HV) as (sps & ranges & El & HR).
    assert (Esp : snap_procs g snap = sps) by (unfold snap_procs; rewrite El; reflexivity). assert (Erg : snap_ranges g snap = ranges) by (unfold snap_ranges; rewrite El; reflexivity).
    assert (Hread : forall cat : catalogue, length cat = W -> (forall s p, In s (concat cat) -> In p (s_parts s) -> within g snap (fst p)) -> readable nothing (snap_ranges g) (snap_procs g) snap cat).
    { clear S1 S2' S3 S4 S5 Hwithin. clear cat. intros cat S1 Hwithin. unfold readable. rewrite Esp, Erg. split; [rewrite S1; apply (rs_length _ _ _ _ _ HR)|]. split; [apply (rs_located _ _ _ _ _ HR)|]. split; [apply (rs_unique _ _ _ _ _ HR)|]. split; [apply (rs_tables _ _ _ _ _ HR)|]. split; [apply (rs_null _ _ _ _ _ HR)|].
      destruct (rs_span _ _ _ _ _ HR) as (lo & hi & Hlo & Hhi & Hspan). exists lo, hi. split; [exact Hlo|]. split; [rewrite S1; exact Hhi|]. intros c s id Hc Hs Hid. apply Hspan. unfold ids_of in Hid. apply in_map_iff in Hid as (p & <- & Hp). apply (Hwithin s); [apply in_concat; eauto|exact Hp]. }
    pose proof (fun cat HL Hwi => update_eq nothing (g_mbid g) (g_snapid g) (g_junk g) (g_chunk g) (g_sort_local g) (g_sort_roam g) (snap_ranges g) (snap_procs g) (derived g) (later_steps g) eq_refl (sn_chunk _ Hg)
      (fun l => proj1 (sn_local _ Hg l)) (fun l => proj2 (sn_local _ Hg l)) (fun l => proj1 (sn_roam _ Hg l)) (fun l => proj2 (sn_roam _ Hg l)) snap cat (Hread cat HL Hwi)) as Eu.
    rewrite Esp in Eu. set (renew := renewed (derived g) (map sp_parts sps)) in *. set (c1 := map (map renew) cat) in *.
    destruct (halos_ok g Hg W snap sps ranges HW HV HR) as (halos & Eh & Lh & Hh1 & Hh2 & Hh3 & Hh4).
    assert (Hhp : forall h p, In h (concat halos) -> In p (fst h) -> In p (particles g snap)). { intros h p Hh Hp. destruct (Hh1 h Hh) as (h0 & _ & U & _). apply U. exact Hp. }
    destruct (hosts_ok g Hg W snap sps ranges HW HV HR halos Lh Hhp c1) as (moved & Em & Lm & Pm & Hm).
    { unfold c1. rewrite map_length. exact S1. } { intros s p Hs Hp. apply in_map2 in Hs as (s0 & Hs0 & ->). eapply renewed_in; eauto. }
    assert (Hfrom : forall m, In m (concat moved) -> exists s, In s (concat cat) /\ data m = data (renew s)).
    { intros m Hin. apply (in_map data) in Hin. apply (Permutation_in _ Pm) in Hin. apply in_map_iff in Hin as (s1 & E1 & H1). apply in_map2 in H1 as (s & Hs & ->). eauto. }
    assert (Hto : forall s, In s (concat cat) -> exists m, In m (concat moved) /\ data m = data (renew s)).
    { intros s Hs. apply (map2_in renew) in Hs. fold c1 in Hs. apply (in_map data) in Hs. apply (Permutation_in _ (Permutation_sym Pm)) in Hs. apply in_map_iff in Hs as (m & E1 & H1). eauto. }
    assert (Hfields : forall m s, data m = data (renew s) -> s_parts m = remaining g snap (s_parts s) /\ s_track m = s_track s /\ s_birth m = s_birth s /\ s_lastmax m = s_lastmax s /\ s_snapmax m = s_snapmax s /\ s_snapiso m = s_snapiso s /\ s_snapsink m = s_snapsink s /\ s_mass m = s_mass (renew s)).
    { intros m s Ed. rewrite <- (renewed_parts g W snap sps ranges HR s). fold renew.
      split; [apply (f_equal s_parts) in Ed; exact Ed|]. split; [apply (f_equal s_track) in Ed; exact Ed|]. split; [apply (f_equal s_birth) in Ed; exact Ed|]. split; [apply (f_equal s_lastmax) in Ed; exact Ed|].
      split; [apply (f_equal s_snapmax) in Ed; exact Ed|]. split; [apply (f_equal s_snapiso) in Ed; exact Ed|]. split; [apply (f_equal s_snapsink) in Ed; exact Ed|apply (f_equal s_mass) in Ed; exact Ed]. }
    assert (Hparts : forall s p, In s (concat moved) -> In p (s_parts s) -> In p (particles g snap)).
    { intros m p Hin Hp. destruct (Hfrom m Hin) as (s & Hs & Ed). destruct (Hfields m s Ed) as (F1 & _). rewrite F1 in Hp. apply (remaining_in g W snap HV) in Hp. apply Hp. }
    destruct (steps_ok g Hg W snap Hsnap halos (fun p => In p (particles g snap)) Lh Hhp before S2 moved Lm) as (final & Ef & LF & (after & HA & PA) & Hfin).
    - rewrite S2'. assert (E2 : map nesting_of (concat moved) = map nesting_of (map data (concat moved))) by (rewrite map_map; reflexivity). rewrite E2, (Permutation_map nesting_of Pm), map_map. unfold c1. rewrite <- concat_map, map_map. reflexivity.
    - exact Hm.
    - intros m Hin. destruct (Hfrom m Hin) as (s & Hs & Ed). destruct (Hfields m s Ed) as (_ & _ & _ & _ & _ & _ & _ & ->). eapply renewed_mass; eauto.
    - exact Hparts.
    - intros m Hin. destruct (Hfrom m Hin) as (s & Hs & Ed). destruct (Hfields m s Ed) as (_ & _ & _ & _ & _ & _ & -> & _). specialize (S4 s Hs). lia.
    - assert (Hall : forall o, In o (concat final) -> exists r m hs out olds news, nth_error moved r = Some m /\ nth_error halos r = Some hs /\ nth_error final r = Some out /\ In o out /\ out = olds ++ news /\ Forall2 (kept g snap hs) m olds /\ Forall (born g snap hs) news /\ fine snap (fun p => In p (particles g snap)) o).
      { intros o Ho. apply in_concat in Ho as (out & Hout & Ho). apply In_nth_error in Hout as [r Hr]. assert (Hr' := nth_error_lt _ _ _ Hr). destruct (nth_error_in_range moved r) as [m Hmr]; [lia|]. destruct (nth_error_in_range halos r) as [hs Hhs]; [lia|].
        destruct (Hfin r m hs out Hmr Hhs Hr) as [(olds & news & E1 & E2 & E3) [E4 _]]. rewrite Forall_forall in E4. exists r, m, hs, out, olds, news. do 7 (split; [assumption|]). apply E4. exact Ho. }
      assert (Hcont : forall r m hs s0 s o, nth_error moved r = Some m -> nth_error halos r = Some hs -> In s0 m -> data s0 = data (renew s) -> kept g snap hs s0 o -> continues g snap s (duplicate o)).
      { intros r m hs s0 s o Hmr Hhs Hs0 Ed (K1 & K2 & K3 & K4 & K5). destruct (Hfields s0 s Ed) as (F1 & F2 & F3 & F4 & F5 & F6 & F7 & F8). specialize (Hm r m hs s0 Hmr Hhs Hs0). unfold hosted in Hm. rewrite F1 in Hm.
        constructor; cbn; try congruence; try (rewrite <- F4, <- F5; exact K4); try (rewrite <- F6; exact K5).
        destruct (remaining g snap (s_parts s)) as [|q rest] eqn:Er; [rewrite Hm in K3; exact K3|]. assert (Hq : In q (particles g snap)) by (apply (remaining_in g W snap HV (s_parts s) q); rewrite Er; left; reflexivity).
        destruct Hm as [(k & h & Hk & Hqh & Ek)|(Hno & Ek)]; rewrite Ek in K3.
        - left. replace (Z.eqb (Z.of_nat k) (-1)) with false in K3 by (symmetry; apply Z.eqb_neq; lia). rewrite Nat2Z.id in K3. destruct K3 as (h' & Hk' & Eo). assert (h' = h) by congruence. subst h'.
          destruct (Hh1 h) as (h0 & Hh0 & _ & U2 & U3); [apply in_concat; exists hs; split; eapply nth_error_In; eauto|]. exists h0. split; [exact Hh0|]. split; [apply U3; [exact Hq|exact Hqh]|congruence].
        - right. split; [|exact K3]. intros h0 Hh0 Hc. destruct (Hh2 h0 Hh0) as (h & Hh & _ & _ & U3). apply (Hno h Hh). apply U3; [exact Hq|exact Hc]. }
      assert (Hap : forall r hs o, nth_error halos r = Some hs -> born g snap hs o -> appears g snap (duplicate o)).
      { intros r hs o Hhs (B1 & B2 & h & Hh & B3). constructor; cbn; [exact B1|exact B2|]. destruct (Hh1 h) as (h0 & Hh0 & _ & U2 & _); [apply in_concat; exists hs; split; [eapply nth_error_In; eauto|exact Hh]|]. exists h0. split; [exact Hh0|congruence]. }
      assert (Hev : evolves g snap cat (map (map duplicate) final)).
      { split.
        - intros s Hs. destruct (Hto s Hs) as (s0 & Hs0 & Ed). apply in_concat in Hs0 as (m & Hmi & Hs0). apply In_nth_error in Hmi as [r Hr]. assert (Hr' := nth_error_lt _ _ _ Hr).
          destruct (nth_error_in_range final r) as [out Hout]; [lia|]. destruct (nth_error_in_range halos r) as [hs Hhs]; [lia|]. destruct (Hfin r m hs out Hr Hhs Hout) as [(olds & news & E1 & E2 & E3) _].
          apply In_nth_error in Hs0 as [i Hi]. destruct (nth_error_in_range olds i) as [o Ho]; [rewrite <- (Forall2_length_eq _ _ _ E2); eapply nth_error_lt; eauto|].
          exists (duplicate o). split; [apply map2_in; apply in_concat; exists out; split; [eapply nth_error_In; eauto|]; rewrite E1; apply in_or_app; left; eapply nth_error_In; eauto|].
          eapply Hcont; [exact Hr|exact Hhs|eapply nth_error_In; exact Hi|exact Ed|exact (F2_at _ _ _ _ _ _ E2 Hi Ho)].
        - intros o' Ho'. apply in_map2 in Ho' as (o & Ho & ->). destruct (Hall o Ho) as (r & m & hs & out & olds & news & A1 & A2 & A3 & A4 & A5 & A6 & A7 & _). subst out. apply in_app_or in A4 as [A4|A4].
          + left. apply In_nth_error in A4 as [i Hi]. destruct (nth_error_in_range m i) as [s0 Hs0]; [rewrite (Forall2_length_eq _ _ _ A6); eapply nth_error_lt; eauto|].
            destruct (Hfrom s0) as (s & Hs & Ed); [apply in_concat; exists m; split; eapply nth_error_In; eauto|]. exists s. split; [exact Hs|]. eapply Hcont; [exact A1|exact A2|eapply nth_error_In; exact Hs0|exact Ed|exact (F2_at _ _ _ _ _ _ A6 Hs0 Hi)].
          + right. rewrite Forall_forall in A7. eapply Hap; [exact A2|apply A7; exact A4]. }
      assert (Hb : bound_inside final). { intros c s Hc Hs. destruct (Hall s) as (r & m & hs & out & olds & news & A); [apply in_concat; eauto|]. apply A. }
      assert (Eone : forall d out, alike cat out -> exists d', one snap (tt, d, out) = Done (tt, d', map (map duplicate) final) /\ stored snap final d' /\ forall s j, s <> snap -> d_sub d' s j = d_sub d s j /\ d_src d' s j = d_src d s j).
      { intros d out HAl. destruct (save_eq nothing (g_mbid g) (g_snapid g) (g_junk g) (g_min_snapshot g) d snap final Hb) as (d' & Es & HH). exists d'. split.
        - unfold one. rewrite one_proceed. unfold proceed. rewrite Eu.
          + cbn [rbind]. unfold renew. rewrite (alike_renewed _ _ _ HAl). fold renew. fold c1. unfold later_steps. rewrite El. cbn [rbind fst snd]. unfold steps. rewrite Eh. cbn [rbind]. rewrite Em. cbn [of_opt rbind]. fold (after_hosts g snap halos moved). rewrite Ef. cbn [rbind fst snd]. rewrite Es. reflexivity.
          + rewrite <- S1. symmetry. apply (Forall2_length_eq _ _ _ HAl).
          + intros s p Hs Hp. destruct (alike_in _ _ _ HAl Hs) as (s0 & Hs0 & _ & E2). apply (in_map fst) in Hp. rewrite E2 in Hp. apply in_map_iff in Hp as (p0 & <- & Hp0). eapply Hwithin; eauto.
          + apply (alike_bound _ _ HAl S3).
        - destruct HH as [H1 H2]. split; [split; [intros; split; reflexivity|exact H2]|]. intros s j Hs. apply H1. left; exact Hs. }
      assert (PA' : Permutation (map nesting_of (concat after)) (map nesting_of (concat (map (map duplicate) final)))) by (rewrite <- concat_map, map_map; exact PA).
      destruct (tracks_ok after _ HA PA') as [T1 T2].
      assert (Hbirth : forall s, In s (concat (map (map duplicate) final)) -> (s_birth s <= snap)%Z).
      { intros s Hs. destruct (proj2 Hev s Hs) as [(s0 & Hs0 & C)|A]; [rewrite (co_birth _ _ _ _ C); specialize (S5 s0 Hs0); lia|rewrite (ap_birth _ _ _ A); lia]. }
      exists final. split; [exact Eone|]. split; [exact LF|]. split; [exact Hb|]. split; [|split; [|split; [exact Hev|]]].
      + constructor.
        * rewrite map_length; exact LF.
        * exists after. auto.
        * intros c s Hc Hs. apply in_map_iff in Hc as (c0 & <- & Hc). apply in_map_iff in Hs as (s0 & <- & Hs). cbn. eapply Hb; eauto.
        * intros s Hs. apply in_map2 in Hs as (s0 & Hs0 & ->). cbn. destruct (Hall s0 Hs0) as (r & m & hs & out & olds & news & A). apply A.
        * exact Hbirth.
      + constructor.
        * rewrite map_length; exact LF.
        * exact T1.
        * exact T2.
        * intros s p Hs Hp. apply in_map2 in Hs as (s0 & Hs0 & ->). cbn in Hp. destruct (Hall s0 Hs0) as (r & m & hs & out & olds & news & A). apply A. exact Hp.
        * intros s Hs. apply in_map2 in Hs as (s0 & Hs0 & ->). cbn. destruct (Hall s0 Hs0) as (r & m & hs & out & olds & news & A). apply A.
        * intros s Hs. destruct (proj2 Hev s Hs) as [(s0 & Hs0 & C)|A]; [|right; exact (ap_host _ _ _ A)]. pose proof (co_host _ _ _ _ C) as CH. destruct (remaining g snap (s_parts s0)); [left; exact CH|]. destruct CH as [(h & B1 & _ & B2)|[_ B]]; [right; eauto|left; exact B].
        * exact Hbirth.
        * intros s Hs. apply in_map2 in Hs as (s0 & Hs0 & ->). cbn. destruct (Hall s0 Hs0) as (r & m & hs & out & olds & news & A). apply A.
      + assert (HNi : tidy_groups g snap -> NoDup (map (fun h => g_halo_id g (snd h)) (concat halos))) by (intros [TG1 TG2]; eapply Permutation_NoDup; [apply Permutation_sym; exact Hh3|exact TG1]).
        assert (HNr : forall r hs, tidy_groups g snap -> nth_error halos r = Some hs -> NoDup (map (fun h => g_halo_id g (snd h)) hs)) by (intros r hs TG Hhs; eapply NoDup_concat_part; [exact (HNi TG)|eapply nth_error_In; exact Hhs]).
        assert (Hof : forall o, In o (concat final) -> exists r m hs out, nth_error moved r = Some m /\ nth_error halos r = Some hs /\ nth_error final r = Some out /\ In o out /\ (s_host o <> (-1)%Z -> exists h, In h hs /\ s_host o = g_halo_id g (snd h))).
        { intros o Ho. destruct (Hall o Ho) as (r & m & hs & out & olds & news & A1 & A2 & A3 & A4 & A5 & A6 & A7 & _). exists r, m, hs, out. do 4 (split; [assumption|]). intros Hne. subst out. apply in_app_or in A4 as [A4|A4].
          - apply In_nth_error in A4 as [i Hi]. destruct (nth_error_in_range m i) as [s0 Hs0]; [rewrite (Forall2_length_eq _ _ _ A6); eapply nth_error_lt; eauto|]. destruct (F2_at _ _ _ _ _ _ A6 Hs0 Hi) as (_ & _ & K & _). destruct (Z.eqb (s_host s0) (-1)); [contradiction|]. destruct K as (h & Hh & K). exists h. split; [eapply nth_error_In; exact Hh|exact K].
          - rewrite Forall_forall in A7. destruct (A7 o A4) as (_ & _ & h & Hh & K). eauto. }
        split.
        2:{ intros HI TG. split.
            - intros s pt Hs Hpt HNs (Hne & u & Hu & Hhu & HH) q Hq. apply in_map2 in Hs as (s0 & Hs & ->). apply in_map2 in Hu as (u0 & Hu & ->). cbn in Hpt, HNs, Hne, Hhu, Hq.
              destruct (Hof s0 Hs) as (r & m & hs & out & A1 & A2 & A3 & A4 & A5). destruct (Hof u0 Hu) as (r' & m' & hs' & out' & A1' & A2' & A3' & A4' & A5').
              assert (Er : r = r'). { destruct (A5 Hne) as (h & Hh & Eh1). destruct (A5' ltac:(congruence)) as (h' & Hh' & Eh2). eapply (nodup_concat_same (fun h => g_halo_id g (snd h))); [exact (HNi TG)|exact A2|exact A2'|exact Hh|exact Hh'|congruence]. }
              subst r'. assert (out' = out) by congruence. subst out'. destruct (Hfin r m hs out A1 A2 A3) as (_ & _ & _ & _ & HLd). specialize (HLd HI (HNr r hs TG A2)).
              destruct (HLd s0 pt A4 Hpt HNs) with (q := q) as (_ & v & Hv & HV'); [split; [exact Hne|]; exists u0; split; [exact A4'|split; [exact Hhu|exact HH]]|exact Hq|].
              split; [exact Hne|]. exists (duplicate v). split; [apply map2_in; apply in_concat; exists out; split; [eapply nth_error_In; exact A3|exact Hv]|exact HV'].
            - intros Hon s Hs. apply in_map2 in Hs as (s0 & Hs & ->). destruct (Hof s0 Hs) as (r & m & hs & out & A1 & A2 & A3 & A4 & _). destruct (Hfin r m hs out A1 A2 A3) as (_ & _ & _ & HOn & _).
              assert (HF : Forall (fun s => NoDup (part_ids s)) out); [|rewrite Forall_forall in HF; exact (HF s0 A4)]. apply HOn; [exact HI|]. destruct TG as [TG1 TG2]. split; apply Forall_forall.
              + intros m0 Hm0. destruct (Hfrom m0) as (z & Hz & Ed); [apply in_concat; exists m; split; [eapply nth_error_In; eauto|exact Hm0]|]. destruct (Hfields m0 z Ed) as (F1 & _). unfold part_ids. rewrite F1. apply remaining_nodup. exact (Hon z Hz).
              + intros h Hh. apply Hh4; [exact TG2|]. apply in_concat. exists hs. split; [eapply nth_error_In; eauto|exact Hh]. }
        intros HI TG Hprep. assert (HNi' := HNi TG). assert (HNr' := fun r hs => HNr r hs TG). destruct TG as [TG1 TG2]. clear HNi HNr. rename HNi' into HNi.
        assert (Hrank : forall r m hs out, nth_error moved r = Some m -> nth_error halos r = Some hs -> nth_error final r = Some out -> Forall (owned_g g) out /\ separate (g_merge g) snap out).
        { intros r m hs out Hmr Hhs Hout. destruct (Hfin r m hs out Hmr Hhs Hout) as (_ & _ & HO & _). apply HO; [exact HI| |].
          - split; apply Forall_forall.
            + intros m0 Hm0. destruct (Hfrom m0) as (s & Hs & Ed); [apply in_concat; exists m; split; [eapply nth_error_In; eauto|exact Hm0]|]. destruct (Hfields m0 s Ed) as (F1 & _). destruct (Hprep s Hs) as (P1 & P2 & P3).
              assert (Ei : part_ids m0 = part_ids s) by (unfold part_ids; rewrite F1; apply remaining_all; exact P3). split; [|rewrite Ei; exact P2].
              apply (f_equal s_nbound) in Ed. cbn in Ed. unfold compact in *. intros Hle. apply (f_equal (@length _)) in Ei. unfold part_ids in Ei. rewrite !map_length in Ei. rewrite Ei. apply P1. rewrite Ed in Hle. revert Hle.
              assert (EL : length (flat_map (fun id => match record_of (map sp_parts sps) id with Some x => [x] | None => [] end) (firstn (s_nbound s) (ids_of s))) = s_nbound s).
              { assert (Hlen : length (firstn (s_nbound s) (ids_of s)) = s_nbound s). { rewrite firstn_length. unfold ids_of. rewrite map_length. apply in_concat in Hs as (cc & Hcc & Hs). specialize (S3 cc s Hcc Hs). lia. }
                rewrite <- Hlen at 2. assert (Hev' : forall id, In id (firstn (s_nbound s) (ids_of s)) -> now g snap id <> None). { intros id Hid. assert (Hid' : In id (ids_of s)) by (rewrite <- (firstn_skipn (s_nbound s)); apply in_or_app; left; exact Hid). clear Hid. rename Hid' into Hid. unfold ids_of in Hid. apply in_map_iff in Hid as (p & <- & Hp). apply P3. exact Hp. }
                clear -Hev' HR. induction (firstn (s_nbound s) (ids_of s)) as [|id l IH]; [reflexivity|]. cbn [flat_map length]. rewrite app_length, IH by (intros x Hx; apply Hev'; right; exact Hx). rewrite (now_record g W snap sps ranges HR).
                destruct (now g snap id) eqn:En; [reflexivity|]. exfalso. apply (Hev' id); [left; reflexivity|exact En]. }
              rewrite EL. auto.
            + intros h Hh. apply Hh4; [exact TG2|]. apply in_concat. exists hs. split; [eapply nth_error_In; eauto|exact Hh].
          - eapply NoDup_concat_part; [|eapply nth_error_In; exact Hhs]. exact HNi. }
        split.
        * apply Forall_forall. intros o Ho. apply in_map2 in Ho as (o0 & Ho0 & ->). destruct (Hof o0 Ho0) as (r & m & hs & out & A1 & A2 & A3 & A4 & _). destruct (Hrank r m hs out A1 A2 A3) as [HO _]. rewrite Forall_forall in HO. destruct (HO o0 A4) as [[O1 O2 O3] O4]. split; [split; assumption|exact O4].
        * intros s u Hs Hu Hne Eho Hh0 B1 B2 HF id. apply in_map2 in Hs as (s0 & Hs & ->). apply in_map2 in Hu as (u0 & Hu & ->). cbn in Hne, Eho, Hh0, B1, B2.
          destruct (Hof s0 Hs) as (r & m & hs & out & A1 & A2 & A3 & A4 & A5). destruct (Hof u0 Hu) as (r' & m' & hs' & out' & A1' & A2' & A3' & A4' & A5').
          assert (Er : r = r'). { destruct (A5 Hh0) as (h & Hh & Eh1). destruct (A5' ltac:(congruence)) as (h' & Hh' & Eh2). eapply (nodup_concat_same (fun h => g_halo_id g (snd h))); [exact HNi|exact A2|exact A2'|exact Hh|exact Hh'|congruence]. }
          subst r'. assert (out' = out) by congruence. subst out'. destruct (Hrank r m hs out A1 A2 A3) as [_ HSep]. apply (HSep s0 u0 A4 A4' Hne Eho Hh0 B1 B2).
          assert (Hrc : forall x, receives snap out x -> receives snap (concat (map (map duplicate) final)) (duplicate x)).
          { intros x (d & Hd & D). exists (duplicate d). split; [apply map2_in; apply in_concat; exists out; split; [eapply nth_error_In; eauto|exact Hd]|exact D]. }
          intros HM. destruct (HF HM) as [HF1 HF2]. split; intros HX; [apply HF1|apply HF2]; apply Hrc; exact HX.
  Qed.

  (** ** The loop *)
  Lemma loop_ok n : forall start cat, (0 <= start)%Z -> state (start - 1) cat -> (forall snap, (start <= snap < start + Z.of_nat n)%Z -> valid_snapshot g W snap) ->
    (0 < n -> forall s p, In s (concat cat) -> In p (s_parts s) -> within g start (fst p)) ->
    (forall snap p, (start <= snap < start + Z.of_nat n - 1)%Z -> In p (particles g snap) -> within g (snap + 1) (fst p)) ->
    exists cs raw : nat -> catalogue, (forall d, exists d', loop n start (tt, d, cat) = Done (tt, d', cs n) /\
        (forall k, k < n -> stored (start + Z.of_nat k) (raw k) d') /\
        (forall s j, ~ (start <= s < start + Z.of_nat n)%Z -> d_sub d' s j = d_sub d s j /\ d_src d' s j = d_src d s j)) /\
      (forall k, k < n -> length (raw k) = W /\ cs (Datatypes.S k) = map (map duplicate) (raw k)) /\
      cs 0 = cat /\ state (start + Z.of_nat n - 1) (cs n) /\
      forall k, k < n -> state (start + Z.of_nat k) (cs (Datatypes.S k)) /\ sound g W (start + Z.of_nat k) (cs (Datatypes.S k)) /\ evolves g (start + Z.of_nat k) (cs k) (cs (Datatypes.S k)) /\
        (g_inclusive g = false -> tidy_groups g (start + Z.of_nat k) -> prepared (start + Z.of_nat k) (cs k) -> settled (start + Z.of_nat k) (cs (Datatypes.S k))) /\
        (g_inclusive g = true -> inclusive_ok (start + Z.of_nat k) (cs k) (cs (Datatypes.S k))).
  Proof.
    induction n as [|n IH]; intros start cat H0 Hst Hv Hw Hnx.
    - exists (fun _ => cat), (fun _ => cat). split; [|split; [intros; lia|split; [reflexivity|split; [rewrite Z.add_0_r; exact Hst|intros; lia]]]]. intros d. exists d. split; [reflexivity|]. split; [intros; lia|intros; split; reflexivity].
    - destruct (one_ok start cat H0 (Hv start ltac:(lia)) Hst (Hw ltac:(lia))) as (c & C1 & C2 & C3 & C4 & C5 & C6 & C7 & C8).
      destruct (IH (start + 1)%Z (map (map duplicate) c)) as (cs & raw & I1 & I0 & I2 & I3 & I4).
      + lia.
      + replace (start + 1 - 1)%Z with start by lia. exact C4.
      + intros snap Hs. apply Hv. lia.
      + intros Hn s p Hs Hp. apply Hnx; [lia|]. eapply (sd_particles _ _ _ _ C5); eauto.
      + intros snap p Hs. apply Hnx. lia.
      + exists (fun k => match k with O => cat | Datatypes.S k' => cs k' end), (fun k => match k with O => c | Datatypes.S k' => raw k' end). split; [|split; [|split; [reflexivity|split]]].
        * intros d. destruct (C1 d cat (alike_refl cat)) as (d1 & E1 & E2 & E3). destruct (I1 d1) as (d2 & F1 & F2 & F3). exists d2. split; [|split].
          -- unfold loop in *. cbn [main_loop]. unfold one in E1. rewrite E1. cbn [rbind]. exact F1.
          -- intros [|k] Hk.
             ++ rewrite Z.add_0_r. destruct E2 as [_ E2]. split; [intros; split; reflexivity|]. intros k subs Hk'. destruct (E2 k subs Hk') as [G1 G2]. destruct (F3 start (0 + k) ltac:(lia)) as [G3 G4]. rewrite G3, G4. auto.
             ++ replace (start + Z.of_nat (Datatypes.S k))%Z with (start + 1 + Z.of_nat k)%Z by lia. apply F2. lia.
          -- intros s j Hs. destruct (F3 s j ltac:(lia)) as [G1 G2]. destruct (E3 s j ltac:(lia)) as [G3 G4]. rewrite G1, G2. auto.
        * intros [|k] Hk; [split; [exact C2|exact I2]|apply I0; lia].
        * replace (start + Z.of_nat (Datatypes.S n) - 1)%Z with (start + 1 + Z.of_nat n - 1)%Z by lia. exact I3.
        * intros [|k] Hk; [rewrite Z.add_0_r, I2; auto|]. replace (start + Z.of_nat (Datatypes.S k))%Z with (start + 1 + Z.of_nat k)%Z by lia. apply I4. lia.
  Qed.

  Lemma loop_split n : forall m snap st, loop (n + m) snap st = rbind (loop n snap st) (loop m (snap + Z.of_nat n)).
  Proof using g.
    clear HW W. unfold loop. induction n as [|n IH]; intros m snap st; cbn [Nat.add main_loop rbind]; [rewrite Z.add_0_r; reflexivity|].
    destruct (one_snapshot _ _ _ _ _ _ _ _ _ _ snap st) as [st1| |]; cbn [rbind]; [|reflexivity|reflexivity]. rewrite IH. replace (snap + 1 + Z.of_nat n)%Z with (snap + Z.of_nat (Datatypes.S n))%Z by lia. reflexivity.
  Qed.
  Lemma state_empty snap : state snap (repeat [] W).
  Proof.
    assert (E0 : forall W, concat (repeat (@nil subhalo) W) = []) by (intros w; induction w; [reflexivity|assumption]).
    constructor; try (rewrite E0; intros s []). - apply repeat_length. - exists (repeat [] W). split; [constructor|reflexivity]. - intros c s Hc Hs. apply repeat_spec in Hc. subst c. destruct Hs.
  Qed.

  Lemma stored_load snap c d dep W' : length c = W -> 1 <= W' -> (g_min_snapshot g <= snap)%Z -> stored snap c d ->
    exists out, load (g_snapid g) (g_junk g) (g_min_snapshot g) d snap dep W' = Loaded out /\ length out = W' /\
      Forall2 (fun s s' => same_but_particles (match dep with SubTable => [] | SubParticles => firstn (s_nbound s) (ids_of s) | SrcParticles => ids_of s end) s s') (concat (map (map duplicate) c)) (concat out).
  Proof.
    intros HL HW' Hm HH. destruct (load_eq nothing (g_mbid g) (g_snapid g) (g_junk g) (g_min_snapshot g) dep snap d d c W' HW' ltac:(lia) Hm HH) as (ivs & out & _ & EL & _ & HLo & EC).
    exists out. split; [exact EL|]. split; [exact HLo|]. rewrite EC. pose proof (files_same nothing (g_mbid g) (g_snapid g) (g_junk g) (g_min_snapshot g) dep c 0) as HF. cbn [Nat.add] in HF.
    assert (G : forall l l' : list subhalo, Forall2 (fun s s' => same_but_particles (wanted dep s) (duplicate s) s') l l' ->
      Forall2 (fun s s' => same_but_particles (match dep with SubTable => [] | SubParticles => firstn (s_nbound s) (ids_of s) | SrcParticles => ids_of s end) s s') (map duplicate l) l').
    { intros l l'. induction 1 as [|s s' l l' Hs Hl IH]; cbn [map]; constructor; [|exact IH]. destruct dep, s; exact Hs. }
    rewrite <- concat_map. apply G. exact HF.
  Qed.
  Lemma stored_alike snap c d : length c = W -> (g_min_snapshot g <= snap)%Z -> stored snap c d ->
    exists out, load (g_snapid g) (g_junk g) (g_min_snapshot g) d snap SrcParticles W = Loaded out /\ alike (map (map duplicate) c) out.
  Proof.
    intros HL Hm HH. eexists. split; [rewrite <- HL at 1; apply (load_same_ranks nothing (g_mbid g) (g_snapid g) (g_junk g) (g_min_snapshot g) SrcParticles snap d d c ltac:(lia) Hm HH)|].
    pose proof (ranks_same nothing (g_mbid g) (g_snapid g) (g_junk g) (g_min_snapshot g) SrcParticles c) as HR. cbn [wanted] in HR. revert HR. generalize (map (file_subs nothing (g_mbid g) (g_junk g) SrcParticles c) (seq 0 (length c))). clear. intros out HR.
    induction HR as [|x y r r' Hc Hr IH]; cbn [map]; constructor; [|exact IH]. clear -Hc. induction Hc as [|s s' l l' Hs Hl IH]; cbn [map]; constructor; [|exact IH]. destruct s; exact Hs.
  Qed.
End Loop.
