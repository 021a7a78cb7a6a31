(** A run restarted from a saved catalogue continues like the uninterrupted one. *)
From Coq Require Import List ZArith Bool Lia Sorting.Sorted Sorting.Permutation.
From Verif.Spec Require Import Basic Catalogue Query Exchange.
From Verif.Model Require Import Run ListMem Mpi Mymath Hash Subhalo ParticleExchange Catalogue.
From Verif.Proofs Require Import MpiProofs HostProofs RestoreProofs QueryProofs3 CatalogueProofs.
Import ListNotations.
Local Open Scope nat_scope.

Section P.
  Context {X R : Type}.
  Variable null : Z.
  Variable mbid : Z -> R -> R.
  Variable snapid : Z -> Z.
  Variable junk : nat -> nat -> nat -> X.
  Variable min_snapshot : Z.
  Local Notation subhalo := (sub X R).
  Local Notation duplicate := (duplicate (X := X) null mbid).
  Variable chunk : nat.
  Variable sort_local : list (Z * X * nat) -> list (Z * X * nat).
  Variable sort_roam : list (Z * (X * nat)) -> list (Z * (X * nat)).
  Variable ranges : Z -> list Z.
  Variable snaps : Z -> list (snap_proc X).
  Variable derive : subhalo -> subhalo.
  Context {H : Type}.
  Variable rest : Z -> H -> list (list subhalo) -> run (H * list (list subhalo)).

  (** ** The update sees only the ids *)
  Lemma kept_records (parts : list (list (Z * X))) l : ~ In null (map fst (concat parts)) ->
    filter (keep null) (map (refreshed null parts) l) = flat_map (fun id => match record_of parts id with Some s => [s] | None => [] end) (map fst l).
  Proof.
    intros Hn. induction l as [|p l IH]; [reflexivity|]. cbn [map filter flat_map]. rewrite IH. unfold refreshed at 1 2, record_of.
    destruct (find _ (concat parts)) as [s|] eqn:E.
    - unfold keep at 1. apply find_some in E as [E1 E2]. destruct (Z.eqb_spec (fst s) null) as [Es|Es]; [|reflexivity].
      exfalso. apply Hn. rewrite <- Es. apply in_map. exact E1.
    - unfold keep at 1. cbn. rewrite Z.eqb_refl. reflexivity.
  Qed.
  Definition renewed (parts : list (list (Z * X))) (s : subhalo) : subhalo :=
    let rec := flat_map (fun id => match record_of parts id with Some x => [x] | None => [] end) in
    derive (set_nbound (length (rec (firstn (s_nbound s) (ids_of s)))) (set_parts (rec (ids_of s)) s)).
  Lemma refresh_eq parts s : ~ In null (map fst (concat parts)) -> s_nbound s <= length (s_parts s) ->
    refresh_sub null derive s (map (refreshed null parts) (s_parts s)) = Some (renewed parts s).
  Proof.
    intros Hn Hb. unfold refresh_sub. rewrite sub_kick_correct by (rewrite map_length; exact Hb). rewrite kept_records by exact Hn.
    rewrite firstn_map, kept_records by exact Hn. rewrite <- firstn_map. reflexivity.
  Qed.
  Lemma renewed_same parts s s' : same_but_particles (ids_of s) s s' -> renewed parts s' = renewed parts s.
  Proof.
    intros [E1 E2]. unfold renewed. fold (ids_of s') in E2. rewrite E2. clear E2. destruct s, s'. cbn in E1. inversion E1. subst. reflexivity.
  Qed.

  Local Notation readable := (readable null ranges snaps).
  Hypothesis Hnull : (null < 0)%Z.
  Hypothesis Hchunk : 1 <= chunk.
  Hypothesis Hsl1 : forall l, Permutation (sort_local l) l.
  Hypothesis Hsl2 : forall l, StronglySorted Z.le (map (fun p => fst (fst p)) (sort_local l)).
  Hypothesis Hsr1 : forall l, Permutation (sort_roam l) l.
  Hypothesis Hsr2 : forall l, StronglySorted Z.le (map fst (sort_roam l)).

  Lemma update_eq snap cat : readable snap cat -> bound_inside cat ->
    update_particles null chunk sort_local sort_roam ranges snaps derive snap cat = Done (map (map (renewed (map sp_parts (snaps snap)))) cat).
  Proof.
    intros (HL & Hloc & HU & HT & Hn & lo & hi & Hlo & Hhi & Hids) Hb. unfold update_particles.
    rewrite (exchange_correct_above null Hnull chunk Hchunk sort_local Hsl1 Hsl2 sort_roam Hsr1 Hsr2 (ranges snap) (snaps snap) (map (map s_parts) cat)
      ltac:(rewrite map_length; exact HL) Hloc HU HT lo Hlo).
    - cbn [rbind]. rewrite (mapM_some _ (fun cn => map (renewed (map sp_parts (snaps snap))) (fst cn))).
      + cbn [of_opt]. f_equal. clear. induction cat as [|c r IH]; [reflexivity|]. cbn. rewrite IH. reflexivity.
      + intros [c n] Hin. cbn [fst snd]. assert (Hc : In c cat) by (apply in_combine_l in Hin; exact Hin).
        assert (En : n = map (fun s => map (refreshed null (map sp_parts (snaps snap))) (s_parts s)) c).
        { rewrite map_map in Hin. clear -Hin Hids. induction cat as [|c0 r IH]; [destruct Hin|]. cbn [map combine] in Hin. destruct Hin as [E|Hin].
          - injection E as <- <-. rewrite map_map. apply map_ext_in. intros s Hs. apply map_ext_in. intros p Hp. unfold refreshed_above.
            destruct (Z.ltb_spec (fst p) lo) as [Hl|]; [|reflexivity]. specialize (Hids c0 s (fst p) (or_introl eq_refl) Hs ltac:(apply in_map; exact Hp)). lia.
          - apply IH; [|exact Hin]. intros c' s id Hc'. apply Hids. right. exact Hc'. }
        rewrite En. assert (Hcs : forall s, In s c -> s_nbound s <= length (s_parts s)) by (intros s; apply Hb; exact Hc). clear -Hn Hcs.
        induction c as [|s r IH]; [reflexivity|]. cbn [map combine mapM fst snd]. rewrite refresh_eq by (try exact Hn; apply Hcs; left; reflexivity).
        rewrite IH by (intros t Ht; apply Hcs; right; exact Ht). reflexivity.
    - intros h l p hi' Hh Hl Hp Hhi'. rewrite map_length in Hhi'. assert (hi' = hi) by congruence. apply in_map_iff in Hh as (c & <- & Hc). apply in_map_iff in Hl as (s & <- & Hs).
      specialize (Hids c s (fst p) Hc Hs ltac:(apply in_map; exact Hp)). lia.
  Qed.

  (** ** Disks *)
  Definition same_files (d d' : disk X R) (s : Z) (j : nat) : Prop := d_sub d s j = d_sub d' s j /\ d_src d s j = d_src d' s j.

  Lemma save_from_rel snap nf tot cat : forall d d' i,
    match save_from null mbid snapid d snap i nf tot cat, save_from null mbid snapid d' snap i nf tot cat with
    | Some (e, c), Some (e', c') => c = map (map duplicate) cat /\ c' = c /\
        forall s j, same_files d d' s j \/ (s = snap /\ i <= j < i + length cat) -> same_files e e' s j
    | None, None => True
    | _, _ => False
    end.
  Proof.
    induction cat as [|subs r IH]; intros d d' i; cbn [save_from].
    - split; [reflexivity|split; [reflexivity|]]. intros s j [G|G]; [exact G|cbn in G; lia].
    - unfold write_file. destruct (fill_buffer subs 0 []) as [ps b]. destruct (mapM _ (combine subs ps)) as [bd|]; [|exact I]. destruct (mapM _ (combine subs ps)) as [al|]; [|exact I].
      set (F := mksubfile _ _ _ _ _ _). set (G := mksrcfile _ _).
      specialize (IH (mkdisk (put (d_sub d) snap i F) (put (d_src d) snap i G)) (mkdisk (put (d_sub d') snap i F) (put (d_src d') snap i G)) (S i)).
      destruct (save_from _ _ _ _ _ _ _ _ _) as [[e c]|], (save_from _ _ _ (mkdisk (put (d_sub d') snap i F) _) _ _ _ _ _) as [[e' c']|]; try exact IH.
      destruct IH as (-> & -> & IH). split; [reflexivity|split; [reflexivity|]]. intros s j Hs. apply IH. cbn [length] in Hs.
      destruct (Z.eq_dec s snap) as [Es|Es]; [destruct (Nat.eq_dec j i) as [Ej|Ej]|].
      + left. subst. unfold same_files. cbn [d_sub d_src]. rewrite !put_same. split; reflexivity.
      + destruct Hs as [Hs|Hs]; [left|right; lia]. unfold same_files. cbn [d_sub d_src]. rewrite !put_other by lia. exact Hs.
      + destruct Hs as [Hs|Hs]; [left|lia]. unfold same_files. cbn [d_sub d_src]. rewrite !put_other by lia. exact Hs.
  Qed.
  Lemma save_result d snap cat e c : save null mbid snapid d snap cat = Some (e, c) -> c = map (map duplicate) cat.
  Proof. intros E. pose proof (save_from_rel snap (length cat) (nsum (map (@length _) cat)) cat d d 0) as G. unfold save in E. rewrite E in G. apply G. Qed.

  (** ** The loop *)
  Hypothesis rest_hidden : forall snap h h' c, same_outcome (fun a b => snd a = snd b) (rest snap h c) (rest snap h' c).
  Hypothesis rest_ranks : forall snap h c h' c', length (snaps snap) = length c -> rest snap h c = Done (h', c') -> length c' = length c.
  Local Notation update := (update_particles null chunk sort_local sort_roam ranges snaps derive).
  Local Notation one := (one_snapshot null mbid snapid chunk sort_local sort_roam ranges snaps derive rest).
  Local Notation loop := (main_loop null mbid snapid chunk sort_local sort_roam ranges snaps derive rest).

  Definition related (W : nat) (A : Z -> nat -> Prop) (st st' : H * disk X R * list (list subhalo)) : Prop :=
    snd st = snd st' /\ length (snd st) = W /\ forall s j, A s j -> same_files (snd (fst st)) (snd (fst st')) s j.

  Lemma mapR_length {A B} (f : A -> run B) l : forall l', mapR f l = Done l' -> length l' = length l.
  Proof. induction l as [|x r IH]; intros l' E; cbn in E; [injection E as <-; reflexivity|]. destruct (f x); try discriminate. destruct (mapR f r) as [t| |]; try discriminate. injection E as <-. cbn. rewrite (IH t); reflexivity. Qed.
  Lemma a2a_round_length {A} k (sts sts' : list (a2a A)) : a2a_round k sts = Some sts' -> length sts' = length sts.
  Proof.
    unfold a2a_round. destruct (mapM pack_rank _) as [s1|] eqn:E1; [|discriminate]. intros E2. apply mapM_length in E1, E2. rewrite map_length in E1.
    rewrite combine_length, seq_length in E2. lia.
  Qed.
  Lemma for_range_length {A} (f : nat -> list A -> option (list A)) : (forall k l l', f k l = Some l' -> length l' = length l) ->
    forall n i l l', for_range i n f l = Some l' -> length l' = length l.
  Proof. intros Hf n. induction n as [|n IH]; intros i l l' E; cbn in E; [injection E as <-; reflexivity|]. destruct (f i l) as [l1|] eqn:E1; [|discriminate]. rewrite (IH _ _ _ E). eapply Hf; exact E1. Qed.
  Lemma a2a_length {A} c (data : list (list (list A))) counts outs : length counts = length data -> my_all_to_all c data counts = Some outs -> length outs = length data.
  Proof.
    intros HL. unfold my_all_to_all. destruct (Nat.eqb _ 0); [intros E; injection E as <-; apply map_length|].
    destruct (for_range _ _ _ _) as [sts|] eqn:E; [|discriminate]. intros G. injection G as <-. apply (for_range_length _ a2a_round_length) in E.
    rewrite map_length, E, map_length, combine_length. lia.
  Qed.
  Lemma ranks_fixed snap cat c1 : length (snaps snap) = length cat -> update snap cat = Done c1 -> length c1 = length cat.
  Proof.
    intros HL. unfold update_particles. destruct (exchange _ _ _ _ _ _ _) as [new| |] eqn:EX; try discriminate. cbn [rbind]. destruct (mapM _ _) as [c|] eqn:E; [|discriminate].
    cbn. intros G. injection G as <-. apply mapM_length in E. rewrite E, combine_length. unfold exchange in EX.
    destruct (mapR _ (map (map s_parts) cat)) as [prep| |] eqn:E1; try discriminate. apply mapR_length in E1. rewrite map_length in E1.
    destruct (my_all_to_all _ _ _) as [got|] eqn:E2; try discriminate. apply a2a_length in E2; [|rewrite !map_length; reflexivity]. rewrite map_length in E2.
    destruct (mapR _ (combine (snaps snap) got)) as [ans| |] eqn:E3; try discriminate. apply mapR_length in E3. rewrite combine_length in E3.
    destruct (my_all_to_all _ _ (map _ got)) as [back|] eqn:E4; try discriminate. apply a2a_length in E4; [|rewrite !map_length, combine_length, map_length; lia].
    rewrite map_length, combine_length, map_length in E4. apply mapR_length in EX. rewrite !combine_length, map_length in EX. lia.
  Qed.

  (** After the update. *)
  Definition proceed (snap : Z) (h : H) (d : disk X R) (u : run (list (list subhalo))) : run (H * disk X R * list (list subhalo)) :=
    rbind u (fun c1 => rbind (rest snap h c1) (fun hc => match save null mbid snapid d snap (snd hc) with Some (d', c2) => Done (fst hc, d', c2) | None => Crash end)).
  Lemma one_proceed snap h d cat : one snap (h, d, cat) = proceed snap h d (update snap cat).
  Proof. reflexivity. Qed.
  Lemma proceed_rel W (A : Z -> nat -> Prop) snap h h' d d' u : length (snaps snap) = W -> (forall c, u = Done c -> length c = W) -> (forall s j, A s j -> same_files d d' s j) ->
    same_outcome (related W (fun s j => A s j \/ (s = snap /\ j < W))) (proceed snap h d u) (proceed snap h' d' u).
  Proof.
    intros HSN HW HA. unfold proceed. destruct u as [c1| |]; cbn [rbind]; [|exact I|exact I]. specialize (HW c1 eq_refl).
    pose proof (rest_hidden snap h h' c1) as HR. pose proof (fun h' c' => rest_ranks snap h c1 h' c' ltac:(lia)) as HK.
    destruct (rest snap h c1) as [[h1 c2]| |], (rest snap h' c1) as [[h1' c2']| |]; cbn in HR; try destruct HR; cbn [rbind fst snd]; try exact I.
    specialize (HK h1 c2 eq_refl). pose proof (save_from_rel snap (length c2) (nsum (map (@length _) c2)) c2 d d' 0) as HS. unfold save.
    destruct (save_from _ _ _ d _ _ _ _ _) as [[e c]|], (save_from _ _ _ d' _ _ _ _ _) as [[e' c']|]; cbn; try (exact HS || exact I).
    destruct HS as (E1 & -> & HS). split; [reflexivity|]. cbn [snd fst]. split; [rewrite E1, map_length; lia|].
    intros s j [Hs|Hs]; apply HS; [left; apply HA; exact Hs|right; lia].
  Qed.
  Lemma loop_rel W m : forall A snap st st', (forall s, (snap <= s < snap + Z.of_nat m)%Z -> length (snaps s) = W) -> related W A st st' ->
    same_outcome (related W (fun s j => A s j \/ ((snap <= s < snap + Z.of_nat m)%Z /\ j < W))) (loop m snap st) (loop m snap st').
  Proof.
    induction m as [|m IH]; intros A snap st st' HSN HR; cbn [main_loop].
    - destruct HR as (E & EW & HR). split; [exact E|split; [exact EW|]]. intros s j [Hs|Hs]; [apply HR; exact Hs|lia].
    - destruct st as [[h d] c], st' as [[h' d'] c']. destruct HR as (E & EW & HR). cbn [fst snd] in *. subst c'.
      rewrite !one_proceed. pose proof (proceed_rel W A snap h h' d d' (update snap c) ltac:(apply HSN; lia) ltac:(intros c1 E1; rewrite (ranks_fixed snap c c1 ltac:(rewrite HSN by lia; symmetry; exact EW) E1); exact EW) HR) as HP.
      destruct (proceed snap h d (update snap c)) as [st1| |], (proceed snap h' d' (update snap c)) as [st1'| |]; cbn in HP; try destruct HP as []; cbn [rbind]; try exact I.
      specialize (IH (fun s j => A s j \/ (s = snap /\ j < W)) (snap + 1)%Z st1 st1' ltac:(intros; apply HSN; lia) ltac:(split; assumption)).
      destruct (loop m (snap + 1) st1) as [a| |], (loop m (snap + 1) st1') as [b| |]; cbn in IH |- *; try exact IH.
      destruct IH as (E1 & E2 & E3). split; [exact E1|split; [exact E2|]]. intros s j Hs. apply E3.
      destruct Hs as [Hs|[Hs Hj]]; [left; left; exact Hs|]. destruct (Z.eq_dec s snap) as [->|]; [left; right; split; [reflexivity|exact Hj]|right; split; [lia|exact Hj]].
  Qed.
  Lemma loop_app n : forall m snap st, loop (n + m) snap st = rbind (loop n snap st) (loop m (snap + Z.of_nat n)).
  Proof.
    induction n as [|n IH]; intros m snap st; cbn [Nat.add main_loop rbind]; [rewrite Z.add_0_r; reflexivity|].
    destruct (one snap st) as [st1| |]; cbn [rbind]; [|reflexivity|reflexivity]. rewrite IH. replace (snap + 1 + Z.of_nat n)%Z with (snap + Z.of_nat (S n))%Z by lia. reflexivity.
  Qed.

  (** The catalogue and the files after one snapshot. *)
  Lemma one_saved snap st h d cat : one snap st = Done (h, d, cat) -> exists d0 c, save null mbid snapid d0 snap c = Some (d, cat).
  Proof.
    destruct st as [[h0 d0] c0]. rewrite one_proceed. unfold proceed. destruct (update snap c0) as [c1| |]; try discriminate. cbn [rbind].
    destruct (rest snap h0 c1) as [[h1 c2]| |]; try discriminate. cbn [rbind fst snd]. destruct (save _ _ _ _ _ c2) as [[d2 c3]|] eqn:E; try discriminate.
    intros G. injection G as <- <- <-. eauto.
  Qed.
  Lemma loop_saved n snap st h d cat : loop (S n) snap st = Done (h, d, cat) -> exists d0 c, save null mbid snapid d0 (snap + Z.of_nat n) c = Some (d, cat).
  Proof.
    replace (S n) with (n + 1) by lia. rewrite loop_app. destruct (loop n snap st) as [st1| |]; try discriminate. cbn [rbind main_loop].
    destruct (one _ st1) as [[[h2 d2] c2]| |] eqn:E; try discriminate. cbn. intros G. injection G as <- <- <-. eapply one_saved; exact E.
  Qed.

  Lemma renewed_all parts cat cat' : Forall2 (Forall2 (fun s s' => same_but_particles (ids_of s) (duplicate s) s')) cat cat' ->
    map (map (renewed parts)) cat' = map (map (renewed parts)) (map (map duplicate) cat).
  Proof.
    induction 1 as [|c c' r r' Hc Hr IH]; [reflexivity|]. cbn [map]. rewrite IH. f_equal. clear -Hc. induction Hc as [|s s' l l' Hs Hl IH]; [reflexivity|]. cbn [map].
    rewrite IH. f_equal. apply renewed_same. exact Hs.
  Qed.
  Lemma reloaded_meta cat cat' : Forall2 (Forall2 (fun s s' => same_but_particles (ids_of s) (duplicate s) s')) cat cat' ->
    length cat' = length cat /\ (bound_inside (map (map duplicate) cat) -> bound_inside cat') /\
    (forall c s id, In c cat' -> In s c -> In id (ids_of s) -> exists c0 s0, In c0 (map (map duplicate) cat) /\ In s0 c0 /\ In id (ids_of s0)).
  Proof.
    induction 1 as [|c c' r r' Hc Hr IH]; [split; [reflexivity|split; [intros _ c s []|intros c s id []]]|]. destruct IH as (I1 & I2 & I3). cbn [length map]. split; [lia|split].
    - intros Hb x s [<-|Hx] Hs; [|apply (I2 (fun a b Ha => Hb a b (or_intror Ha)) x s Hx Hs)].
      assert (Hb' : forall t, In t (map duplicate c) -> s_nbound t <= length (s_parts t)) by (intros t; apply Hb; left; reflexivity).
      clear -Hc Hb' Hs. induction Hc as [|t t' l l' Ht Hl IH]; [destruct Hs|]. destruct Hs as [<-|Hs]; [|apply IH; [exact Hs|intros u Hu; apply Hb'; right; exact Hu]].
      destruct Ht as [E1 E2]. specialize (Hb' _ (or_introl eq_refl)). apply (f_equal (@length _)) in E2. unfold ids_of in E2. rewrite !map_length in E2.
      rewrite E1 at 1. destruct t; cbn in *. lia.
    - intros x s id [<-|Hx] Hs Hid; [|destruct (I3 x s id Hx Hs Hid) as (c0 & s0 & G1 & G2 & G3); exists c0, s0; split; [right; exact G1|split; assumption]].
      exists (map duplicate c). clear -Hc Hs Hid. induction Hc as [|t t' l l' Ht Hl IH]; [destruct Hs|]. destruct Hs as [<-|Hs].
      + exists (duplicate t). split; [left; reflexivity|]. split; [left; reflexivity|]. destruct Ht as [_ E2]. unfold ids_of in *. rewrite E2 in Hid. exact Hid.
      + destruct (IH Hs) as (s0 & _ & G2 & G3). exists s0. split; [left; reflexivity|]. split; [right; exact G2|exact G3].
  Qed.

  Lemma restart_correct W n m start h h' d0 dr hb db cat :
    1 <= W -> (forall snap, (start + Z.of_nat n < snap <= start + Z.of_nat n + 1 + Z.of_nat m)%Z -> length (snaps snap) = W) -> (min_snapshot <= start + Z.of_nat n)%Z ->
    program null mbid snapid junk min_snapshot chunk sort_local sort_roam ranges snaps derive rest W (S n) start h d0 = Done (hb, db, cat) ->
    length cat = W -> bound_inside cat -> readable (start + Z.of_nat (S n)) cat ->
    (forall j, j < W -> same_files db dr (start + Z.of_nat n) j) ->
    same_outcome (related W (fun s j => same_files db dr s j \/ ((start + Z.of_nat n < s <= start + Z.of_nat n + 1 + Z.of_nat m)%Z /\ j < W)))
      (program null mbid snapid junk min_snapshot chunk sort_local sort_roam ranges snaps derive rest W (S n + S m) start h d0)
      (program null mbid snapid junk min_snapshot chunk sort_local sort_roam ranges snaps derive rest W (S m) (start + Z.of_nat (S n)) h' dr).
  Proof.
    intros HW HSN Hmin HP HL Hb HR Hdr. unfold program in HP |- * at 1. destruct (load _ _ _ d0 (start - 1) _ W) as [c0| |]; try discriminate.
    rewrite loop_app, HP. cbn [rbind]. destruct (loop_saved _ _ _ _ _ _ HP) as (ds & c & HS). pose proof (save_result _ _ _ _ _ HS) as Ec.
    assert (Hbc : bound_inside c).
    { intros x s Hx Hs. specialize (Hb (map duplicate x) (duplicate s)). rewrite Ec in Hb. specialize (Hb ltac:(apply in_map; exact Hx) ltac:(apply in_map; exact Hs)). destruct s; exact Hb. }
    destruct (save_eq null mbid snapid junk min_snapshot ds (start + Z.of_nat n) c Hbc) as (db' & E & _ & HF). rewrite HS in E. injection E as <- _.
    assert (Lc : length c = W) by (rewrite Ec, map_length in HL; exact HL).
    assert (HH : holds null mbid snapid (start + Z.of_nat n) 0 (length c) (nsum (map (@length _) c)) c dr dr).
    { split; [intros; split; reflexivity|]. intros k subs Hk. destruct (HF k subs Hk) as [G1 G2]. assert (Hk' : k < W) by (rewrite <- Lc; apply nth_error_Some; congruence).
      destruct (Hdr k Hk') as [G3 G4]. cbn [Nat.add] in *. rewrite <- G3, <- G4. split; assumption. }
    unfold program. replace (start + Z.of_nat (S n) - 1)%Z with (start + Z.of_nat n)%Z by lia. pose proof (load_same_ranks null mbid snapid junk min_snapshot SrcParticles _ dr dr c ltac:(lia) Hmin HH) as ELd. rewrite Lc in ELd. rewrite ELd. clear ELd. rewrite <- Lc at 2.
    pose proof (ranks_same null mbid snapid junk min_snapshot SrcParticles c) as HRS. cbn [wanted] in HRS. set (cr := map (file_subs null mbid junk SrcParticles c) (seq 0 (length c))) in *. clearbody cr.
    destruct (reloaded_meta _ _ HRS) as (M1 & M2 & M3). rewrite <- Ec in M2, M3. specialize (M2 Hb).
    set (b1 := (start + Z.of_nat (S n))%Z) in *.
    assert (HR' : readable b1 cr).
    { destruct HR as (R1 & R2 & R3 & R4 & R5 & lo & hi & R6 & R7 & R8). split; [lia|]. do 4 (split; [assumption|]). exists lo, hi. split; [exact R6|split; [rewrite M1, Lc, <- HL; exact R7|]].
      intros x s id Hx Hs Hid. destruct (M3 x s id Hx Hs Hid) as (x0 & s0 & G1 & G2 & G3). eapply R8; eassumption. }
    assert (EU : update b1 cr = update b1 cat) by (rewrite !update_eq by assumption; rewrite Ec; f_equal; apply renewed_all; exact HRS).
    cbn [main_loop]. rewrite !one_proceed, EU.
    pose proof (proceed_rel W (same_files db dr) b1 hb h' db dr (update b1 cat) ltac:(apply HSN; unfold b1; lia) ltac:(intros c1 E1; rewrite (ranks_fixed b1 cat c1 ltac:(rewrite HSN by (unfold b1; lia); symmetry; exact HL) E1); exact HL) ltac:(auto)) as HPR.
    destruct (proceed b1 hb db (update b1 cat)) as [st1| |], (proceed b1 h' dr (update b1 cat)) as [st1'| |]; cbn in HPR; try destruct HPR as []; cbn [rbind]; try exact I.
    pose proof (loop_rel W m (fun s j => same_files db dr s j \/ (s = b1 /\ j < W)) (b1 + 1)%Z st1 st1' ltac:(intros; apply HSN; unfold b1 in *; lia) ltac:(split; assumption)) as HLR.
    destruct (loop m (b1 + 1) st1) as [a| |], (loop m (b1 + 1) st1') as [b| |]; cbn in HLR |- *; try exact HLR.
    destruct HLR as (E1 & E2 & E3). split; [exact E1|split; [exact E2|]]. intros s j Hs. apply E3. destruct Hs as [Hs|[Hs Hj]]; [left; left; exact Hs|].
    destruct (Z.eq_dec s b1) as [->|]; [left; right; split; [reflexivity|exact Hj]|right; split; [lia|exact Hj]].
  Qed.
End P.
