(** Saving and reloading the catalogue. *)
From Coq Require Import List ZArith Bool Lia.
From Verif.Spec Require Import Basic Catalogue.
From Verif.Model Require Import Run ListMem Mpi Mymath Subhalo ParticleExchange Catalogue.
From Verif.Proofs Require Import MymathProofs MpiProofs HostProofs UnbindProofs.
Import ListNotations.
Local Open Scope nat_scope.
Ltac Zify.zify_post_hook ::= idtac.

(** ** Ranges of files *)
Definition files_of (iv : Z * Z) : list nat := map Z.to_nat (map (fun k => (fst iv + Z.of_nat k)%Z) (seq 0 (Z.to_nat (snd iv - fst iv)))).
Lemma files_of_seq b e : (0 <= b <= e)%Z -> files_of (b, e) = seq (Z.to_nat b) (Z.to_nat (e - b)).
Proof.
  intros Hb. unfold files_of. cbn [fst snd]. rewrite map_map. generalize (Z.to_nat (e - b)). intros n.
  rewrite <- (Nat.add_0_r (Z.to_nat b)) at 1. assert (G : forall s, map (fun x => Z.to_nat (b + Z.of_nat x)) (seq s n) = seq (Z.to_nat b + s) n).
  { induction n as [|n IH]; intros s; [reflexivity|]. cbn [seq map]. f_equal; [lia|]. rewrite IH. f_equal. lia. }
  rewrite G. f_equal. 
Qed.
Lemma files_tile ivs : forall lo hi, (0 <= lo)%Z -> tiles lo hi ivs -> concat (map files_of ivs) = seq (Z.to_nat lo) (Z.to_nat (hi - lo)) /\ (lo <= hi)%Z.
Proof.
  induction ivs as [|[a b] r IH]; intros lo hi Hlo Ht; cbn [tiles] in Ht.
  - subst. rewrite Z.sub_diag. split; [reflexivity|lia].
  - destruct Ht as (-> & Hab & Ht). destruct (IH b hi ltac:(lia) Ht) as [E Hle]. split; [|lia]. cbn [map concat]. rewrite files_of_seq by lia. rewrite E.
    replace (Z.to_nat (hi - lo)) with (Z.to_nat (b - lo) + Z.to_nat (hi - b)) by lia. rewrite seq_app. do 2 f_equal. lia.
Qed.
Lemma tiles_inside ivs : forall lo hi iv, (0 <= lo)%Z -> tiles lo hi ivs -> In iv ivs -> (lo <= fst iv <= snd iv /\ snd iv <= hi)%Z.
Proof.
  induction ivs as [|[a b] r IH]; intros lo hi iv Hlo Ht Hin; cbn [tiles] in Ht; [destruct Hin|].
  destruct Ht as (-> & Hab & Ht). pose proof (proj2 (files_tile r b hi ltac:(lia) Ht)). destruct Hin as [<-|Hin]; [cbn; lia|].
  specialize (IH b hi iv ltac:(lia) Ht Hin). lia.
Qed.
Lemma concat_map_concat {A B} (f : A -> list B) (ls : list (list A)) : concat (map (fun l => concat (map f l)) ls) = concat (map f (concat ls)).
Proof. induction ls as [|l r IH]; [reflexivity|]. cbn. rewrite map_app, concat_app, IH. reflexivity. Qed.
Lemma mapM_none_inv {A B} (f : A -> option B) l l' x : mapM f l = Some l' -> In x l -> exists y, f x = Some y.
Proof. intros H Hx. apply In_nth_error in Hx as [i Hi]. destruct (mapM_nth _ _ _ _ _ H Hi) as (y & Hy & _). eauto. Qed.
Lemma map_seq_shift {A} (f : nat -> A) n : forall s, map f (seq (S s) n) = map (fun k => f (S k)) (seq s n).
Proof. induction n as [|n IH]; intros s; [reflexivity|]. cbn. rewrite IH. reflexivity. Qed.
Lemma map_nth_seq {A} (l : list A) d : map (fun k => nth k l d) (seq 0 (length l)) = l.
Proof. induction l as [|x r IH]; [reflexivity|]. cbn [length seq map nth]. rewrite map_seq_shift. cbn [nth]. rewrite IH. reflexivity. Qed.

Lemma put_same {A} (m : Z -> nat -> option A) s i a : put m s i a s i = Some a.
Proof. unfold put. rewrite Z.eqb_refl, Nat.eqb_refl. reflexivity. Qed.
Lemma put_other {A} (m : Z -> nat -> option A) s i a s' j : s' <> s \/ j <> i -> put m s i a s' j = m s' j.
Proof. intros H. unfold put. destruct (Z.eqb_spec s' s); destruct (Nat.eqb_spec j i); cbn; try reflexivity. lia. Qed.

Section P.
  Context {X R : Type}.
  Variable null : Z.
  Variable mbid : Z -> R -> R.
  Variable snapid : Z -> Z.
  Variable junk : nat -> nat -> nat -> X.
  Variable min_snapshot : Z.
  Local Notation subhalo := (sub X R).
  Local Notation duplicate := (duplicate (X := X) null mbid).

  (** ** The id buffer *)
  Lemma vl_read_middle (pre ids post : list Z) n : n <= length ids -> vl_read (pre ++ ids ++ post) n (length pre) = Some (firstn n ids).
  Proof.
    intros H. unfold vl_read. rewrite !app_length. destruct (Nat.leb_spec (length pre + n) (length pre + (length ids + length post))); [|lia].
    rewrite skipn_app, Nat.sub_diag, skipn_all. cbn. rewrite firstn_app. replace (n - length ids) with 0 by lia. cbn. rewrite app_nil_r. reflexivity.
  Qed.
  Lemma fill_buffer_eq (subs : list subhalo) : forall off buf, snd (fill_buffer subs off buf) = buf ++ concat (map ids_of subs).
  Proof.
    induction subs as [|s r IH]; intros off buf; cbn; [rewrite app_nil_r; reflexivity|].
    specialize (IH (off + length (s_parts s)) (buf ++ map fst (s_parts s))). destruct (fill_buffer r _ _) as [ps b]. cbn [snd] in *. rewrite IH, <- app_assoc. reflexivity.
  Qed.
  Lemma fill_reads (sel : subhalo -> nat) subs : (forall s, In s subs -> sel s <= length (s_parts s)) -> forall buf,
    let '(ps, b) := fill_buffer subs (length buf) buf in
    mapM (fun sp => vl_read b (sel (fst sp)) (snd sp)) (combine subs ps) = Some (map (fun s => firstn (sel s) (ids_of s)) subs).
  Proof.
    induction subs as [|s r IH]; intros Hs buf; cbn [fill_buffer]; [reflexivity|].
    assert (Hr : forall t, In t r -> sel t <= length (s_parts t)) by (intros t Ht; apply Hs; right; exact Ht).
    specialize (IH Hr (buf ++ map fst (s_parts s))). rewrite app_length, map_length in IH.
    pose proof (fill_buffer_eq r (length buf + length (s_parts s)) (buf ++ map fst (s_parts s))) as Eb.
    destruct (fill_buffer r _ _) as [ps b]. cbn [snd] in Eb. cbn [combine mapM map fst snd]. rewrite IH. rewrite Eb, <- app_assoc.
    rewrite vl_read_middle; [reflexivity|]. rewrite map_length. apply Hs. left. reflexivity.
  Qed.

  (** ** Files written *)
  Definition sub_image (snap : Z) (nfiles total : nat) (subs : list subhalo) : sub_file X R :=
    mksubfile (Z.of_nat nfiles) (snapid snap) (Z.of_nat total) (map s_nest subs) (map (fun s => firstn (s_nbound s) (ids_of s)) subs) (map scalars (map duplicate subs)).
  Definition src_image (snap : Z) (subs : list subhalo) : src_file := mksrcfile (snapid snap) (map ids_of subs).

  Lemma write_file_eq d snap i nf tot subs : (forall s, In s subs -> s_nbound s <= length (s_parts s)) ->
    write_file null mbid snapid d snap i nf tot subs =
      Some (mkdisk (put (d_sub d) snap i (sub_image snap nf tot subs)) (put (d_src d) snap i (src_image snap subs)), map duplicate subs).
  Proof.
    intros Hs. unfold write_file. pose proof (fill_reads s_nbound subs Hs []) as E1.
    pose proof (fill_reads (fun s => length (s_parts s)) subs ltac:(intros; lia) []) as E2. cbn [length] in *. destruct (fill_buffer subs 0 []) as [ps b].
    rewrite E1, E2. unfold sub_image, src_image. do 4 f_equal. f_equal. apply map_ext. intros s. unfold ids_of. rewrite <- (map_length fst). apply firstn_all.
  Qed.

  (** The disk after a save: the files of the processes, everything else as before. *)
  Definition holds (snap : Z) (i nf tot : nat) (cat : list (list subhalo)) (d d' : disk X R) : Prop :=
    (forall s j, (s <> snap \/ j < i \/ i + length cat <= j) -> d_sub d' s j = d_sub d s j /\ d_src d' s j = d_src d s j) /\
    (forall k subs, nth_error cat k = Some subs -> d_sub d' snap (i + k) = Some (sub_image snap nf tot subs) /\ d_src d' snap (i + k) = Some (src_image snap subs)).

  Lemma save_from_eq snap nf tot cat : bound_inside cat -> forall d i,
    exists d', save_from null mbid snapid d snap i nf tot cat = Some (d', map (map duplicate) cat) /\ holds snap i nf tot cat d d'.
  Proof.
    induction cat as [|subs r IH]; intros Hb d i; cbn [save_from].
    - exists d. split; [reflexivity|]. split; [intros; split; reflexivity|]. intros [|k] s Hk; discriminate.
    - rewrite write_file_eq by (intros s Hs; apply (Hb subs s); [left; reflexivity|exact Hs]).
      destruct (IH ltac:(intros c s Hc; apply Hb; right; exact Hc) (mkdisk (put (d_sub d) snap i (sub_image snap nf tot subs)) (put (d_src d) snap i (src_image snap subs))) (S i)) as (d' & E & H1 & H2).
      rewrite E. exists d'. split; [reflexivity|]. split.
      + intros s j Hj. cbn [length] in Hj. destruct (H1 s j ltac:(lia)) as [G1 G2]. rewrite G1, G2. cbn [d_sub d_src]. rewrite !put_other by lia. split; reflexivity.
      + intros [|k] c Hk; cbn [nth_error] in Hk.
        * injection Hk as <-. rewrite Nat.add_0_r. destruct (H1 snap i ltac:(lia)) as [G1 G2]. rewrite G1, G2. cbn [d_sub d_src]. rewrite !put_same. split; reflexivity.
        * replace (i + S k) with (S i + k) by lia. apply H2. exact Hk.
  Qed.
  Lemma save_eq d snap cat : bound_inside cat ->
    exists d', save null mbid snapid d snap cat = Some (d', map (map duplicate) cat) /\ holds snap 0 (length cat) (nsum (map (@length _) cat)) cat d d'.
  Proof. intros H. apply save_from_eq. exact H. Qed.

  (** ** Files read *)
  Definition wanted (dep : depth) (s : subhalo) : list Z :=
    match dep with SubTable => [] | SubParticles => firstn (s_nbound s) (ids_of s) | SrcParticles => ids_of s end.
  Definition reload (dep : depth) (i : nat) (subs : list subhalo) : list subhalo :=
    map (rebuild junk i) (combine (seq 0 (length subs)) (combine (map scalars (map duplicate subs)) (combine (map (wanted dep) subs) (map s_nest subs)))).

  Lemma read_file_eq dep snap nf tot d i subs : d_sub d snap i = Some (sub_image snap nf tot subs) -> d_src d snap i = Some (src_image snap subs) ->
    read_file snapid junk d snap dep i = Some (reload dep i subs).
  Proof.
    intros E1 E2. unfold read_file. rewrite E1. cbn [sub_image f_snapid f_subs f_ids f_nests]. rewrite Z.eqb_refl, !map_length.
    destruct (Nat.eqb_spec (length subs) 0) as [E0|E0]; [destruct subs; [reflexivity|discriminate]|]. unfold reload.
    destruct dep; rewrite ?E2; cbn [src_image g_ids]; rewrite ?repeat_length, ?map_length, !Nat.eqb_refl; cbn [andb]; try reflexivity.
    do 4 f_equal. f_equal. clear E0 E1 E2. induction subs as [|s r IH]; [reflexivity|]. cbn. rewrite IH. reflexivity.
  Qed.

  Lemma blank_ids f ids : map fst (blank_particles (X := X) f ids) = ids.
  Proof.
    unfold blank_particles. assert (G : forall s, map fst (combine ids (map f (seq s (length ids)))) = ids); [|apply G].
    induction ids as [|x r IH]; intros s; [reflexivity|]. cbn. rewrite IH. reflexivity.
  Qed.
  Lemma reload_same dep i subs : Forall2 (fun s s' => same_but_particles (wanted dep s) (duplicate s) s') subs (reload dep i subs).
  Proof.
    unfold reload. generalize 0 at 1. induction subs as [|s r IH]; intros n; cbn; constructor; [|apply IH].
    split; [destruct s; reflexivity|]. destruct s; apply blank_ids.
  Qed.
  Lemma reload_length dep i subs : length (reload dep i subs) = length subs.
  Proof. pose proof (reload_same dep i subs) as H. induction H; cbn; lia. Qed.

  Definition file_subs dep (cat : list (list subhalo)) (i : nat) : list subhalo := reload dep i (nth i cat []).

  Lemma load_rank_eq dep snap nf tot d d' cat W nfiles rank b e : holds snap 0 nf tot cat d d' -> assign_tasks (Z.of_nat rank) W nfiles = Some (b, e) ->
    (0 <= b <= e)%Z -> (e <= Z.of_nat (length cat))%Z ->
    load_rank snapid junk d' snap dep W nfiles rank = Some (concat (map (file_subs dep cat) (files_of (b, e)))).
  Proof.
    intros [_ HF] HA Hb He. unfold load_rank. rewrite HA. change (map Z.to_nat _) with (files_of (b, e)).
    rewrite (mapM_some _ (file_subs dep cat)); [reflexivity|]. intros j Hj. rewrite files_of_seq in Hj by exact Hb. apply in_seq in Hj.
    destruct (nth_error cat j) as [subs|] eqn:Ej; [|apply nth_error_None in Ej; lia].
    destruct (HF j subs Ej) as [G1 G2]. unfold file_subs. rewrite (nth_error_nth _ _ _ Ej). eapply read_file_eq; eassumption.
  Qed.

  Lemma load_eq dep snap d d' cat W : 1 <= W -> 1 <= length cat -> (min_snapshot <= snap)%Z -> holds snap 0 (length cat) (nsum (map (@length _) cat)) cat d d' ->
    exists ivs out, map (fun w => assign_tasks (Z.of_nat w) (Z.of_nat W) (Z.of_nat (length cat))) (seq 0 W) = map Some ivs /\
      load snapid junk min_snapshot d' snap dep W = Loaded out /\ out = map (fun iv => concat (map (file_subs dep cat) (files_of iv))) ivs /\ length out = W /\
      concat out = concat (map (file_subs dep cat) (seq 0 (length cat))).
  Proof.
    intros HW Hc Hm HH. destruct (assign_tasks_correct W (Z.of_nat (length cat)) ltac:(lia) ltac:(lia)) as (ivs & Eiv & Hl & Ht & _).
    exists ivs, (map (fun iv => concat (map (file_subs dep cat) (files_of iv))) ivs). split; [exact Eiv|].
    assert (EC : concat (map (fun iv => concat (map (file_subs dep cat) (files_of iv))) ivs) = concat (map (file_subs dep cat) (seq 0 (length cat)))).
    { rewrite <- (map_map files_of (fun l => concat (map (file_subs dep cat) l))). rewrite concat_map_concat.
      rewrite (proj1 (files_tile ivs 0 _ ltac:(lia) Ht)). rewrite Z.sub_0_r, Nat2Z.id. reflexivity. }
    split; [|split; [reflexivity|split; [rewrite map_length; exact Hl|exact EC]]].
    unfold load. destruct (Z.ltb_spec snap min_snapshot); [lia|]. pose proof HH as [_ HF].
    destruct cat as [|c0 cr] eqn:Ecat; [cbn in Hc; lia|]. rewrite <- Ecat in *. destruct (HF 0 c0 ltac:(rewrite Ecat; reflexivity)) as [G0 _]. cbn [Nat.add] in G0. rewrite G0.
    cbn [sub_image f_nfiles f_total].
    assert (EM : mapM (load_rank snapid junk d' snap dep (Z.of_nat W) (Z.of_nat (length cat))) (seq 0 W) = Some (map (fun iv => concat (map (file_subs dep cat) (files_of iv))) ivs)).
    { assert (GF : forall iv, In iv ivs -> (0 <= fst iv <= snd iv /\ snd iv <= Z.of_nat (length cat))%Z) by (intros iv Hin; apply (tiles_inside ivs 0 (Z.of_nat (length cat)) iv ltac:(lia) Ht Hin)).
      clear EC Hl. revert Eiv GF. generalize (seq 0 W). clear Ht HW. induction ivs as [|[b e] ivs IH]; intros [|w ws] Ei GF; try discriminate; [reflexivity|].
      cbn [map] in Ei. cbn [mapM map]. assert (E1 : assign_tasks (Z.of_nat w) (Z.of_nat W) (Z.of_nat (length cat)) = Some (b, e)) by congruence.
      assert (E2 : map (fun w => assign_tasks (Z.of_nat w) (Z.of_nat W) (Z.of_nat (length cat))) ws = map Some ivs) by congruence.
      pose proof (GF (b, e) (or_introl eq_refl)) as [H1 H2]. cbn [fst snd] in *. rewrite (load_rank_eq dep snap _ _ d d' cat _ _ w b e HH E1 H1 H2).
      rewrite (IH ws E2 (fun iv Hi => GF iv (or_intror Hi))). reflexivity. }
    rewrite EM. rewrite <- concat_length_nsum, EC. rewrite concat_length_nsum, map_map.
    assert (EL : map (fun x => length (file_subs dep cat x)) (seq 0 (length cat)) = map (@length _) cat).
    { rewrite <- (map_nth_seq (map (@length subhalo) cat) 0) . rewrite map_length. apply map_ext. intros k. unfold file_subs. rewrite reload_length.
      change 0 with (@length subhalo []) at 1. rewrite map_nth. reflexivity. }
    rewrite EL, Z.eqb_refl. reflexivity.
  Qed.

  Lemma files_same dep cat : forall i, Forall2 (fun s s' => same_but_particles (wanted dep s) (duplicate s) s') (concat cat) (concat (map (fun k => reload dep (i + k) (nth k cat [])) (seq 0 (length cat)))).
  Proof.
    induction cat as [|c r IH]; intros i; [constructor|]. cbn [length seq map concat nth]. apply Forall2_app; [apply reload_same|].
    rewrite map_seq_shift. cbn [nth]. specialize (IH (S i)). erewrite map_ext; [exact IH|]. intros k. cbn beta. f_equal. lia.
  Qed.

  Lemma assign_same W rank : rank < W -> assign_tasks (Z.of_nat rank) (Z.of_nat W) (Z.of_nat W) = Some (Z.of_nat rank, Z.of_nat rank + 1)%Z.
  Proof.
    intros H. rewrite assign_tasks_eq by lia. unfold task_begin_of. rewrite Z.div_same, Z.mod_same by lia. do 2 f_equal; lia.
  Qed.
  Lemma same_ranks W ivs : map (fun w => assign_tasks (Z.of_nat w) (Z.of_nat W) (Z.of_nat W)) (seq 0 W) = map Some ivs -> map files_of ivs = map (fun k => [k]) (seq 0 W).
  Proof.
    intros E. assert (E2 : ivs = map (fun k => (Z.of_nat k, Z.of_nat k + 1)%Z) (seq 0 W)).
    { apply (f_equal (map (fun o => match o with Some iv => iv | None => (0, 0)%Z end))) in E. rewrite !map_map in E. rewrite map_id in E. rewrite <- E.
      apply map_ext_in. intros k Hk. apply in_seq in Hk. rewrite assign_same by lia. reflexivity. }
    rewrite E2, map_map. apply map_ext. intros k. rewrite files_of_seq by lia. rewrite Nat2Z.id. replace (Z.to_nat (Z.of_nat k + 1 - Z.of_nat k)) with 1 by lia. reflexivity.
  Qed.

  Lemma load_same_ranks dep snap d d' cat : 1 <= length cat -> (min_snapshot <= snap)%Z -> holds snap 0 (length cat) (nsum (map (@length _) cat)) cat d d' ->
    load snapid junk min_snapshot d' snap dep (length cat) = Loaded (map (file_subs dep cat) (seq 0 (length cat))).
  Proof.
    intros Hc Hm HH. destruct (load_eq dep snap d d' cat (length cat) Hc Hc Hm HH) as (ivs & out & Ei & -> & -> & _). f_equal.
    rewrite <- (map_map files_of (fun l => concat (map (file_subs dep cat) l))). rewrite (same_ranks _ _ Ei), map_map. apply map_ext. intros k. cbn. apply app_nil_r.
  Qed.
  Lemma ranks_same dep cat : Forall2 (Forall2 (fun s s' => same_but_particles (wanted dep s) (duplicate s) s')) cat (map (file_subs dep cat) (seq 0 (length cat))).
  Proof.
    assert (G : forall i, Forall2 (Forall2 (fun s s' => same_but_particles (wanted dep s) (duplicate s) s')) cat (map (fun k => reload dep (i + k) (nth k cat [])) (seq 0 (length cat)))); [|apply (G 0)].
    induction cat as [|c r IH]; intros i; [constructor|]. cbn [length seq map nth]. constructor; [apply reload_same|].
    rewrite map_seq_shift. cbn [nth]. specialize (IH (S i)). erewrite map_ext; [exact IH|]. intros k. cbn beta. f_equal. lia.
  Qed.

  (** ** Count mismatch *)
  Lemma read_file_count dep (d : disk X R) snap i l : read_file snapid junk d snap dep i = Some l -> exists f, d_sub d snap i = Some f /\ length l = length (f_subs f).
  Proof.
    unfold read_file. destruct (d_sub d snap i) as [f|]; [|discriminate]. destruct (Z.eqb _ _); [|discriminate]. intros H. exists f. split; [reflexivity|].
    destruct (Nat.eqb_spec (length (f_subs f)) 0) as [E|E]; [injection H as <-; cbn; lia|].
    destruct (match dep with SubTable => _ | SubParticles => _ | SrcParticles => _ end) as [ids|]; [|discriminate].
    destruct (Nat.eqb_spec (length ids) (length (f_subs f))) as [E1|]; [|discriminate]. destruct (Nat.eqb_spec (length (f_nests f)) (length (f_subs f))) as [E2|]; [|discriminate].
    cbn [andb] in H. injection H as <-. rewrite map_length, !combine_length, seq_length. lia.
  Qed.
  Lemma reads_count dep (d : disk X R) snap js : forall ls, mapM (read_file snapid junk d snap dep) js = Some ls ->
    exists fs, mapM (d_sub d snap) js = Some fs /\ length (concat ls) = nsum (map (fun f => length (f_subs f)) fs).
  Proof.
    induction js as [|j r IH]; intros ls H; cbn [mapM] in H; [injection H as <-; exists []; split; reflexivity|].
    destruct (read_file _ _ _ _ _ j) as [l|] eqn:El; [|discriminate]. destruct (mapM _ r) as [lr|]; [|discriminate]. injection H as <-.
    destruct (IH lr eq_refl) as (fs & E1 & E2). destruct (read_file_count dep d snap j l El) as (f & E3 & E4). exists (f :: fs). cbn [mapM map nsum concat]. rewrite E3, E1, app_length, E2, E4. split; reflexivity.
  Qed.
  Lemma mapM_app {A B} (f : A -> option B) l1 : forall l2 r1 r2, mapM f l1 = Some r1 -> mapM f l2 = Some r2 -> mapM f (l1 ++ l2) = Some (r1 ++ r2).
  Proof.
    induction l1 as [|x l IH]; intros l2 r1 r2 H1 H2; cbn [mapM app] in *; [injection H1 as <-; exact H2|].
    destruct (f x) as [y|]; [|discriminate]. destruct (mapM f l) as [t|]; [|discriminate]. injection H1 as <-. rewrite (IH l2 t r2 eq_refl H2). reflexivity.
  Qed.
  Lemma load_count dep (d : disk X R) snap W cat : 1 <= W -> (min_snapshot <= snap)%Z -> (forall f, d_sub d snap 0 = Some f -> (0 <= f_nfiles f)%Z) ->
    load snapid junk min_snapshot d snap dep W = Loaded cat ->
    exists f0 fs, d_sub d snap 0 = Some f0 /\ mapM (d_sub d snap) (seq 0 (Z.to_nat (f_nfiles f0))) = Some fs /\
      Z.of_nat (length (concat cat)) = f_total f0 /\ Z.of_nat (nsum (map (fun f => length (f_subs f)) fs)) = f_total f0.
  Proof.
    intros HW Hm Hnn. unfold load. destruct (Z.ltb_spec snap min_snapshot); [lia|]. destruct (d_sub d snap 0) as [f0|] eqn:E0; [|discriminate]. specialize (Hnn f0 eq_refl).
    destruct (mapM _ (seq 0 W)) as [cat'|] eqn:EM; [|discriminate]. destruct (Z.eqb_spec (Z.of_nat (nsum (map (@length _) cat'))) (f_total f0)) as [ET|]; [|discriminate].
    intros HL. injection HL as ->. exists f0. rewrite <- ET, <- concat_length_nsum.
    destruct (assign_tasks_correct W (f_nfiles f0) ltac:(lia) Hnn) as (ivs & Eiv & _ & Ht & _).
    assert (G : exists fs, mapM (d_sub d snap) (concat (map files_of ivs)) = Some fs /\ length (concat cat) = nsum (map (fun f => length (f_subs f)) fs)).
    { clear Ht ET. revert cat EM Eiv. generalize (seq 0 W). induction ivs as [|[b e] ivs IH]; intros [|w ws] cat EM Ei; try discriminate.
      - cbn in EM. injection EM as <-. exists []. split; reflexivity.
      - cbn [mapM] in EM. destruct (load_rank _ _ _ _ _ _ _ w) as [l|] eqn:El; [|discriminate]. destruct (mapM _ ws) as [lr|] eqn:Er; [|discriminate]. injection EM as <-.
        cbn [map] in Ei. assert (E1 : assign_tasks (Z.of_nat w) (Z.of_nat W) (f_nfiles f0) = Some (b, e)) by congruence.
        assert (E2 : map (fun w => assign_tasks (Z.of_nat w) (Z.of_nat W) (f_nfiles f0)) ws = map Some ivs) by congruence.
        destruct (IH ws lr Er E2) as (fs & G1 & G2). unfold load_rank in El. rewrite E1 in El. change (map Z.to_nat _) with (files_of (b, e)) in El.
        destruct (mapM _ (files_of (b, e))) as [ls|] eqn:Els; [|discriminate]. injection El as <-. destruct (reads_count _ _ _ _ _ Els) as (fs1 & G3 & G4).
        exists (fs1 ++ fs). cbn [map concat]. rewrite app_length, map_app, nsum_app, G2, G4. split; [apply mapM_app; assumption|reflexivity]. }
    destruct G as (fs & G1 & G2). rewrite (proj1 (files_tile ivs 0 _ ltac:(lia) Ht)), Z.sub_0_r in G1. exists fs. repeat split; [exact G1|lia].
  Qed.
End P.
