(** Properties C27 to C30: nests over whole runs. *)
From Coq Require Import List ZArith QArith Bool Lia Sorting.Permutation Sorting.Sorted.
From Verif.Model Require Import ListMem Mpi Run Hash Subhalo Tracks Nest UpdateTracks.
From Verif.Spec Require Import Lookup Members Forest Nesting NestHistory.
From Verif.Proofs Require Import ListMemProofs MpiProofs ListExtra HashProofs MemberProofs CentralProofs CentralProofs2 TrackProofs TreeProofs NestProofs NestProofs2 NestProofs3 NestProofs4 NestProofs5 LocalizeProofs ForestSteps HistorySteps HistorySteps2 ReachProofs HistoryProofs NestFinal GlueProofs GlueTree RoundTrip.
From Verif.Props Require Import PropsMembers.
Import ListNotations.
Local Open Scope Z_scope.

(** C27: after every history of runs (any redistribution and any host changes at every snapshot, any order of the threads),
    the nests of every process after NestSubhalos are a forest: every listed index exists, nobody is listed twice, listed
    subhalos share the host of the one listing them, the heads are exactly those listed nowhere, there is no cycle, and every
    subhalo is reached from exactly one head. *)
Theorem C27_nesting_is_forest : forall (X R H : Type) (before : list (list (sub X R))) (ps : list (@proc X R H)) p,
  nest_history (H := H) before -> nest_begun before ps -> In p ps -> well_nested (p_nested p).
Proof. intros X R H before ps p HH HB Hp. exact (nested_well before ps p HH Hp HB). Qed.
Print Assumptions C27_nesting_is_forest.

(** C27: which links survive: [j] is nested in [i] after NestSubhalos exactly if its track was listed by the track of [i] at the
    end of the previous snapshot, both are on this process now and share a host halo, and [j] did not become the central. *)
Theorem C27_links_kept : forall (X R H : Type) (before : list (list (sub X R))) (ps : list (@proc X R H)) p i j a b,
  nest_history (H := H) before -> nest_begun before ps -> In p ps -> zget (p_nested p) i = Some a -> zget (p_nested p) j = Some b ->
  (lists (p_nested p) i j <->
   (exists s, In s (concat before) /\ s_track s = s_track a /\ In (s_track b) (s_nest s)) /\ s_host a = s_host b /\ s_host b <> -1 /\
   (forall h rest, nth_error (p_table p) (S h) <> Some (Z.to_nat j :: rest))).
Proof. intros X R H before ps p i j a b HH HB Hp Ha Hb. exact (nested_links before ps p HH Hp i j a b HB Ha Hb). Qed.
Print Assumptions C27_links_kept.

(** C27: the list of heads of host [h] holds exactly its rank-0 members that existed before this snapshot, each once, and
    starts with the central.  NestSubhalos changes nothing but nests and ranks. *)
Theorem C27_heads_of_hosts : forall (X R H : Type) (before : list (list (sub X R))) (ps : list (@proc X R H)) p,
  nest_history (H := H) before -> nest_begun before ps -> In p ps ->
  length (p_heads p) = length (p_halos p) /\
  (forall h hs, nth_error (p_heads p) h = Some hs ->
    NoDup hs /\ (forall i, In i hs <-> hosted_by (p_moved p) i (Z.of_nat h) /\ head (p_nested p) (Z.of_nat i)) /\
    (forall c rest, nth_error (p_table p) (S h) = Some (c :: rest) -> exists others, hs = c :: others)) /\
  Forall2 (fun a b => exists n r, b = set_nest n (set_rank r a)) (p_fed p) (p_nested p).
Proof.
  intros X R H before ps p HH HB Hp. assert (Hk := Hp). apply In_nth_error in Hk as [k Hk]. destruct (begun_spec before ps (history_ok _ HH) HB) as [H1 _].
  destruct (H1 k p Hk) as (_ & (tn & HN) & Hm & _ & Hs). split; [|split].
  - rewrite (mapM_length _ _ _ Hm). destruct HN as (_ & _ & HL & _). destruct (p_table p); [discriminate|]. cbn in HL |- *. lia.
  - intros h hs Hhs. exact (nested_heads before ps p HH Hp h hs HB Hhs).
  - exact Hs.
Qed.
Print Assumptions C27_heads_of_hosts.

(** C27: no run of the two steps can fail: no invalid index, no endless recursion, whatever the order of the threads. *)
Theorem C27_no_crash : forall (X R H : Type) (before : list (list (sub X R))) (ps : list (@proc X R H)),
  nest_history (H := H) before -> nest_fed before ps ->
  exists locals, localize (map (fun p => (p_hash p, p_fed p)) ps) = Some locals /\
    forall k q l order, nth_error ps k = Some q -> nth_error locals k = Some l -> Permutation order (seq 0 (length l)) ->
      exists subs heads, nest_local (length l) order (p_table q) l = Done (subs, heads).
Proof. intros X R H before ps HH HF. exact (nest_total before ps HH HF). Qed.
Print Assumptions C27_no_crash.

(** C28: after every history, on every process after the ranking at the end of a snapshot: the nests are a forest, every host
    with members has exactly one member of rank 0, what is reached from it are exactly the members of the host, each at a
    number of steps equal to its stored depth, the ranks are 0, 1, ... in order of decreasing mass; field subhalos are heads
    without nest, and nothing but nests, ranks and depths changes. *)
Theorem C28_central_covers_group : forall (X R H : Type) (before : list (list (sub X R))) (ps : list (@proc X R H)) p,
  nest_history (H := H) before -> nest_run before ps -> In p ps ->
  well_nested (p_ranked p) /\ (forall h i, 0 <= h -> member (p_ranked p) h i -> exists c, covers (p_ranked p) h c) /\
  (forall i s, zget (p_ranked p) i = Some s -> s_host s = -1 -> s_rank s = 0 /\ s_nest s = []) /\
  Forall2 (fun a b => exists n r d, b = set_nest n (set_rank r (set_depth d a))) (p_reg p) (p_ranked p).
Proof.
  intros X R H before ps p HH HR Hp. destruct (ranked_facts before ps p HH Hp HR) as (A & B & C & D & E). split; [exact A|]. split; [exact B|]. split; [exact C|].
  apply Forall2_of_nth; [symmetry; exact D|]. intros i a b Ha Hb. specialize (E i a b Ha Hb). exists (s_nest b), (s_rank b), (s_depth b). unfold same_but_nest in E. destruct a, b. unfold set_nest, set_rank, set_depth in *. cbn in *. injection E; intros; subst. reflexivity.
Qed.
Print Assumptions C28_central_covers_group.
(** [covers] determines the central: there is only one member of rank 0. *)
Theorem C28_central_unique : forall (X R : Type) (subs : list (sub X R)) h c i s,
  covers subs h c -> zget subs i = Some s -> s_host s = h -> s_rank s = 0 -> i = c.
Proof. intros X R subs h c i s HC Hs Eh Er. destruct (cv_central _ _ _ HC) as (sc & Hsc & Ec & Erc). eapply (cv_ranks _ _ _ HC); eauto; congruence. Qed.
Print Assumptions C28_central_unique.
(** C28: the end of the snapshot cannot fail if the sinks found in this snapshot are valid indices. *)
Theorem C28_no_crash : forall (X R H : Type) (before : list (list (sub X R))) (ps : list (@proc X R H)) p sort order snap halo_ids,
  nest_history (H := H) before -> nest_begun before ps -> In p ps -> sorts_by_mass (p_reg p) sort -> length halo_ids = length (p_halos p) ->
  Permutation order (seq 0 (length halo_ids)) -> (forall s, In s (p_reg p) -> s_snapsink s = snap -> 0 <= s_sink s < Z.of_nat (length (p_reg p))) ->
  exists ranked out, update_tracks sort (length (p_reg p)) order snap halo_ids (p_heads p) (p_reg p) = Done (ranked, out).
Proof. intros X R H before ps p sort order snap ids HH HB Hp Hs HL Ho Hk. exact (update_total before ps p HH Hp sort order snap ids HB Hs HL Ho Hk). Qed.
Print Assumptions C28_no_crash.

(** C29: after every history: joining the nests of the heads of every host succeeds, keeps everything but nests, and makes
    every member that existed before the snapshot reachable from the central of its host, and nothing else; after any work
    that keeps the nests, separating restores every nest exactly and keeps everything else the work did. *)
Theorem C29_glue_covers : forall (X R H : Type) (before : list (list (sub X R))) (ps : list (@proc X R H)) p,
  nest_history (H := H) before -> nest_begun before ps -> In p ps ->
  exists glued sizes, glue (tl (p_table p)) (p_heads p) (p_nested p) = Some (glued, sizes) /\
    Forall2 (fun a b => exists n, b = set_nest n a) (p_nested p) glued /\
    (forall h c rest, nth_error (p_table p) (S h) = Some (c :: rest) ->
       forall i, (exists d, reach glued (Z.of_nat c) d i) <-> 0 <= i /\ hosted_by (p_moved p) (Z.to_nat i) (Z.of_nat h)) /\
    (forall worked : list (sub X R), Forall2 (fun a b => s_nest a = s_nest b) glued worked ->
       exists restored, unglue (tl (p_table p)) sizes worked = Some restored /\ length restored = length worked /\
         forall i w s, nth_error worked i = Some w -> nth_error (p_nested p) i = Some s -> nth_error restored i = Some (set_nest (s_nest s) w)).
Proof.
  intros X R H before ps p HH HB Hp. assert (Hk := Hp). apply In_nth_error in Hk as [k Hk]. destruct (begun_spec before ps (history_ok _ HH) HB) as [H1 _].
  destruct (H1 k p Hk) as (_ & (tn & HN) & Hm & _). destruct (glued_trees _ _ _ _ _ _ HN Hm) as (glued & sizes & Eg & HL & Hget & Htree & _).
  exists glued, sizes. split; [exact Eg|]. split; [|split].
  - apply Forall2_of_nth; [symmetry; exact HL|]. intros i a b Ha Hb. destruct (Hget i a Ha) as [l Hl]. exists l. congruence.
  - intros h c rest Hc i. destruct (Htree h c rest Hc) as (t & HR & Hlab & HP). destruct HN as (_ & _ & _ & HTG & _). destruct (HTG _ _ Hc) as [Hin Hnd].
    assert (Hnt : NoDup (nodes t)). { eapply Permutation_NoDup; [symmetry; exact HP|]. apply NoDup_map_inj; [intros x y _ _; apply Nat2Z.inj|exact Hnd]. }
    assert (Hi : In i (nodes t) <-> 0 <= i /\ hosted_by (p_moved p) (Z.to_nat i) (Z.of_nat h)).
    { replace (Z.of_nat h) with (Z.of_nat (S h) - 1) by lia. rewrite <- Hin. split.
      - intros Hx. apply (Permutation_in _ HP) in Hx. apply in_map_iff in Hx as (n & <- & Hn). rewrite Nat2Z.id. split; [lia|exact Hn].
      - intros [Hge Hx]. apply (Permutation_in _ (Permutation_sym HP)). replace i with (Z.of_nat (Z.to_nat i)) by lia. apply in_zs. exact Hx. }
    rewrite <- Hi, <- Hlab. split.
    + intros (d & Hd). apply (reach_root glued t _ _ HR Hnt) in Hd. eapply depths_node; eauto.
    + intros Hx. destruct (depths_in t 0 i Hx) as [x Hd]. pose proof (depths_ge _ _ _ _ Hd). exists (Z.to_nat x). apply (reach_root glued t _ _ HR Hnt). rewrite Z2Nat.id by lia. exact Hd.
  - intros worked HW. eapply glue_unglue; [eapply centrals_nodup; eassumption|eapply heads_len; eassumption|intros q c rest Hq; eapply glue_ok; eassumption|exact Eg|exact HW].
Qed.
Print Assumptions C29_glue_covers.
(** C29 for every forest of nests, reached by a run or not: it is enough that the centrals differ and every host with members
    has a head. *)
Theorem C29_glue_unglue : forall (X R : Type) groups heads (subs glued worked : list (sub X R)) sizes,
  NoDup (concat (map (firstn 1) groups)) -> length heads = length groups ->
  (forall k c rest, nth_error groups k = Some (c :: rest) -> (c < length subs)%nat /\ nth_error heads k <> Some []) ->
  glue groups heads subs = Some (glued, sizes) -> Forall2 (fun a b => s_nest a = s_nest b) glued worked ->
  exists restored, unglue groups sizes worked = Some restored /\ length restored = length worked /\
    forall i w s, nth_error worked i = Some w -> nth_error subs i = Some s -> nth_error restored i = Some (set_nest (s_nest s) w).
Proof. intros X R groups heads subs glued worked sizes. exact (glue_unglue groups heads subs glued worked sizes). Qed.
Print Assumptions C29_glue_unglue.

(** C30: for every distribution of tracks over any number of processes, translating to local indices succeeds, gives valid
    indices and changes nothing but nests and ranks; translating back gives exactly the nested tracks held by the process, in
    their order.  A track listed on another process becomes a head, all other ranks stay. *)
Theorem C30_local_and_back : forall (X R : Type) (procs : list (list (Z * Z) * list (sub X R))),
  Forall (fun p => mapped_fill (track_keys (snd p)) (fst p)) procs ->
  NoDup (map s_track (registered (concat (map snd procs)))) ->
  exists locals, localize procs = Some locals /\ length locals = length procs /\
    forall k hash subs loc snap, nth_error procs k = Some (hash, subs) -> nth_error locals k = Some loc -> Forall (fun s => s_snapsink s <> snap) subs ->
      Forall2 (fun s l => exists nest r, l = set_nest nest (set_rank r s) /\ Forall (fun i => exists u, zget loc i = Some u) nest) subs loc /\
      exists back, globalize snap loc = Some back /\
        Forall2 (fun s b => exists r, b = set_nest (filter (held subs) (s_nest s)) (set_rank r s) /\
          (0 <= s_track s -> in_foreign_nest (map snd procs) k (s_track s) -> r = 0) /\
          (s_track s < 0 \/ ~ in_foreign_nest (map snd procs) k (s_track s) -> r = s_rank s)) subs back.
Proof. intros X R procs. exact (round_trip procs). Qed.
Print Assumptions C30_local_and_back.
(** C30, the other way: global ids of valid local nests, localised again on the same processes, are the same nests and ranks. *)
Theorem C30_global_and_back : forall (X R : Type) (snap : Z) (ls outs : list (list (sub X R))) (hashes : list (list (Z * Z))),
  NoDup (map s_track (concat ls)) -> (forall s, In s (concat ls) -> 0 <= s_track s) ->
  Forall2 (fun l o => globalize snap l = Some o) ls outs -> Forall2 (fun h o => mapped_fill (track_keys o) h) hashes outs ->
  exists locals, localize (combine hashes outs) = Some locals /\
    Forall2 (fun l l' => Forall2 (fun s s' => s_track s' = s_track s /\ s_nest s' = s_nest s /\ s_rank s' = s_rank s /\ s_host s' = s_host s /\ s_depth s' = s_depth s /\ s_parts s' = s_parts s) l l') ls locals.
Proof. intros X R snap ls outs hashes. exact (round_trip_back snap ls outs hashes). Qed.
Print Assumptions C30_global_and_back.
(** C30: globalisation writes the track id of every nested index and of every sink found in this snapshot, older sinks (already
    track ids) and everything else stay; it fails only on an invalid index. *)
Theorem C30_globalize : forall (X R : Type) snap (subs : list (sub X R)),
  (exists out, globalize snap subs = Some out) <->
    (forall s c, In s subs -> In c (s_nest s) -> exists u, zget subs c = Some u) /\ (forall s, In s subs -> s_snapsink s = snap -> exists u, zget subs (s_sink s) = Some u).
Proof.
  intros X R snap subs. split.
  - intros [out E]. apply globalize_spec in E. split.
    + intros s c Hs Hc. apply In_nth_error in Hs as [n Hn]. destruct (nth_error_in_range out n) as [o Ho]; [rewrite <- (F2_length _ _ _ E); eapply nth_error_lt; eauto|]. destruct (F2_nth _ _ _ E n s o Hn Ho) as (A & _). auto.
    + intros s Hs Es. apply In_nth_error in Hs as [n Hn]. destruct (nth_error_in_range out n) as [o Ho]; [rewrite <- (F2_length _ _ _ E); eapply nth_error_lt; eauto|]. destruct (F2_nth _ _ _ E n s o Hn Ho) as (_ & _ & A). auto.
  - intros [H1 H2]. apply mapM_total. intros s Hs. unfold globalize_one. destruct (mapM_total (fun i => option_map s_track (zget subs i)) (s_nest s)) as [ts Ets]; [intros c Hc; destruct (H1 s c Hs Hc) as [u ->]; cbn; eauto|].
    rewrite Ets. destruct (Z.eqb_spec (s_snapsink s) snap) as [E|E]; [|eauto]. destruct (H2 s Hs E) as [u ->]. cbn. eauto.
Qed.
Print Assumptions C30_globalize.
Theorem C30_globalize_fields : forall (X R : Type) snap (subs out : list (sub X R)) i s, globalize snap subs = Some out -> nth_error subs i = Some s ->
  exists o tracks, nth_error out i = Some o /\ Forall2 (fun c t => exists u, zget subs c = Some u /\ t = s_track u) (s_nest s) tracks /\
    (s_snapsink s <> snap -> o = set_nest tracks s) /\
    (s_snapsink s = snap -> exists u, zget subs (s_sink s) = Some u /\ o = set_nest tracks (set_sink (s_track u) snap s)).
Proof.
  intros X R snap subs out i s E Hs. apply globalize_spec in E. destruct (nth_error_in_range out i) as [o Ho]; [rewrite <- (F2_length _ _ _ E); eapply nth_error_lt; eauto|].
  destruct (F2_nth _ _ _ E i s o Hs Ho) as (A & B & C). exists o, (map (track_of subs) (s_nest s)). split; [exact Ho|]. split; [|split].
  - clear -A. induction (s_nest s) as [|c l IH]; cbn; constructor; [|apply IH; intros; apply A; right; assumption]. destruct (A c (or_introl eq_refl)) as [u Hu]. exists u. split; [exact Hu|]. unfold track_of. rewrite Hu. reflexivity.
  - intros Hn. destruct (Z.eqb_spec (s_snapsink s) snap); [contradiction|]. exact B.
  - intros He. destruct (C He) as [u Hu]. exists u. split; [exact Hu|]. destruct (Z.eqb_spec (s_snapsink s) snap); [|contradiction]. rewrite B, He. unfold track_of at 2. rewrite Hu. reflexivity.
Qed.
Print Assumptions C30_globalize_fields.

(** ** A run of three snapshots on two processes that meets the hypotheses *)
Definition halo_t := (list (Z * Z) * Q)%type.
Definition get {A} (d : A) (o : option A) : A := match o with Some a => a | None => d end.
Definition done {A} (d : A) (o : run A) : A := match o with Done a => a | _ => d end.
Fixpoint key_insert (k : Z * Z) (l : list (Z * Z)) : list (Z * Z) :=
  match l with [] => [k] | j :: r => if fst k <=? fst j then k :: l else j :: key_insert k r end.
Definition key_sort (l : list (Z * Z)) : list (Z * Z) := fold_right key_insert [] l.
Definition sim_centrals (snap : Z) (i : list (sub Z nat) * list halo_t) : list (list nat) * list (sub Z nat) :=
  match centrals_step (mass_sort (fst i)) (4 # 5) (fun _ _ => 0%Q) (fun _ r => r) snap 0%nat (seq 0 (length (snd i))) (fst i) (snd i) with
  | Some (t, st) => (t, f_subs st) | None => ([], []) end.
Definition sim (snap : Z) (work : sub Z nat -> sub Z nat) (ins : list (list (sub Z nat) * list halo_t)) : list (@proc Z nat Q) :=
  let cs := map (sim_centrals snap) ins in
  let hashes := map (fun c => key_sort (track_keys (snd c))) cs in
  let locals := get [] (localize (combine hashes (map snd cs))) in
  let nested := map (fun cl => done ([], []) (nest_local (length (snd cl)) (seq 0 (length (snd cl))) (fst (fst cl)) (snd cl))) (combine cs locals) in
  let works := map (fun n => map work (fst n)) nested in
  let regs := get [] (register (combine works (map (fun c => count_empty (fst c)) cs))) in
  map (fun x => match x with (((((i, c), h), l), (n, hs)), (w, r)) =>
      let nh := length (snd i) in
      let out := done ([], []) (update_tracks (mass_sort r) (length r) (seq 0 nh) snap (map Z.of_nat (seq 100 nh)) hs r) in
      @mkproc Z nat Q (fst i) (snd i) (fst c) (snd c) h l n hs w r (fst out) (snd out) end)
    (combine (combine (combine (combine (combine ins cs) hashes) locals) nested) (combine works regs)).

Definition parts (a n : Z) : list (Z * Z) := map (fun i => (i, 0)) (map (fun k => a + Z.of_nat k) (seq 0 (Z.to_nat n))).
Definition mass_by (m : Z -> Z) (s : sub Z nat) : sub Z nat := set_mass (inject_Z (m (s_track s))) s.
(** Snapshot 0: four halos on process 0. *)
Definition sim0 := sim 0 (mass_by (fun _ => 5)) [([], [(parts 10 5, 0%Q); (parts 20 3, 0%Q); (parts 30 4, 0%Q); (parts 40 2, 0%Q)]); ([], [])].
Definition rehost (hosts : list (nat * Z)) (l : list (sub Z nat)) : list (sub Z nat) :=
  map (fun th => set_host (snd th) (get (new_sub 0%nat) (nth_error l (fst th)))) hosts.
(** Snapshot 1: tracks 0, 1 and 3 share halo 0, track 2 has halo 1. *)
Definition sim1 := sim 1 (mass_by (fun t => if t =? 2 then 9 else if t =? 0 then 7 else if t =? 1 then 6 else 3))
  [(rehost [(0%nat, 0); (1%nat, 0); (2%nat, 1); (3%nat, 0)] (concat (map p_out sim0)), [(parts 10 6, 0%Q); (parts 30 4, 0%Q)]); ([], [])].
(** Snapshot 2: tracks 0, 1 and 2 share halo 0 of process 0, track 3 is now on process 1, where a new halo appears. *)
Definition sim2 := sim 2 (mass_by (fun t => if t =? 0 then 8 else if t =? 2 then 9 else if t =? 1 then 5 else 3))
  [(rehost [(0%nat, 0); (1%nat, 0); (2%nat, 0)] (concat (map p_out sim1)), [(parts 10 28, 0%Q)]); (rehost [(3%nat, 0)] (concat (map p_out sim1)), [(parts 40 2, 0%Q); (parts 50 5, 0%Q)])].

Lemma key_insert_perm k l : Permutation (key_insert k l) (k :: l).
Proof. induction l as [|j r IH]; cbn; [reflexivity|]. destruct (fst k <=? fst j); [reflexivity|]. rewrite IH. apply perm_swap. Qed.
Lemma key_sort_fill l : mapped_fill l (key_sort l).
Proof.
  split.
  - induction l as [|k l IH]; cbn; [constructor|]. eapply perm_trans; [apply key_insert_perm|]. constructor. exact IH.
  - induction l as [|k l IHl]; [constructor|]. cbn [key_sort fold_right]. fold (key_sort l). revert IHl. generalize (key_sort l). intros m HS.
    induction m as [|j r IH]; [repeat constructor|]. apply StronglySorted_inv in HS as [HS HF]. cbn [key_insert].
    destruct (Z.leb_spec (fst k) (fst j)) as [E|E].
    + constructor; [constructor; assumption|]. constructor; [exact E|]. rewrite Forall_forall in *. intros x Hx. specialize (HF x Hx). unfold key_le in *. lia.
    + constructor; [apply IH; exact HS|]. rewrite Forall_forall in *. intros x Hx. apply (Permutation_in _ (key_insert_perm k r)) in Hx as [<-|Hx]; [unfold key_le; lia|auto].
Qed.
Ltac each t := repeat (match goal with |- Forall _ (_ :: _) => apply Forall_cons; [t|] | |- Forall2 _ (_ :: _) (_ :: _) => apply Forall2_cons; [t|] end); constructor.
Ltac hosts_ok := each ltac:(idtac; split; [|split]; cbn [p_moved p_halos]; each ltac:(vm_compute; intuition congruence)).
Ltac prepared_ok snap := each ltac:(idtac;
  (match goal with |- prepared ?p => exists (mass_sort (p_moved p)), (4 # 5)%Q, (fun _ _ => 0%Q), (fun _ r => r), snap, 0%nat, (seq 0 (length (p_halos p))) end);
  eexists; split; [apply mass_sort_ok|split; [discriminate|split; [reflexivity|split; vm_compute; reflexivity]]]).
Ltac fill_ok := each ltac:(idtac; match goal with |- mapped_fill ?k ?h => let E := fresh in assert (E : h = key_sort k) by (vm_compute; reflexivity); rewrite E; apply key_sort_fill end).
Ltac nested_ok := each ltac:(idtac; match goal with |- nested ?p => exists (seq 0 (length (p_local p))); split; [reflexivity|vm_compute; reflexivity] end).
Ltac worked_ok := each ltac:(idtac; unfold worked; cbn [p_nested p_work]; each ltac:(split; reflexivity)).
Ltac finished_ok snap := each ltac:(idtac;
  (match goal with |- finished ?p => exists (mass_sort (p_reg p)), (seq 0 (length (p_halos p))), snap, (map Z.of_nat (seq 100 (length (p_halos p)))) end);
  split; [apply mass_sort_ok|split; [rewrite map_length, seq_length; reflexivity|split; [rewrite map_length, seq_length; reflexivity|vm_compute; reflexivity]]]).
Ltac run_ok_tac snap := split; [split; [split; [vm_compute; (reflexivity || (repeat constructor))|split; [hosts_ok|split; [prepared_ok snap|fill_ok]]]|split; [vm_compute; reflexivity|split; [nested_ok|split; [worked_ok|vm_compute; reflexivity]]]]|finished_ok snap].
Ltac value_of x := let v := eval vm_compute in x in let E := fresh in assert (E : x = v) by (vm_compute; reflexivity); rewrite E; clear E.
Lemma sim0_run : nest_run (repeat [] 2) sim0.
Proof. value_of sim0. run_ok_tac 0. Qed.
Lemma sim1_run : nest_run (map p_out sim0) sim1.
Proof. value_of (map p_out sim0). value_of sim1. run_ok_tac 1. Qed.
Lemma sim2_run : nest_run (map p_out sim1) sim2.
Proof. value_of (map p_out sim1). value_of sim2. run_ok_tac 2. Qed.
(** Snapshot 3: track 1 loses its host. *)
Definition sim3 := sim 3 (mass_by (fun t => if t =? 0 then 8 else if t =? 2 then 9 else 5))
  [(rehost [(0%nat, 0); (1%nat, -1); (2%nat, 0); (3%nat, -1); (4%nat, -1)] (concat (map p_out sim2)), [(parts 30 8, 0%Q)]); ([], [])].
Lemma sim3_run : nest_run (map p_out sim2) sim3.
Proof. value_of (map p_out sim2). value_of sim3. run_ok_tac 3. Qed.
Lemma sim_history : nest_history (H := Q) (map p_out sim1) /\ nest_history (H := Q) (map p_out sim2).
Proof.
  assert (H1 : nest_history (H := Q) (map p_out sim1)) by (apply nest_step with (before := map p_out sim0); [|exact sim1_run]; apply nest_step with (before := repeat [] 2); [constructor|exact sim0_run]).
  split; [exact H1|]. apply nest_step with (before := map p_out sim1); [exact H1|exact sim2_run].
Qed.
(** The hypotheses of C27 hold with a head list of two, a cut link and a link between processes. *)
Example C27_witness : nest_history (H := Q) (map p_out sim1) /\ nest_begun (map p_out sim1) sim2 /\
  map (map (fun s => (s_track s, s_rank s, s_nest s))) (map p_out sim1) = [[(0, 0, [1; 3]); (1, 1, []); (2, 0, []); (3, 2, [])]; []] /\
  map (fun p => (map (fun s => (s_track s, s_rank s, s_nest s)) (p_nested p), p_heads p)) sim2 =
    [([(0, 0, [1]); (1, 1, []); (2, 0, [])], [[2; 0]%nat]); ([(3, 0, []); (-1, 0, [])], [[0%nat]; []])].
Proof. split; [apply sim_history|]. split; [apply sim2_run|]. split; vm_compute; reflexivity. Qed.
(** The same for C28, with a depth of two. *)
Example C28_witness : nest_history (H := Q) (map p_out sim1) /\ nest_run (map p_out sim1) sim2 /\
  map (fun p => map (fun s => (s_track s, s_rank s, s_depth s, s_nest s)) (p_ranked p)) sim2 =
    [[(0, 1, 1, [1]); (1, 2, 2, []); (2, 0, 0, [0])]; [(3, 0, 0, []); (4, 0, 0, [])]].
Proof. split; [apply sim_history|]. split; [exact sim2_run|]. vm_compute. reflexivity. Qed.
(** FillDepth starts from the centrals of halos only: a subhalo that left all halos keeps its old depth, though it is a head. *)
Theorem C28_field_depth_refuted : exists (before : list (list (sub Z nat))) (ps : list (@proc Z nat Q)) p i s,
  nest_history (H := Q) before /\ nest_run before ps /\ In p ps /\ zget (p_ranked p) i = Some s /\ s_host s = -1 /\ s_rank s = 0 /\ s_depth s = 2 /\
  (forall q, ~ lists (p_ranked p) q i).
Proof.
  assert (Hrun := sim3_run). destruct sim_history as [_ HH]. revert Hrun.
  let v := eval vm_compute in sim3 in (let E := fresh in assert (E : sim3 = v) by (vm_compute; reflexivity); rewrite E; clear E). intros Hrun.
  match type of Hrun with nest_run _ (?p :: ?ps) => exists (map p_out sim2), (p :: ps), p, 1 end.
  eexists. split; [exact HH|]. split; [exact Hrun|]. split; [left; reflexivity|]. split; [reflexivity|]. split; [reflexivity|]. split; [reflexivity|]. split; [reflexivity|].
  clear Hrun HH. cbn [p_ranked]. intros q (s & Hs & Hin). unfold zget in Hs. destruct (q <? 0); [discriminate Hs|]. apply nth_error_In in Hs.
  cbn [In] in Hs. destruct Hs as [<-|[<-|[<-|[<-|[<-|[]]]]]]; cbn [s_nest In] in Hin; intuition discriminate.
Qed.
Print Assumptions C28_field_depth_refuted.
Example C29_witness : let p := get (@mkproc Z nat Q [] [] [] [] [] [] [] [] [] [] [] []) (nth_error sim2 0) in
  option_map (fun g => (map s_nest (fst g), snd g)) (glue (tl (p_table p)) (p_heads p) (p_nested p)) = Some ([[1]; []; [0]], [0%nat]).
Proof. vm_compute. reflexivity. Qed.
Definition spread := map (fun p => (key_sort (track_keys p), p)) (map (fun p => map (fun s => set_sink (-1) (-1) s) p) (map p_moved sim2)).
Example C30_witness : Forall (fun p => mapped_fill (track_keys (snd p)) (fst p)) spread /\
  NoDup (map s_track (registered (concat (map snd spread)))) /\ Forall (fun p => Forall (fun s => s_snapsink s <> 2) (snd p)) spread /\
  map (fun p => map s_nest (snd p)) spread = [[[1; 3]; []; []]; [[]]] /\
  option_map (map (map (fun s => (s_nest s, s_rank s)))) (localize spread) = Some [[([1], 0); ([], 1); ([], 0)]; [([], 0)]].
Proof.
  split; [unfold spread; rewrite Forall_map; apply Forall_forall; intros p _; apply key_sort_fill|].
  split; [vm_compute; repeat constructor; cbn; intuition discriminate|]. split; [vm_compute; repeat constructor; discriminate|]. split; vm_compute; reflexivity.
Qed.
Example C30_back_witness : let ls := map p_ranked sim2 in
  NoDup (map s_track (concat ls)) /\ (forall s, In s (concat ls) -> 0 <= s_track s) /\
  exists outs, Forall2 (fun l o => globalize 2 l = Some o) ls outs /\ Forall2 (fun h o => mapped_fill (track_keys o) h) (map (fun o => key_sort (track_keys o)) outs) outs /\
    map (map s_nest) outs = [[[1]; []; [0]]; [[]; []]].
Proof.
  cbv zeta. split; [vm_compute; repeat constructor; cbn; intuition discriminate|]. split.
  - intros s Hs. apply (in_map s_track) in Hs. revert Hs. generalize (s_track s). vm_compute. intuition; subst; discriminate.
  - exists (map (fun l => get [] (globalize 2 l)) (map p_ranked sim2)). split; [|split; [|vm_compute; reflexivity]].
    + value_of (map p_ranked sim2). repeat constructor.
    + generalize (map (fun l => get [] (globalize 2 l)) (map p_ranked sim2)). intros l. induction l; constructor; [apply key_sort_fill|assumption].
Qed.
