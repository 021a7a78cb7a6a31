(** The program: from host finding to the end of UpdateTracks. *)
From Coq Require Import List ZArith QArith Bool Lia Sorting.Sorted Sorting.Permutation.
From Verif.Model Require Import Run ListMem Mpi Mymath Hash Exchange ParticleExchange HaloExchange Hosts Subhalo Nest Unbind Merge Work Variants Tracks UpdateTracks UpdateInclusive Catalogue Program.
From Verif.Spec Require Import Exchange Query Members Forest Nesting NestHistory Masking Unbinding Ownership Leading Reporting Catalogue Program.
From Verif.Proofs Require Import ListMemProofs MpiProofs ListExtra MemberProofs CentralProofs CentralProofs2 TrackProofs NestProofs LocalizeProofs HistorySteps HistorySteps2 HistoryProofs NestFinal ReportProofs WorkParts KeepProofs OwnProofs OwnWork KeepWork InclusiveRun ProgramLoad ProgramHosts.
From Verif.Props Require Import PropsMerge PropsInclusive.
Import ListNotations.
Local Open Scope nat_scope.

Lemma nth_some {A} (d : A) l i : i < length l -> nth_error l i = Some (nth i l d).
Proof. intros Hi. apply nth_error_nth'. exact Hi. Qed.
Lemma map_nth_seq {A B} (f : nat -> B) (l : list A) (d : A) (h : B -> A) W : length l = W -> (forall i, h (f i) = nth i l d) -> map h (map f (seq 0 W)) = l.
Proof.
  intros HL Hf. apply nth_error_ext. intros i. rewrite map_map, nth_error_map, nth_seq. destruct (Nat.ltb_spec i W) as [Hi|Hi]; cbn.
  - rewrite Hf. symmetry. apply nth_some. lia.
  - symmetry. apply nth_error_None. lia.
Qed.

Lemma F2_at {A B} (P : A -> B -> Prop) l l' i x y : Forall2 P l l' -> nth_error l i = Some x -> nth_error l' i = Some y -> P x y.
Proof. intros H. revert i. induction H; intros [|i]; cbn; try discriminate; [congruence|apply IHForall2]. Qed.
Lemma localize_length {X R} (ps : list (list (Z * Z) * list (sub X R))) outs : localize ps = Some outs -> length outs = length ps.
Proof.
  unfold localize. destruct (mapM _ ps) as [rs|] eqn:E1; [|discriminate]. intros E2. apply mapM_length in E1, E2. rewrite E2, !combine_length, seq_length. lia.
Qed.

Section Steps.
  Context {X R S E : Type}.
  Variable g : setup X R S E.
  Hypothesis Hg : sane g.
  Local Notation subhalo := (sub X R).
  Local Notation subs_t := (list (sub X R)).
  Local Notation halo := (list (Z * X) * S)%type.
  Local Notation table_t := (list (list nat)).
  Local Notation proc := (@NestHistory.proc X R S).
  (** Unbinding in a build without stripping as unbinding with stripping (Proofs/KeepProofs.v). *)
  Local Notation neg_g := (neg_of (g_neg g) (g_strip g)).
  Local Notation pos_g := (pos_of (g_pos g) (g_strip g)).
  Local Notation sorter_g := (sorter_of (g_neg g) (g_pos g) (g_sorter g) (g_strip g)).
  Variables (W : nat) (snap : Z).
  Hypothesis Hsnap : (0 <= snap)%Z.
  Variable halos : list (list halo).
  Variable here : Z * X -> Prop.              (* the particles of the snapshot *)
  Hypothesis HLh : length halos = W.
  Hypothesis Hhalos : forall h p, In h (concat halos) -> In p (fst h) -> here p.
  Variable before : list subs_t.
  Hypothesis Hhist : nest_history (H := S) before.
  Variable moved : list subs_t.
  Hypothesis HLm : length moved = W.
  Hypothesis Hnest : Permutation (map nesting_of (concat before)) (map nesting_of (concat moved)).
  Hypothesis Hhosted : forall r l hs s, nth_error moved r = Some l -> nth_error halos r = Some hs -> In s l -> hosted halos hs s.
  Hypothesis Hmass : forall s, In s (concat moved) -> (0 <= s_mass s)%Q.
  Hypothesis Hparts : forall s p, In s (concat moved) -> In p (s_parts s) -> here p.
  Hypothesis Hsink : forall s, In s (concat moved) -> (s_snapsink s < snap)%Z.

  (** ** FeedCentrals *)
  Definition old_fed (hs : list halo) (s o : subhalo) : Prop := exists nb ps, o = set_nbound nb (set_parts ps s) /\ (forall p, In p ps -> here p) /\
    ((nb = s_nbound s /\ ps = s_parts s) \/ exists h, In h hs /\ nb = length (fst h) /\ Permutation (fst h) ps).
  Definition new_fed (hs : list halo) (o : subhalo) : Prop :=
    s_birth o = snap /\ s_snapsink o = (-1)%Z /\ (exists k h, nth_error hs k = Some h /\ s_host o = Z.of_nat k) /\ (forall p, In p (s_parts o) -> here p) /\
    exists h, In h hs /\ s_parts o = fst h /\ s_nbound o = length (fst h).
  Definition fed_good (m : subs_t) (hs : list halo) (t : table_t) (f : subs_t) : Prop :=
    (exists sort ratio dist centre sn fresh order st,
      sorts_by_mass m sort /\ (ratio <= 1)%Q /\ Permutation order (seq 0 (length hs)) /\
      centrals_step sort ratio dist centre sn fresh order m hs = Some (t, st) /\ f = Subhalo.f_subs st) /\
    exists olds news, f = olds ++ news /\ Forall2 (old_fed hs) m olds /\ Forall (new_fed hs) news.

  Lemma in_moved r l s : nth_error moved r = Some l -> In s l -> In s (concat moved).
  Proof. intros Hl Hs. apply in_concat. exists l. split; [eapply nth_error_In; eauto|exact Hs]. Qed.
  Lemma host_range r l hs s : nth_error moved r = Some l -> nth_error halos r = Some hs -> In s l -> (-1 <= s_host s < Z.of_nat (length hs))%Z.
  Proof.
    intros Hl Hh Hs. pose proof (Hhosted r l hs s Hl Hh Hs) as HH. unfold hosted in HH. destruct (s_parts s); [lia|]. destruct HH as [(k & h & Hk & _ & ->)|(_ & ->)]; [|lia]. apply nth_error_lt in Hk. lia.
  Qed.
  Lemma hosts_found_at r l hs : nth_error moved r = Some l -> nth_error halos r = Some hs ->
    Forall (fun s => (-1 <= s_host s < Z.of_nat (length hs))%Z) l /\ Forall (fun s => (0 <= s_mass s)%Q) l /\ Forall (fun s => (0 <= s_host s)%Z -> s_parts s <> []) l.
  Proof.
    intros Hl Hh. split; [|split]; apply Forall_forall; intros s Hs.
    - eapply host_range; eauto.
    - apply Hmass. eapply in_moved; eauto.
    - intros Hpos Ep. pose proof (Hhosted r l hs s Hl Hh Hs) as HH. unfold hosted in HH. rewrite Ep in HH. lia.
  Qed.

  Lemma fed_ok : exists fed, each (fed_by g snap) (combine moved halos) = Done fed /\ length fed = W /\
    forall r m hs t f, nth_error moved r = Some m -> nth_error halos r = Some hs -> nth_error fed r = Some (t, f) -> fed_good m hs t f.
  Proof.
    destruct (each_done (fed_by g snap) (fun r sh tf => fed_good (fst sh) (snd sh) (fst tf) (snd tf)) (combine moved halos)) as (fed & Ef & Lf & Hf).
    - intros r [m hs] Hr. apply combine_nth_error_inv in Hr as [Hm Hh]. destruct (hosts_found_at r m hs Hm Hh) as (H1 & H2 & H3). cbn [fst snd].
      destruct (step_spec (g_sort_mass g m) (g_ratio g) (g_dist g snap) m hs H1 (sn_mass _ Hg m) H2 (sn_ratio _ Hg) (g_centre g) snap (g_fresh g) H3 (g_sched g snap r 0 (seq 0 (length hs))) (sn_sched _ Hg _ _ _ _))
        as (table & st & Ec & Hgood & Hfinv & Hcnt).
      unfold fed_by. cbn [fst snd]. rewrite Ec. cbn [of_opt rbind fst snd]. eexists. split; [reflexivity|]. cbn [fst snd]. split.
      { exists (g_sort_mass g m), (g_ratio g), (g_dist g snap), (g_centre g), snap, (g_fresh g), (g_sched g snap r 0 (seq 0 (length hs))), st.
        split; [apply (sn_mass _ Hg)|]. split; [apply (sn_ratio _ Hg)|]. split; [apply (sn_sched _ Hg)|]. auto. }
      destruct Hfinv as (olds & E1 & L1 & _ & _ & _ & Hun & Hfd). rewrite Hcnt, Nat.sub_diag in E1. cbn [repeat] in E1. rewrite app_nil_r in E1.
      exists olds, (map (newborn (g_centre g) snap (g_fresh g) hs) (filter (is_empty_group table) (g_sched g snap r 0 (seq 0 (length hs))))). split; [exact E1|].
      assert (Hhp : forall h p, In h hs -> In p (fst h) -> here p). { intros h p Hh' Hp. eapply Hhalos; [|exact Hp]. apply in_concat. exists hs. split; [eapply nth_error_In; eauto|exact Hh']. }
      split.
      + apply Forall2_of_nth; [lia|]. intros i s o Hs Ho. assert (Hdec : (exists gg m0 rest, In gg (g_sched g snap r 0 (seq 0 (length hs))) /\ nth_error table (Datatypes.S gg) = Some (m0 :: rest) /\ m0 = i) \/
          (forall gg m0 rest, In gg (g_sched g snap r 0 (seq 0 (length hs))) -> nth_error table (Datatypes.S gg) = Some (m0 :: rest) -> m0 <> i)).
        { clear. induction (g_sched g snap r 0 (seq 0 (length hs))) as [|a l IH]; [right; intros ? ? ? []|]. destruct IH as [(gg & m0 & rest & A & B & C)|IH]; [left; exists gg, m0, rest; split; [right; exact A|auto]|].
          destruct (nth_error table (Datatypes.S a)) as [[|m0 rest]|] eqn:Ea; try (right; intros gg m1 r1 [<-|Hg'] Hn; [congruence|eauto]).
          destruct (Nat.eq_dec m0 i) as [->|Hne]; [left; exists a, i, rest; split; [left; reflexivity|auto]|]. right. intros gg m1 r1 [<-|Hg'] Hn; [congruence|eauto]. }
        destruct Hdec as [(gg & m0 & rest & A & B & ->)|Hno].
        * destruct (Hfd gg i rest A B) as (s' & Hs' & c & p0 & pr & parts' & Hc & _ & -> & HP & _). assert (c = s) by congruence. assert (o = set_nbound (length (halo_parts hs gg)) (set_parts parts' c)) by congruence. subst.
          exists (length (halo_parts hs gg)), parts'. split; [reflexivity|]. apply (Permutation_in _ (sn_sched _ Hg _ _ _ _)) in A. apply in_seq in A. unfold halo_parts in *. destruct (nth_error_in_range hs gg) as [[hp h] Eh]; [lia|]. rewrite Eh in *. split.
          -- intros p Hp. apply (Permutation_in _ (Permutation_sym HP)) in Hp. eapply Hhp; [eapply nth_error_In; exact Eh|exact Hp].
          -- right. exists (hp, h). split; [eapply nth_error_In; exact Eh|]. split; [reflexivity|exact HP].
        * rewrite (Hun i Hno) in Ho. assert (o = s) by congruence. subst o. exists (s_nbound s), (s_parts s). split; [destruct s; reflexivity|]. split; [|left; split; reflexivity]. intros p Hp. eapply Hparts; [|exact Hp]. eapply in_moved; [exact Hm|eapply nth_error_In; exact Hs].
      + apply Forall_forall. intros o Ho. apply in_map_iff in Ho as (gg & <- & Hgg). apply filter_In in Hgg as [Hgg _]. apply (Permutation_in _ (sn_sched _ Hg _ _ _ _)) in Hgg. apply in_seq in Hgg.
        destruct (nth_error_in_range hs gg) as [[hp h] Eh]; [lia|]. unfold newborn. rewrite Eh. split; [reflexivity|]. split; [reflexivity|]. split; [exists gg, (hp, h); auto|]. cbn. split; [intros p Hp; eapply Hhp; [eapply nth_error_In; exact Eh|exact Hp]|]. exists (hp, h). split; [eapply nth_error_In; exact Eh|split; reflexivity].
    - exists fed. split; [exact Ef|]. rewrite combine_length in Lf. split; [lia|]. intros r m hs t f Hm Hh Hf'. exact (proj2 (Hf r (m, hs) (t, f) (combine_nth_error _ _ _ _ _ Hm Hh) Hf')).
  Qed.

  (** ** All steps *)
  Definition kept (hs : list halo) (s o : subhalo) : Prop :=
    s_track o = s_track s /\ s_birth o = s_birth s /\
    (if Z.eqb (s_host s) (-1) then s_host o = (-1)%Z else exists h, nth_error hs (Z.to_nat (s_host s)) = Some h /\ s_host o = g_halo_id g (snd h)) /\
    (((s_lastmax s <= s_mass o)%Q -> s_lastmax o = s_mass o /\ s_snapmax o = snap) /\
     ((s_mass o < s_lastmax s)%Q -> s_lastmax o = s_lastmax s /\ s_snapmax o = s_snapmax s)) /\
    s_snapiso o = (if Z.eqb (s_rank o) 0 then snap else s_snapiso s).
  Definition born (hs : list halo) (o : subhalo) : Prop :=
    s_birth o = snap /\ 1 < s_nbound o /\ exists h, In h hs /\ s_host o = g_halo_id g (snd h).
  Definition fine (o : subhalo) : Prop :=
    (forall p, In p (s_parts o) -> here p) /\ s_nbound o <= length (s_parts o) /\ (s_snapsink o <= snap)%Z /\ (s_mass o <= s_lastmax o)%Q.

  (** What the particles of the subhalos and of the halos have to be for the work to settle who owns them. *)
  Definition tidy (m : subs_t) (hs : list halo) : Prop :=
    Forall (fun s => compact s /\ NoDup (part_ids s)) m /\ Forall (fun h : halo => NoDup (map fst (fst h))) hs.
  (** Every subhalo and every halo lists each particle once. *)
  Definition once (m : subs_t) (hs : list halo) : Prop := Forall (fun s => NoDup (part_ids s)) m /\ Forall (fun h : halo => NoDup (map fst (fst h))) hs.
  Definition owned_g (o : subhalo) : Prop := owned (g_pmass g) o /\ (g_strip g = false -> whole o).
  Definition step_result (final : list subs_t) : Prop :=
    length final = W /\
    (exists after : list subs_t, nest_history (H := S) after /\ Permutation (map nesting_of (concat after)) (map nesting_of (concat final))) /\
    (forall r m hs out, nth_error moved r = Some m -> nth_error halos r = Some hs -> nth_error final r = Some out ->
       (exists olds news, out = olds ++ news /\ Forall2 (kept hs) m olds /\ Forall (born hs) news) /\ Forall fine out /\
       (g_inclusive g = false -> tidy m hs -> NoDup (map (fun h : halo => g_halo_id g (snd h)) hs) -> Forall owned_g out /\ separate (g_merge g) snap out) /\
       (g_inclusive g = true -> once m hs -> Forall (fun s => NoDup (part_ids s)) out) /\
       (g_inclusive g = true -> NoDup (map (fun h : halo => g_halo_id g (snd h)) hs) -> led out)).

  Definition after_hosts : run (list subs_t) :=
    rbind (each (fed_by g snap) (combine moved halos)) (fun fed =>
    rbind (of_opt (localize (map (fun f => (g_sort_keys g (track_keys (snd f)), snd f)) fed))) (fun locals =>
    rbind (each (nested_by g snap) (combine (map fst fed) locals)) (fun nested =>
    rbind (each (worked_by g snap) (combine (map fst fed) nested)) (fun work =>
    rbind (of_opt (register (combine work (map (fun f => count_empty (fst f)) fed)))) (fun regs =>
    each (finished_by g snap) (combine halos (combine regs (map snd nested)))))))).

  Section Build.
    Variables (fed : list (table_t * subs_t)) (locals : list subs_t) (nested : list (subs_t * list (list nat))) (works regs ranked outs : list subs_t).
    Definition proc_at (i : nat) : proc :=
      mkproc (nth i moved []) (nth i halos []) (fst (nth i fed ([], []))) (snd (nth i fed ([], []))) (g_sort_keys g (track_keys (snd (nth i fed ([], [])))))
        (nth i locals []) (fst (nth i nested ([], []))) (snd (nth i nested ([], []))) (nth i works []) (nth i regs []) (nth i ranked []) (nth i outs []).
    Definition procs : list proc := map proc_at (seq 0 W).
    Lemma procs_nth i : i < W -> nth_error procs i = Some (proc_at i).
    Proof. intros Hi. unfold procs. rewrite nth_error_map, nth_seq, (proj2 (Nat.ltb_lt _ _) Hi). reflexivity. Qed.
    Lemma procs_in p : In p procs -> exists i, i < W /\ p = proc_at i.
    Proof. unfold procs. intros Hp. apply in_map_iff in Hp as (i & <- & Hi). apply in_seq in Hi. exists i. split; [lia|reflexivity]. Qed.
  End Build.

  (** What happens on the way. *)
  Definition trace (fed : list (table_t * subs_t)) (locals : list subs_t) (nested : list (subs_t * list (list nat))) (works regs regs0 final : list subs_t) : Prop :=
    each (fed_by g snap) (combine moved halos) = Done fed /\
    localize (map (fun f => (g_sort_keys g (track_keys (snd f)), snd f)) fed) = Some locals /\
    each (nested_by g snap) (combine (map fst fed) locals) = Done nested /\
    each (worked_by g snap) (combine (map fst fed) nested) = Done works /\
    register (combine works (map (fun f => count_empty (fst f)) fed)) = Some regs /\
    each (finished_by g snap) (combine halos (combine regs (map snd nested))) = Done final /\
    length fed = W /\ length locals = W /\ length nested = W /\ length works = W /\ length regs = W /\
    nest_begun before (procs fed locals nested (map fst nested) regs0 [] []) /\ nest_begun before (procs fed locals nested works regs [] []).
  Lemma steps_trace : exists fed locals nested works regs regs0 final, trace fed locals nested works regs regs0 final /\ step_result final.
  Proof.
    destruct fed_ok as (fed & Ef & Lf & Hf).
    assert (HFed : forall i, i < W -> fed_good (nth i moved []) (nth i halos []) (fst (nth i fed ([], []))) (snd (nth i fed ([], [])))).
    { intros i Hi. apply (Hf i); [apply nth_some; lia|apply nth_some; lia|]. rewrite (nth_some ([], []) fed i) by lia. destruct (nth i fed ([], [])); reflexivity. }
    assert (Hnf : forall locals nested works regs ranked outs, nest_fed before (procs fed locals nested works regs ranked outs)).
    { intros. split; [|split; [|split]].
      - unfold procs. rewrite (map_nth_seq (proc_at fed locals nested works regs ranked outs) moved [] p_moved W HLm (fun i => eq_refl)). exact Hnest.
      - apply Forall_forall. intros p Hp. apply procs_in in Hp as (i & Hi & ->). apply (hosts_found_at i); apply nth_some; lia.
      - apply Forall_forall. intros p Hp. apply procs_in in Hp as (i & Hi & ->). apply (HFed i Hi).
      - apply Forall_forall. intros p Hp. apply procs_in in Hp as (i & Hi & ->). apply (sn_keys _ Hg). }
    destruct (nest_total_length before (procs fed [] [] [] [] [] []) Hhist (Hnf _ _ _ _ _ _)) as (locals & El & Htot).
    assert (Eloc : forall locals nested works regs ranked outs, map (fun p => (p_hash p, p_fed p)) (procs fed locals nested works regs ranked outs) = map (fun f => (g_sort_keys g (track_keys (snd f)), snd f)) fed).
    { intros. unfold procs. rewrite map_map. apply nth_error_ext. intros i. rewrite !nth_error_map, nth_seq. destruct (Nat.ltb_spec i W) as [Hi|Hi]; cbn [option_map].
      - rewrite (nth_some ([], []) fed i) by lia. reflexivity.
      - rewrite (proj2 (nth_error_None fed i)) by lia. reflexivity. }
    assert (Ll : length locals = W). { apply localize_length in El. rewrite map_length in El. unfold procs in El. rewrite map_length, seq_length in El. exact El. }
    rewrite Eloc in El.
    (* nesting *)
    destruct (each_done (nested_by g snap) (fun r tl n => length (fst n) = length (nth r moved []) + count_empty (fst tl)) (combine (map fst fed) locals)) as (nested & En & Ln & Hn).
    { intros r [t l] Hr. apply combine_nth_error_inv in Hr as [Ht Hl]. rewrite nth_error_map in Ht. destruct (nth_error fed r) as [[t' f]|] eqn:Efr; [|discriminate]. cbn in Ht. injection Ht as ->.
      assert (Hr : r < W) by (apply nth_error_lt in Hl; lia). destruct (Htot r _ l (g_sched g snap r 1 (seq 0 (length l))) (procs_nth fed [] [] [] [] [] [] r Hr) Hl (sn_sched _ Hg _ _ _ _)) as (subs & heads & E1 & E2).
      cbn [proc_at p_table p_moved] in E1, E2. rewrite (nth_error_nth _ _ ([], []) Efr) in E1, E2. cbn [fst] in E1, E2. exists (subs, heads). unfold nested_by. cbn [fst snd]. rewrite E1. auto. }
    rewrite combine_length, map_length in Ln. replace (Nat.min (length fed) (length locals)) with W in Ln by lia.
    assert (HN : forall i, i < W -> nest_local (length (nth i locals [])) (g_sched g snap i 1 (seq 0 (length (nth i locals [])))) (fst (nth i fed ([], []))) (nth i locals []) = Done (fst (nth i nested ([], [])), snd (nth i nested ([], []))) /\
      length (fst (nth i nested ([], []))) = length (nth i moved []) + count_empty (fst (nth i fed ([], [])))).
    { intros i Hi. destruct (Hn i (fst (nth i fed ([], [])), nth i locals []) (nth i nested ([], []))) as [A B].
      - apply combine_nth_error; [|apply nth_some; lia]. erewrite map_nth_error; [reflexivity|]. apply nth_some. lia.
      - apply nth_some. lia.
      - unfold nested_by in A. cbn [fst snd] in A, B. rewrite A. destruct (nth i nested ([], [])); auto. }
    assert (Hnst : forall works regs ranked outs, Forall NestHistory.nested (procs fed locals nested works regs ranked outs)).
    { intros. apply Forall_forall. intros p Hp. apply procs_in in Hp as (i & Hi & ->). eexists. split; [|exact (proj1 (HN i Hi))]. apply (sn_sched _ Hg). }
    assert (Hloc : forall works regs ranked outs, localize (map (fun p => (p_hash p, p_fed p)) (procs fed locals nested works regs ranked outs)) = Some (map p_local (procs fed locals nested works regs ranked outs))).
    { intros. rewrite Eloc, El. f_equal. symmetry. apply (map_nth_seq _ locals [] p_local W Ll). reflexivity. }
    (* registration of any work of the right length *)
    assert (Hreg : forall works, length works = W -> (forall i, i < W -> length (nth i works []) = length (fst (nth i nested ([], [])))) ->
      exists regs, register (combine works (map (fun f => count_empty (fst f)) fed)) = Some regs /\ length regs = W /\
        (forall ranked outs, register (map (fun p => (p_work p, count_empty (p_table p))) (procs fed locals nested works regs ranked outs)) = Some (map p_reg (procs fed locals nested works regs ranked outs))) /\
        forall i, i < W -> exists base, nth i regs [] = firstn (length (nth i moved [])) (nth i works []) ++ number_from base (filter isbound (skipn (length (nth i moved [])) (nth i works [])))).
    { intros works Lw Hw. set (rp := combine works (map (fun f => count_empty (fst f)) fed)).
      assert (Lrp : length rp = W) by (unfold rp; rewrite combine_length, map_length; lia).
      assert (Hrp : forall i, i < W -> nth_error rp i = Some (nth i works [], count_empty (fst (nth i fed ([], []))))).
      { intros i Hi. unfold rp. apply combine_nth_error; [apply nth_some; lia|]. erewrite map_nth_error; [reflexivity|]. apply nth_some. lia. }
      destruct (register_spec rp) as (regs & Er & Lr & Hr & _).
      { apply Forall_forall. intros q Hq. apply In_nth_error in Hq as [i Hi]. assert (i < W) by (apply nth_error_lt in Hi; lia). rewrite Hrp in Hi by assumption. injection Hi as <-. cbn [fst snd]. rewrite Hw by assumption. rewrite (proj2 (HN i H)). lia. }
      exists regs. split; [exact Er|]. split; [lia|]. split.
      - intros ranked outs. replace (map (fun p => (p_work p, count_empty (p_table p))) (procs fed locals nested works regs ranked outs)) with rp.
        + rewrite Er. f_equal. symmetry. apply (map_nth_seq _ regs [] p_reg W); [lia|reflexivity].
        + apply nth_error_ext. intros i. unfold procs. rewrite map_map, nth_error_map, nth_seq. destruct (Nat.ltb_spec i W) as [Hi|Hi]; cbn [option_map]; [apply Hrp; exact Hi|apply nth_error_None; lia].
      - intros i Hi. specialize (Hr i _ (Hrp i Hi)). exists (Z.of_nat (base_of rp i)). assert (Hr' := nth_some [] regs i ltac:(lia)). rewrite Hr in Hr'. injection Hr' as <-. unfold old_of, new_of. cbn [fst snd]. rewrite (Hw i Hi), (proj2 (HN i Hi)).
        replace (length (nth i moved []) + _ - _) with (length (nth i moved [])) by lia. reflexivity. }
    (* a first registration, to know the work *)
    destruct (Hreg (map fst nested)) as (regs0 & _ & Lr0 & Hr0 & _); [rewrite map_length; exact Ln| |].
    { intros i Hi. change (@nil subhalo) with (fst (@nil subhalo, @nil (list nat))). rewrite map_nth. reflexivity. }
    set (ps0 := procs fed locals nested (map fst nested) regs0 [] []) in *.
    assert (Hb0 : nest_begun before ps0).
    { split; [apply Hnf|]. split; [apply Hloc|]. split; [apply Hnst|]. split; [|apply Hr0]. apply Forall_forall. intros p Hp. apply procs_in in Hp as (i & Hi & ->). unfold worked, proc_at. cbn [p_nested p_work].
      change (@nil subhalo) with (fst (@nil subhalo, @nil (list nat))) at 2. rewrite map_nth. clear. induction (fst (nth i nested ([], []))); constructor; auto. }
    destruct (begun_spec before ps0 (history_ok _ Hhist) Hb0) as [Hsp _]. destruct (sn_sorter _ Hg) as [lt Hlt]. assert (Hlt' := sorter_of_ok (g_neg g) (g_pos g) lt (g_sorter g) (sn_sign _ Hg) Hlt (g_strip g)). assert (sign_g := sign_of (g_neg g) (g_pos g) (sn_sign _ Hg) (g_strip g)).
    set (Q := fun i (w : subs_t) => Forall2 (fun a b => nesting_of a = nesting_of b /\ s_host a = s_host b) (fst (nth i nested ([], []))) w /\
      Forall (fun s => s_nbound s <= length (s_parts s)) w /\ inv here snap (length (nth i moved [])) (fst (nth i nested ([], []))) w /\
      (g_inclusive g = true -> once (nth i moved []) (nth i halos []) -> Forall (fun s => NoDup (part_ids s)) w) /\
      (g_inclusive g = false -> tidy (nth i moved []) (nth i halos []) -> Forall owned_g w /\
        forall k1 k2 s u, nth_error w k1 = Some s -> nth_error w k2 = Some u -> k1 <> k2 -> s_host s = s_host u -> s_host s <> (-1)%Z -> 1 < s_nbound s -> 1 < s_nbound u ->
          (g_merge g = true -> ~ fed_by_merger snap (length (nth i moved [])) w (Z.of_nat k1) /\ ~ fed_by_merger snap (length (nth i moved [])) w (Z.of_nat k2)) -> forall id, In id (bound_ids s) -> ~ In id (bound_ids u))).
    destruct (each_done (worked_by g snap) (fun r _ w => Q r w) (combine (map fst fed) nested)) as (works & Ew & Lw & Hw).
    { intros r [t [subs heads]] Hr. apply combine_nth_error_inv in Hr as [Ht Hnr]. rewrite nth_error_map in Ht. destruct (nth_error fed r) as [[t' f]|] eqn:Efr; [|discriminate]. cbn in Ht. injection Ht as ->.
      assert (Hr : r < W) by (apply nth_error_lt in Hnr; lia). assert (Hp0 := procs_nth fed locals nested (map fst nested) regs0 [] [] r Hr). fold ps0 in Hp0.
      destruct (Hsp r _ Hp0) as (_ & (tn & HNa) & Hheads & _ & Hren). cbn [proc_at p_moved p_halos p_table p_fed p_nested p_heads] in HNa, Hheads, Hren.
      rewrite (nth_error_nth _ _ ([], []) Efr), (nth_error_nth _ _ ([], []) Hnr) in HNa, Hheads, Hren. cbn [fst snd] in HNa, Hheads, Hren.
      destruct HNa as (_ & HLs & HLt & HTG & _ & Hfresh & _).
      assert (Lhd : length heads = length (nth r halos [])). { rewrite (mapM_length _ _ _ Hheads). destruct t; cbn in *; lia. }
      assert (Horig : forall i s, nth_error subs i = Some s -> exists fs n rk, nth_error f i = Some fs /\ s = set_nest n (set_rank rk fs) /\
        ((exists m, nth_error (nth r moved []) i = Some m /\ old_fed (nth r halos []) m fs) \/ (length (nth r moved []) <= i /\ new_fed (nth r halos []) fs))).
      { intros i s Hs. destruct (nth_error_in_range f i) as [fs Hfs]; [rewrite (Forall2_length_eq _ _ _ Hren); eapply nth_error_lt; eauto|].
        pose proof (F2_at _ _ _ _ _ _ Hren Hfs Hs) as (n & rk & ->). exists fs, n, rk. split; [exact Hfs|]. split; [reflexivity|].
        destruct (HFed r Hr) as (_ & olds & news & Eo & HO & HNw). rewrite (nth_error_nth _ _ ([], []) Efr) in Eo. cbn [snd] in Eo. subst f. assert (Lo := Forall2_length_eq _ _ _ HO).
        destruct (lt_dec i (length olds)) as [Hi|Hi].
        - left. rewrite nth_error_app1 in Hfs by exact Hi. destruct (nth_error_in_range (nth r moved []) i) as [m Hm]; [lia|]. exists m. split; [exact Hm|]. exact (F2_at _ _ _ _ _ _ HO Hm Hfs).
        - right. rewrite nth_error_app2 in Hfs by lia. rewrite Forall_forall in HNw. split; [lia|]. exact (HNw fs (nth_error_In _ _ Hfs)). }
      assert (Hsmall : forall c gg, In (c :: gg) (tl t) -> c < length (nth r moved [])).
      { intros c gg Hin. assert (Hin' : In (c :: gg) t) by (destruct t; [destruct Hin|right; exact Hin]). apply In_nth_error in Hin' as [n Hn']. apply (hosted_lt (nth r moved []) c (Z.of_nat n - 1)). apply (HTG n _ Hn'). left; reflexivity. }
      assert (Hinv : inv here snap (length (nth r moved [])) subs subs).
      { split; [reflexivity|]. intros i b s Hb Hs. assert (b = s) by congruence. subst b.
        destruct (Horig i s Hs) as (fs & n & rk & Hfs & -> & Ho).
        assert (Hfact : Forall here (s_parts fs) /\ (s_snapsink fs < snap)%Z).
        { destruct Ho as [(m & Hm & nb & pp & -> & Hpp & _)|(_ & _ & Hs1 & _ & Hpp & _)].
          - cbn. split; [apply Forall_forall; exact Hpp|]. apply Hsink. eapply in_moved; [apply (nth_some [] moved r); lia|eapply nth_error_In; exact Hm].
          - split; [apply Forall_forall; exact Hpp|lia]. }
        split; [repeat split; reflexivity|]. split; [exact (proj1 Hfact)|]. split; [left; exact (proj2 Hfact)|].
        intros Hi. rewrite Forall_forall in Hfresh. destruct (Hfresh (set_nest n (set_rank rk fs))) as (_ & _ & A & _); [|exact A]. eapply nth_error_In with (n := i - length (nth r moved [])). rewrite nth_skipn. replace (length (nth r moved []) + (i - length (nth r moved []))) with i by lia. exact Hs. }
      assert (EX := unbind_of_same (g_neg g) (g_pos g) lt (g_sorter g) (sn_sign _ Hg) Hlt (g_strip g) (g_shuffle g snap) (g_energy g snap) (g_inner g snap) (g_no_energy g) (g_rest_of g snap) (g_pmass g) (g_min_part g) (g_converged g) (g_max_sample g) (g_refine g) snap).
      destruct (g_inclusive g) eqn:Hinc.
      { destruct (C86_work neg_g pos_g lt sorter_g (g_shuffle g snap) (g_energy g snap) (g_inner g snap) (g_no_energy g) (g_rest_of g snap) (g_pmass g) (g_min_part g) (g_converged g) (g_max_sample g) (g_refine g) (g_allowed g) snap (g_near g snap)
          sign_g Hlt' (sn_shuffle _ Hg snap) (sn_min_part _ Hg) (sn_converged _ Hg) (sn_allowed _ Hg) Hsnap S before ps0 _ (g_merge g)
          (g_sched g snap r 4 (seq 0 (length subs))) (g_sched g snap r 5 (seq 0 (length subs))) (g_sched g snap r 6 (seq 0 (length subs))) (g_sched g snap r 7 (seq 0 (length heads))) (g_sched g snap r 8 (seq 0 (length subs)))
          Hhist Hb0 (nth_error_In _ _ Hp0)) as (rf & mk & w & Ew & _ & _ & _ & _ & Sw & _ & _ & Bw);
          cbn [proc_at p_moved p_halos p_table p_fed p_nested p_heads]; rewrite ?(nth_error_nth _ _ ([], []) Efr), ?(nth_error_nth _ _ ([], []) Hnr); cbn [fst snd]; try (rewrite <- Lhd); try apply (sn_sched _ Hg).
        cbn [proc_at p_moved p_halos p_table p_fed p_nested p_heads] in Ew, Sw. rewrite (nth_error_nth _ _ ([], []) Hnr) in Ew, Sw. rewrite (nth_error_nth _ _ ([], []) Efr) in Ew. cbn [fst snd] in Ew, Sw.
        exists w. split; [unfold worked_by; rewrite Hinc; rewrite (work_inclusive_ext _ _ (truncate (g_allowed g)) EX); exact Ew|]. unfold Q. rewrite (nth_error_nth _ _ ([], []) Hnr). cbn [fst].
        split; [eapply Forall2_impl; [|exact Sw]; cbn; intros x y (A & B & _); auto|]. split; [exact Bw|]. split; [|split; [|discriminate]].
        - eapply (work_inclusive_inv here snap (length (nth r moved [])) Hsnap subs); [apply (sn_shuffle _ Hg snap)|exact Hsmall|exact Hinv|exact Ew].
        - intros _ [Ht1 Ht2]. rewrite Forall_forall in Ht1, Ht2. apply Forall_forall. intros v Hv. apply In_nth_error in Hv as [i Hv]. destruct (nth_error_in_range subs i) as [s Hs]; [rewrite (Forall2_length_eq _ _ _ Sw); eapply nth_error_lt; eauto|].
          destruct (F2_at _ _ _ _ _ _ Sw Hs Hv) as (_ & _ & lost & HPl). assert (HNs : NoDup (part_ids s)).
          { destruct (Horig i s Hs) as (fs & n & rk & _ & -> & [(m & Hm & nb & pp & -> & _ & [[-> ->]|(h & Hh & -> & HP)])|(_ & _ & _ & _ & _ & h & Hh & E1 & E2)]); unfold part_ids; cbn.
            - exact (Ht1 m (nth_error_In _ _ Hm)).
            - eapply Permutation_NoDup; [apply Permutation_map, HP|]. exact (Ht2 h Hh).
            - rewrite E1. exact (Ht2 h Hh). }
          unfold part_ids in *. apply (Permutation_map fst) in HPl. rewrite map_app in HPl. eapply NoDup_app_remove_r. eapply Permutation_NoDup; [symmetry; exact HPl|exact HNs]. }
      destruct (C54_work neg_g pos_g lt sorter_g (g_shuffle g snap) (g_energy g snap) (g_inner g snap) (g_no_energy g) (g_rest_of g snap) (g_pmass g) (g_min_part g) (g_converged g) (g_max_sample g) (g_refine g) (g_allowed g) snap (g_near g snap)
        sign_g Hlt' (sn_shuffle _ Hg snap) (sn_min_part _ Hg) (sn_converged _ Hg) (sn_allowed _ Hg) Hsnap S before ps0 _ (g_merge g)
        (g_sched g snap r 2 (seq 0 (length heads))) (g_sched g snap r 3 (seq 0 (length heads))) (g_sched g snap r 4 (unnested t subs))
        (g_sched g snap r 5 (seq 0 (length subs))) (g_sched g snap r 6 (seq 0 (length subs))) (g_sched g snap r 7 (seq 0 (length heads))) (g_sched g snap r 8 (seq 0 (length subs)))
        Hhist Hb0 (nth_error_In _ _ Hp0)) as (w & Ew & Sw & _ & _ & Bw);
        cbn [proc_at p_moved p_halos p_table p_fed p_nested p_heads]; rewrite ?(nth_error_nth _ _ ([], []) Efr), ?(nth_error_nth _ _ ([], []) Hnr); cbn [fst snd]; try (rewrite <- Lhd); try apply (sn_sched _ Hg).
      cbn [proc_at p_moved p_halos p_table p_fed p_nested p_heads] in Ew, Sw. rewrite (nth_error_nth _ _ ([], []) Hnr) in Ew, Sw. rewrite (nth_error_nth _ _ ([], []) Efr) in Ew. cbn [fst snd] in Ew, Sw.
      exists w. split; [unfold worked_by; rewrite Hinc; rewrite (work_ext _ _ (truncate (g_allowed g)) EX); exact Ew|]. unfold Q. rewrite (nth_error_nth _ _ ([], []) Hnr). cbn [fst]. split; [exact Sw|]. split; [exact Bw|].
      split; [|split; [intros HX; congruence|intros _ [Ht1 Ht2]]].
      2:{ rewrite Forall_forall in Ht1, Ht2. assert (Hcn : Forall (fun s => compact s /\ NoDup (part_ids s)) subs).
          { apply Forall_forall. intros s Hs. apply In_nth_error in Hs as [i Hi]. destruct (Horig i s Hi) as (fs & n & rk & _ & -> & [(m & Hm & nb & pp & -> & _ & [[-> ->]|(h & Hh & -> & HP)])|(_ & _ & _ & _ & _ & h & Hh & E1 & E2)]); unfold compact, part_ids; cbn.
            - exact (Ht1 m (nth_error_In _ _ Hm)).
            - rewrite (Permutation_length HP). split; [auto|]. eapply Permutation_NoDup; [apply Permutation_map, HP|]. exact (Ht2 h Hh).
            - rewrite E1, E2. split; [auto|]. exact (Ht2 h Hh). }
          pose proof (work_owned neg_g pos_g lt sorter_g (g_shuffle g snap) (g_energy g snap) (g_inner g snap) (g_no_energy g) (g_rest_of g snap) (g_pmass g) (g_min_part g) (g_converged g) (g_max_sample g) (g_refine g) (g_allowed g) snap (g_near g snap)
            sign_g Hlt' (sn_shuffle _ Hg snap) (sn_min_part _ Hg) (sn_converged _ Hg) (sn_allowed _ Hg) Hsnap S before ps0 _ (g_merge g)
            (g_sched g snap r 2 (seq 0 (length heads))) (g_sched g snap r 3 (seq 0 (length heads))) (g_sched g snap r 4 (unnested t subs))
            (g_sched g snap r 5 (seq 0 (length subs))) (g_sched g snap r 6 (seq 0 (length subs))) (g_sched g snap r 7 (seq 0 (length heads))) (g_sched g snap r 8 (seq 0 (length subs))) w
            Hhist Hb0 (nth_error_In _ _ Hp0)) as HWO.
          cbn [proc_at p_moved p_halos p_table p_fed p_nested p_heads] in HWO. rewrite (nth_error_nth _ _ ([], []) Hnr) in HWO. rewrite (nth_error_nth _ _ ([], []) Efr) in HWO. cbn [fst snd] in HWO. rewrite <- Lhd in HWO.
          assert (HC1 : Forall compact subs) by (eapply Forall_impl; [|exact Hcn]; intros s [A _]; exact A).
          assert (HWW : g_strip g = false -> Forall whole w).
          { intros Hst. pose proof (work_whole lt sorter_g (g_shuffle g snap) (g_energy g snap) (g_inner g snap) (g_no_energy g) (g_rest_of g snap) (g_pmass g) (g_min_part g) (g_converged g) (g_max_sample g) (g_refine g) (g_allowed g) snap (g_near g snap)
              Hlt' (sn_shuffle _ Hg snap) (sn_min_part _ Hg) (sn_converged _ Hg) (sn_allowed _ Hg) Hsnap S before ps0 _ (g_merge g)
              (g_sched g snap r 2 (seq 0 (length heads))) (g_sched g snap r 3 (seq 0 (length heads))) (g_sched g snap r 4 (unnested t subs))
              (g_sched g snap r 5 (seq 0 (length subs))) (g_sched g snap r 6 (seq 0 (length subs))) (g_sched g snap r 7 (seq 0 (length heads))) (g_sched g snap r 8 (seq 0 (length subs))) w
              Hhist Hb0 (nth_error_In _ _ Hp0)) as HWO'.
            cbn [proc_at p_moved p_halos p_table p_fed p_nested p_heads] in HWO'. rewrite (nth_error_nth _ _ ([], []) Hnr) in HWO'. rewrite (nth_error_nth _ _ ([], []) Efr) in HWO'. cbn [fst snd] in HWO'. rewrite <- Lhd in HWO'.
            apply HWO'; try apply (sn_sched _ Hg); [exact HC1|]. replace neg_g with (@all E) in Ew by (unfold neg_of; rewrite Hst; reflexivity). replace pos_g with (@none E) in Ew by (unfold pos_of; rewrite Hst; reflexivity). exact Ew. }
          assert (HWO2 : Forall (owned (g_pmass g)) w /\ forall k1 k2 s u, nth_error w k1 = Some s -> nth_error w k2 = Some u -> k1 <> k2 -> s_host s = s_host u -> s_host s <> (-1)%Z -> 1 < s_nbound s -> 1 < s_nbound u ->
            (g_merge g = true -> ~ fed_by_merger snap (length (nth r moved [])) w (Z.of_nat k1) /\ ~ fed_by_merger snap (length (nth r moved [])) w (Z.of_nat k2)) -> forall id, In id (bound_ids s) -> ~ In id (bound_ids u)).
          { apply HWO; try apply (sn_sched _ Hg); [exact HC1|eapply Forall_impl; [|exact Hcn]; intros s [_ A]; exact A|exact Ew]. }
          destruct HWO2 as [HO1 HO2]. split; [|exact HO2]. rewrite Forall_forall in HO1. apply Forall_forall. intros s Hs. split; [exact (HO1 s Hs)|]. intros Hst. specialize (HWW Hst). rewrite Forall_forall in HWW. exact (HWW s Hs). }
      eapply (work_inv here snap (length (nth r moved [])) Hsnap subs); [apply (sn_shuffle _ Hg snap)|exact Hsmall|exact Hinv|exact Ew]. }
    rewrite combine_length, map_length in Lw. replace (Nat.min (length fed) (length nested)) with W in Lw by lia.
    assert (HWk : forall i, i < W -> Q i (nth i works [])).
    { intros i Hi. apply (Hw i (fst (nth i fed ([], [])), nth i nested ([], []))); [|apply nth_some; lia]. apply combine_nth_error; [|apply nth_some; lia]. erewrite map_nth_error; [reflexivity|]. apply nth_some. lia. }
    destruct (Hreg works Lw) as (regs & Er & Lr & Hr1 & Hr2). { intros i Hi. symmetry. apply (Forall2_length_eq _ _ _ (proj1 (HWk i Hi))). }

    assert (Hbg : forall ranked outs, nest_begun before (procs fed locals nested works regs ranked outs)).
    { intros ranked outs. split; [apply Hnf|]. split; [apply Hloc|]. split; [apply Hnst|]. split; [|apply Hr1]. apply Forall_forall. intros p Hp. apply procs_in in Hp as (i & Hi & ->). exact (proj1 (HWk i Hi)). }
    assert (Hlw : forall i, i < W -> length (nth i moved []) <= length (nth i works [])).
    { intros i Hi. rewrite <- (Forall2_length_eq _ _ _ (proj1 (HWk i Hi))), (proj2 (HN i Hi)). lia. }
    (* where the registered subhalos come from *)
    assert (Hfrom : forall i j s, i < W -> nth_error (nth i regs []) j = Some s -> exists k w, nth_error (nth i works []) k = Some w /\
      ((j < length (nth i moved []) /\ k = j /\ s = w) \/ (length (nth i moved []) <= j /\ length (nth i moved []) <= k /\ isbound w = true /\ exists t, s = set_track t w))).
    { intros i j s Hi Hs. destruct (Hr2 i Hi) as [base Eb]. rewrite Eb in Hs. specialize (Hlw i Hi). assert (Lfn : length (firstn (length (nth i moved [])) (nth i works [])) = length (nth i moved [])) by (rewrite firstn_length; lia).
      destruct (lt_dec j (length (nth i moved []))) as [Hj|Hj].
      - rewrite nth_error_app1 in Hs by lia. rewrite nth_firstn, (proj2 (Nat.ltb_lt _ _) Hj) in Hs. exists j, s. split; [exact Hs|]. left. auto.
      - rewrite nth_error_app2 in Hs by lia. rewrite number_from_nth in Hs. destruct (nth_error (filter isbound _) _) as [w|] eqn:Ewf; [|discriminate]. cbn [option_map] in Hs. injection Hs as <-. apply nth_error_In in Ewf. apply filter_In in Ewf as [Hin Hbd].
        apply In_nth_error in Hin as [k Hk]. rewrite nth_skipn in Hk. exists (length (nth i moved []) + k), w. split; [exact Hk|]. right. split; [lia|]. split; [lia|]. split; [exact Hbd|eauto]. }
    assert (Hlr : forall i, i < W -> length (nth i moved []) <= length (nth i regs [])).
    { intros i Hi. destruct (Hr2 i Hi) as [base ->]. specialize (Hlw i Hi). rewrite app_length, firstn_length. lia. }
    assert (Hgood : forall i k w, i < W -> nth_error (nth i works []) k = Some w -> exists b f, nth_error (snd (nth i fed ([], []))) k = Some f /\ renested f b /\ good here snap (length (nth i moved [])) k b w /\ s_nbound w <= length (s_parts w)).
    { intros i k w Hi Hk. destruct (HWk i Hi) as (F1 & F2 & (FL & F3) & _). destruct (nth_error_in_range (fst (nth i nested ([], []))) k) as [b Hb]; [rewrite <- FL; eapply nth_error_lt; eauto|].
      destruct (Hsp i _ (procs_nth fed locals nested (map fst nested) regs0 [] [] i Hi)) as (_ & _ & _ & _ & Hren). cbn [proc_at p_fed p_nested] in Hren.
      destruct (nth_error_in_range (snd (nth i fed ([], []))) k) as [f Hfk]; [rewrite (Forall2_length_eq _ _ _ Hren); eapply nth_error_lt; eauto|].
      exists b, f. split; [exact Hfk|]. split; [exact (F2_at _ _ _ _ _ _ Hren Hfk Hb)|]. split; [exact (F3 k b w Hb Hk)|]. rewrite Forall_forall in F2. apply F2. eapply nth_error_In; eauto. }
    set (ids := fun i => map (fun h : halo => g_halo_id g (snd h)) (nth i halos [])).
    assert (Lids : forall i, length (ids i) = length (nth i halos [])) by (intros; apply map_length).
    set (U := fun i => update_tracks (g_sort_mass g (nth i regs [])) (length (nth i regs [])) (g_sched g snap i 9 (seq 0 (length (nth i halos [])))) snap (ids i) (snd (nth i nested ([], []))) (nth i regs [])).
    assert (HU : forall i, i < W -> exists ro, U i = Done ro).
    { intros i Hi. destruct (update_total before _ (proc_at fed locals nested works regs [] [] i) Hhist (nth_error_In _ _ (procs_nth fed locals nested works regs [] [] i Hi)) (g_sort_mass g (nth i regs [])) (g_sched g snap i 9 (seq 0 (length (nth i halos [])))) snap (ids i) (Hbg _ _) (sn_mass _ Hg _) (Lids i)) as (rk & o & EU).
      - rewrite Lids. apply (sn_sched _ Hg).
      - cbn [proc_at p_reg]. intros s Hs Esn. apply In_nth_error in Hs as [j Hj]. destruct (Hfrom i j s Hi Hj) as (k & w & Hk & Hcase). destruct (Hgood i k w Hi Hk) as (b & f & _ & _ & (_ & _ & HS & _) & _). specialize (Hlr i Hi).
        assert (s_snapsink s = s_snapsink w /\ s_sink s = s_sink w) as [E1 E2] by (destruct Hcase as [(_ & _ & ->)|(_ & _ & _ & t & ->)]; split; reflexivity). rewrite E1 in Esn. rewrite E2. destruct HS as [HS|HS]; lia.
      - exists (rk, o). exact EU. }
    set (V := fun i => match U i with Done ro => ro | _ => ([], []) end).
    assert (HV : forall i, i < W -> U i = Done (fst (V i), snd (V i))). { intros i Hi. unfold V. destruct (HU i Hi) as [[rk o] ->]. reflexivity. }
    set (ranked := map (fun i => fst (V i)) (seq 0 W)). set (outs := map (fun i => snd (V i)) (seq 0 W)).
    assert (Hnr : forall i, i < W -> nth i ranked [] = fst (V i)). { intros i Hi. apply nth_error_nth. unfold ranked. rewrite nth_error_map, nth_seq, (proj2 (Nat.ltb_lt _ _) Hi). reflexivity. }
    assert (Hno : forall i, i < W -> nth i outs [] = snd (V i)). { intros i Hi. apply nth_error_nth. unfold outs. rewrite nth_error_map, nth_seq, (proj2 (Nat.ltb_lt _ _) Hi). reflexivity. }
    assert (Lo : length outs = W) by (unfold outs; rewrite map_length, seq_length; reflexivity).
    set (psf := procs fed locals nested works regs ranked outs).
    assert (Hfin : Forall finished psf).
    { apply Forall_forall. intros p Hp. apply procs_in in Hp as (i & Hi & ->). exists (g_sort_mass g (nth i regs [])), (g_sched g snap i 9 (seq 0 (length (nth i halos [])))), snap, (ids i). cbn [proc_at p_reg p_halos p_heads p_ranked p_out].
      split; [apply (sn_mass _ Hg)|]. split; [apply Lids|]. split; [rewrite Lids; apply (sn_sched _ Hg)|]. rewrite (Hnr i Hi), (Hno i Hi). exact (HV i Hi). }
    assert (Hafter : nest_history (H := S) outs).
    { replace outs with (map p_out psf). - apply (nest_step before psf Hhist). split; [apply Hbg|exact Hfin]. - apply (map_nth_seq _ outs [] p_out W Lo). reflexivity. }
    set (rep := map (fun s : subhalo => set_rest (g_report g snap s) s)).
    destruct (each_done (finished_by g snap) (fun i _ o => exists l, o = rep l /\ Forall2 (repurged (g_promoted g)) (snd (V i)) l /\ (g_inclusive g = false -> l = snd (V i)) /\ (g_inclusive g = true -> NoDup (ids i) -> led l)) (combine halos (combine regs (map snd nested)))) as (final & Efin & Lfin & Hfinal).
    { intros i [hs [rg hd]] Hi. apply combine_nth_error_inv in Hi as [Hh Hi]. apply combine_nth_error_inv in Hi as [Hrg Hhd]. rewrite nth_error_map in Hhd. destruct (nth_error nested i) as [[ns hd']|] eqn:Ens; [|discriminate]. cbn in Hhd. injection Hhd as ->.
      assert (Hi : i < W) by (apply nth_error_lt in Hh; lia). specialize (HV i Hi). unfold U, ids in HV. rewrite (nth_error_nth _ _ [] Hh), (nth_error_nth _ _ [] Hrg), (nth_error_nth _ _ ([], []) Ens) in HV. cbn [snd] in HV.
      unfold finished_by. destruct (g_inclusive g) eqn:Hinc.
      - destruct (update_inclusive (g_promoted g) before _ (proc_at fed locals nested works regs [] [] i) Hhist (Hbg [] []) (nth_error_In _ _ (procs_nth fed locals nested works regs [] [] i Hi)) (g_sort_mass g rg) (g_sched g snap i 9 (seq 0 (length hs)))
          (g_sched g snap i 10 (seq 0 (1 + length hs))) snap (map (fun h : halo => g_halo_id g (snd h)) hs) (fst (V i)) (snd (V i))) as (rk' & l & EI & F & Hl);
          cbn [proc_at p_reg p_halos p_heads]; rewrite ?(nth_error_nth _ _ [] Hh), ?(nth_error_nth _ _ [] Hrg), ?(nth_error_nth _ _ ([], []) Ens), ?map_length; [apply (sn_mass _ Hg)|reflexivity|apply (sn_sched _ Hg)|apply (sn_sched _ Hg)|exact HV|].
        cbn [proc_at p_reg p_halos p_heads] in EI. rewrite (nth_error_nth _ _ [] Hrg), (nth_error_nth _ _ ([], []) Ens) in EI. cbn [snd] in EI. rewrite EI. exists (rep l). split; [reflexivity|]. exists l. split; [reflexivity|]. split; [exact F|]. split; [discriminate|]. intros _. unfold ids. rewrite (nth_error_nth _ _ [] Hh). exact Hl.
      - rewrite HV. exists (rep (snd (V i))). split; [reflexivity|]. exists (snd (V i)). split; [reflexivity|]. split; [|split; [reflexivity|discriminate]].
        clear. induction (snd (V i)) as [|z l IH]; constructor; [|exact IH]. exists (s_parts z), (s_rest z). split; [destruct z; reflexivity|split; [reflexivity|left; split; reflexivity]]. }
    assert (LF : length final = W) by (rewrite Lfin, !combine_length, map_length; lia).
    assert (Hfo : forall i, i < W -> exists l, nth_error final i = Some (rep l) /\ Forall2 (repurged (g_promoted g)) (snd (V i)) l /\ (g_inclusive g = false -> l = snd (V i)) /\ (g_inclusive g = true -> NoDup (ids i) -> led l)).
    { intros i Hi. destruct (Hfinal i (nth i halos [], (nth i regs [], snd (nth i nested ([], [])))) (nth i final [])) as (_ & l & El' & Fl); [|apply nth_some; lia|exists l; split; [rewrite (nth_some [] final i) by lia; congruence|exact Fl]]. apply combine_nth_error; [apply nth_some; lia|]. apply combine_nth_error; [apply nth_some; lia|]. erewrite map_nth_error; [reflexivity|apply nth_some; lia]. }
    exists fed, locals, nested, works, regs, regs0, final. split. { unfold trace. do 11 (split; [assumption|]). split; [exact Hb0|apply Hbg]. }
    split; [exact LF|]. split.
    { exists outs. split; [exact Hafter|]. rewrite !concat_map. replace (map (map nesting_of) final) with (map (map (@nesting_of X R)) outs); [reflexivity|].
      apply nth_error_ext. intros i. rewrite !nth_error_map. destruct (lt_dec i W) as [Hi|Hi]; [|rewrite (proj2 (nth_error_None outs i)), (proj2 (nth_error_None final i)) by lia; reflexivity].
      destruct (Hfo i Hi) as (l & -> & F & _). rewrite (nth_some [] outs i) by lia. cbn [option_map]. rewrite (Hno i Hi). f_equal. unfold rep. rewrite map_map. clear -F. induction F as [|x y a b (ps & r & -> & _) F IH]; [reflexivity|]. cbn [map]. f_equal. exact IH. }
    intros i m hs out Hm Hh Ho. assert (Hi : i < W) by (apply nth_error_lt in Hm; lia). destruct (Hfo i Hi) as (l & Ho' & HFl & Hfl & Hled). rewrite Ho in Ho'. injection Ho' as ->. clear Ho.
    destruct (reported before psf (proc_at fed locals nested works regs ranked outs i) Hhist (Hbg _ _) (nth_error_In _ _ (procs_nth _ _ _ _ _ _ _ i Hi)) (g_sort_mass g (nth i regs [])) (g_sched g snap i 9 (seq 0 (length (nth i halos [])))) snap (ids i) (fst (V i)) (snd (V i)) (sn_mass _ Hg _) (Lids i)) as (Hrep & _ & _).
    { rewrite Lids. apply (sn_sched _ Hg). } { exact (HV i Hi). } cbn [proc_at p_reg] in Hrep.
    assert (Lout := Forall2_length_eq _ _ _ Hrep). assert (Hlri := Hlr i Hi). assert (HG := Hgood i). assert (HFr := Hfrom i). assert (HFd := HFed i Hi). unfold ids in Hrep, Hled. rewrite (nth_error_nth _ _ [] Hm), (nth_error_nth _ _ [] Hh) in *.
    destruct HFd as (_ & olds & news & Eo & HO & HNw). assert (LO := Forall2_length_eq _ _ _ HO).
    assert (Hat : forall j o, nth_error (rep l) j = Some o -> exists r o', nth_error (nth i regs []) j = Some r /\ (exists x qs, o = set_rest x (set_parts qs o') /\ Permutation (s_parts o') qs /\ (g_inclusive g = false -> qs = s_parts o')) /\
      reports snap (map (fun h : halo => g_halo_id g (snd h)) hs) (nth i regs []) r o').
    { intros j o Hoj. unfold rep in Hoj. rewrite nth_error_map in Hoj. destruct (nth_error l j) as [o2|] eqn:Eo2; [|discriminate]. cbn in Hoj. injection Hoj as <-. destruct (nth_error_in_range (snd (V i)) j) as [o' Eo']; [rewrite (Forall2_length_eq _ _ _ HFl); eapply nth_error_lt; eauto|].
      destruct (F2_at _ _ _ _ _ _ HFl Eo' Eo2) as (qs & x & -> & HPq & _). destruct (nth_error_in_range (nth i regs []) j) as [r Hr]; [rewrite Lout; eapply nth_error_lt; eauto|]. exists r, o'. split; [exact Hr|]. split; [|exact (F2_at _ _ _ _ _ _ Hrep Hr Eo')].
      eexists _, qs. split; [reflexivity|]. split; [exact HPq|]. intros HI. rewrite (Hfl HI) in Eo2. rewrite Eo' in Eo2. injection Eo2 as Eo2. apply (f_equal s_parts) in Eo2. cbn in Eo2. auto. }
    assert (Lrep : length (rep l) = length (nth i regs [])) by (unfold rep; rewrite map_length, <- (Forall2_length_eq _ _ _ HFl); auto).
    split.
    - exists (firstn (length m) (rep l)), (skipn (length m) (rep l)). split; [symmetry; apply firstn_skipn|]. split.
      + apply Forall2_of_nth; [rewrite firstn_length; lia|]. intros j s o Hs Ho. assert (Hj : j < length m) by (eapply nth_error_lt; eauto). rewrite nth_firstn, (proj2 (Nat.ltb_lt _ _) Hj) in Ho.
        destruct (Hat j o Ho) as (r & o' & Hr & (x & qs & -> & HPq & Hqs) & [R1 R2 R3 R4 R5 R6 R7]). destruct (HFr j r Hi Hr) as (k & w & Hk & [(_ & -> & ->)|(? & _)]); [|lia].
        destruct (HG j w Hi Hk) as (b & f & Hfk & (n & rk & ->) & ((U1 & U2 & U3 & U4 & U5 & U6 & U7) & _) & _). rewrite Eo, nth_error_app1 in Hfk by lia. destruct (F2_at _ _ _ _ _ _ HO Hs Hfk) as (nb & pp & -> & _). cbn in U1, U2, U3, U4, U5, U6, U7.
        destruct R2 as [_ R2], R3 as (_ & _ & R3 & _), R4 as (R4 & _). unfold kept. cbn. rewrite R3, R6. rewrite U4, U5 in R7. rewrite U2 in R1.
        split; [congruence|]. split; [congruence|]. split; [|split; [exact R7|rewrite U6; reflexivity]].
        destruct (Z.eqb (s_host s) (-1)) eqn:Eh; [exact R1|]. pose proof (zget_some _ _ _ R1) as Hrg. rewrite zget_nat in R1 by lia. rewrite nth_error_map in R1. destruct (nth_error hs (Z.to_nat (s_host s))) as [h|]; [|discriminate]. exists h. split; [reflexivity|]. cbn in R1. congruence.
      + apply Forall_forall. intros o Ho. apply In_nth_error in Ho as [j Ho]. rewrite nth_skipn in Ho. destruct (Hat _ o Ho) as (r & o' & Hr & (x & qs & -> & HPq & Hqs) & [R1 R2 R3 R4 R5 R6 R7]). destruct (HFr _ r Hi Hr) as (k & w & Hk & [(? & _)|(_ & Hkm & Hbd & t & ->)]); [lia|].
        destruct (HG k w Hi Hk) as (b & f & Hfk & (n & rk & ->) & ((U1 & U2 & U3 & U4 & U5 & U6 & U7) & _) & _). rewrite Eo, nth_error_app2 in Hfk by lia. apply nth_error_In in Hfk. rewrite Forall_forall in HNw. destruct (HNw f Hfk) as (N1 & _ & (k0 & h & Hk0 & N3) & _). cbn in U1, U2, U3, U4, U5, U6, U7, R1, R4, R3.
        destruct R3 as (_ & R3 & _), R4 as (R4 & _). unfold born. cbn. split; [congruence|]. split; [unfold isbound in Hbd; apply Nat.ltb_lt in Hbd; lia|].
        exists h. split; [eapply nth_error_In; eauto|]. rewrite U2, N3 in R1. replace (Z.eqb (Z.of_nat k0) (-1)) with false in R1 by (symmetry; apply Z.eqb_neq; lia). rewrite zget_of_nat, nth_error_map, Hk0 in R1. cbn in R1. congruence.
    - split.
      { apply Forall_forall. intros o Ho. apply In_nth_error in Ho as [j Ho]. destruct (Hat _ o Ho) as (r & o' & Hr & (x & qs & -> & HPq & Hqs) & [R1 R2 R3 R4 R5 R6 R7]). destruct (HFr _ r Hi Hr) as (k & w & Hk & Hcase).
      destruct (HG k w Hi Hk) as (b & f & _ & _ & (_ & Hp & Hsk & _) & Hnb).
      assert (E1 : s_parts r = s_parts w /\ s_nbound r = s_nbound w /\ s_snapsink r = s_snapsink w) by (destruct Hcase as [(_ & _ & ->)|(_ & _ & _ & t & ->)]; repeat split; reflexivity). destruct E1 as (E1 & E2 & E3).
      destruct R3 as (P1 & P2 & P3 & _), R4 as (_ & _ & P4). unfold fine. cbn. rewrite P2, P3, P4, E2, E3. rewrite P1, E1 in HPq. rewrite Forall_forall in Hp. split; [intros z Hz; apply Hp; eapply Permutation_in; [symmetry; exact HPq|exact Hz]|]. split; [rewrite <- (Permutation_length HPq); exact Hnb|]. split; [destruct Hsk as [?|[? _]]; lia|].
      destruct (Qlt_le_dec (s_mass r) (s_lastmax r)) as [Hq|Hq]; [destruct (proj2 R7 Hq) as [-> _]; apply Qlt_le_weak; exact Hq|destruct (proj1 R7 Hq) as [-> _]; apply Qle_refl]. }
      split; [|split].
      2:{ intros HI Honce. destruct (HWk i Hi) as (_ & _ & _ & Hown & _). rewrite (nth_error_nth _ _ [] Hm), (nth_error_nth _ _ [] Hh) in Hown. specialize (Hown HI Honce). rewrite Forall_forall in Hown. apply Forall_forall. intros o Hoo. apply In_nth_error in Hoo as [j Hoj].
          destruct (Hat _ o Hoj) as (r & o' & Hr & (x & qs & -> & HPq & _) & [_ _ (P1 & _) _ _ _ _]). destruct (HFr _ r Hi Hr) as (k & w & Hk & Hcase). specialize (Hown w (nth_error_In _ _ Hk)). unfold part_ids in *. cbn. rewrite P1 in HPq.
          eapply Permutation_NoDup; [apply Permutation_map, HPq|]. destruct Hcase as [(_ & _ & ->)|(_ & _ & _ & t & ->)]; exact Hown. }
      2:{ intros HI HN1. specialize (Hled HI HN1). assert (Hsm : forall s id, in_smaller l s id -> forall x, in_smaller (rep l) (set_rest x s) id).
          { intros s id (Hne & u & Hu & HH) x. split; [exact Hne|]. exists (set_rest (g_report g snap u) u). split; [apply in_map_iff; eauto|exact HH]. }
          intros s pt Hs Hpt HNs (Hne & u & Hu & HH) q Hq. apply in_map_iff in Hs as (s0 & <- & Hs0). apply in_map_iff in Hu as (u0 & <- & Hu0). apply Hsm. apply (Hled s0 pt Hs0 Hpt HNs); [|exact Hq]. split; [exact Hne|]. exists u0. split; [exact Hu0|exact HH]. }
      intros HI Htidy Hids. destruct (HWk i Hi) as (_ & _ & _ & _ & Hown). rewrite (nth_error_nth _ _ [] Hm), (nth_error_nth _ _ [] Hh) in Hown. destruct (Hown HI Htidy) as [Ho1 Ho2]. clear Hown.
      split.
      { apply Forall_forall. intros o Ho. apply In_nth_error in Ho as [j Ho]. destruct (Hat _ o Ho) as (r & o' & Hr & (x & qs & -> & HPq & Hqs) & [R1 R2 (P1 & P2 & P3 & _) R4 R5 R6 R7]). destruct (HFr _ r Hi Hr) as (k & w & Hk & Hcase).
        rewrite Forall_forall in Ho1. specialize (Ho1 w (nth_error_In _ _ Hk)). destruct Ho1 as [Ho1 Hw1]. rewrite (Hqs HI). split; [apply (owned_same (g_pmass g) w); [exact Ho1| | |]; cbn; rewrite ?P1, ?P2, ?P3; destruct Hcase as [(_ & _ & ->)|(_ & _ & _ & t & ->)]; reflexivity|].
        intros Hst. specialize (Hw1 Hst). unfold whole in *. cbn. rewrite P1, P2. destruct Hcase as [(_ & _ & ->)|(_ & _ & _ & t & ->)]; exact Hw1. }
      (* subhalos first registered now have different hosts *)
      assert (Hinj : forall j1 j2 r1 r2, length m <= j1 -> length m <= j2 -> nth_error (nth i regs []) j1 = Some r1 -> nth_error (nth i regs []) j2 = Some r2 -> s_host r1 = s_host r2 -> j1 = j2).
      { intros j1 j2 r1 r2 L1 L2 H1 H2 EH. destruct (Hr2 i Hi) as [base Eb]. rewrite (nth_error_nth _ _ [] Hm) in Eb. rewrite Eb in H1, H2. assert (Hlwi := Hlw i Hi). rewrite (nth_error_nth _ _ [] Hm) in Hlwi.
        assert (Lfn : length (firstn (length m) (nth i works [])) = length m) by (rewrite firstn_length; lia).
        rewrite nth_error_app2 in H1, H2 by lia. rewrite Lfn, number_from_nth in H1, H2.
        assert (HND : NoDup (map s_host (filter isbound (skipn (length m) (nth i works []))))).
        { destruct (Hsp i _ (procs_nth fed locals nested (map fst nested) regs0 [] [] i Hi)) as (_ & (tn & HNa) & _). cbn [proc_at p_moved p_halos p_table p_nested] in HNa. rewrite (nth_error_nth _ _ [] Hm) in HNa. destruct HNa as (_ & _ & _ & _ & _ & _ & HND & _).
          destruct (HWk i Hi) as (F1 & _). assert (EM : map s_host (skipn (length m) (nth i works [])) = map s_host (skipn (length m) (fst (nth i nested ([], []))))).
          { apply nth_error_ext. intros q. rewrite !nth_error_map, !nth_skipn. clear -F1. revert F1. generalize (length m + q) as z. intros z HF. revert z. induction HF as [|x y l l' [_ Exy] HF IH]; intros [|z]; cbn; try reflexivity; [rewrite Exy; reflexivity|apply IH]. }
          rewrite <- EM in HND. clear -HND. induction (skipn (length m) (nth i works [])) as [|x l IH]; [constructor|]. cbn in HND. inversion HND as [|? ? Hx Hn]; subst. cbn [filter]. destruct (isbound x); [|auto]. cbn [map]. constructor; [|auto]. intros Hin. apply Hx. apply in_map_iff in Hin as (y & <- & Hy). apply filter_In in Hy as [Hy _]. apply in_map. exact Hy. }
        destruct (nth_error (filter isbound _) (j1 - length m)) as [w1|] eqn:E1; [|discriminate]. destruct (nth_error (filter isbound _) (j2 - length m)) as [w2|] eqn:E2; [|discriminate]. cbn [option_map] in H1, H2. injection H1 as <-. injection H2 as <-. cbn in EH.
        rewrite NoDup_nth_error in HND. assert (j1 - length m = j2 - length m); [|lia]. apply HND; [rewrite map_length; eapply nth_error_lt; eauto|]. rewrite !nth_error_map, E1, E2. cbn. congruence. }
      assert (Hloc' : forall r o, reports snap (map (fun h : halo => g_halo_id g (snd h)) hs) (nth i regs []) r o -> s_host o <> (-1)%Z -> zget (map (fun h : halo => g_halo_id g (snd h)) hs) (s_host r) = Some (s_host o) /\ s_host r <> (-1)%Z).
      { intros r o [R1 _ _ _ _ _ _] Hne. destruct (Z.eqb_spec (s_host r) (-1)) as [Ee|Ee]; [contradiction|]. auto. }
      (* who was fed by a merger is known to have received *)
      assert (Hrec : forall j k r o w, nth_error (nth i regs []) j = Some r -> nth_error (nth i works []) k = Some w -> s_track o = s_track r ->
        ((j < length m /\ k = j /\ r = w) \/ (length m <= j /\ length m <= k /\ isbound w = true /\ exists t, r = set_track t w)) ->
        fed_by_merger snap (length m) (nth i works []) (Z.of_nat k) -> receives snap (rep l) o).
      { intros j k r o w Hr Hk Et Hcase (z & d & Hz & Hd & D1 & D2 & D3 & D4). pose proof (zget_some _ _ _ Hd) as Hz'. rewrite zget_nat in Hd by lia. set (y := Z.to_nat z) in *.
        destruct (HG y d Hi Hd) as (_ & _ & _ & _ & (_ & _ & HSK & _) & _). destruct HSK as [HSK|[_ HSK]]; [lia|]. rewrite D1 in HSK.
        destruct Hcase as [(Hj & -> & ->)|(_ & Hkm & _)]; [|lia].
        destruct (nth_error_in_range (rep l) y) as [od Hod]; [rewrite Lrep; lia|]. destruct (Hat y od Hod) as (rd & o' & Hrd & (x & qs & -> & _) & [_ _ (_ & Q2 & _) (_ & Q4 & Q5) Q6 _ _]).
        destruct (HFr y rd Hi Hrd) as (kd & wd & Hkd & [(_ & -> & ->)|(? & _)]); [|lia]. assert (wd = d) by congruence. subst wd.
        eexists. split; [eapply nth_error_In; exact Hod|]. cbn. rewrite Q5, D2 in *. rewrite Z.eqb_refl in Q6. destruct Q6 as (wj & Hwj & ->). rewrite D1, zget_of_nat in Hwj. assert (wj = w) by congruence. subst wj.
        split; [congruence|]. split; [reflexivity|]. split; [congruence|lia]. }
      intros s u Hs Hu Hne Eh Hh1 B1 B2 HF id. apply In_nth_error in Hs as [j1 Hs]. apply In_nth_error in Hu as [j2 Hu]. 
      destruct (Hat j1 s Hs) as (r1 & o1 & Hr1' & (x1 & q1 & Es & _ & Hq1) & Rp1). destruct (Hat j2 u Hu) as (r2 & o2 & Hr2' & (x2 & q2 & Eu & _ & Hq2) & Rp2). rewrite (Hq1 HI) in Es. rewrite (Hq2 HI) in Eu. destruct (HFr _ r1 Hi Hr1') as (k1 & w1 & Hk1 & C1). destruct (HFr _ r2 Hi Hr2') as (k2 & w2 & Hk2 & C2).
      assert (A1 := Rp1). assert (A2 := Rp2). apply Hloc' in A1 as [A1 A1']; [|rewrite Es in Hh1; exact Hh1]. apply Hloc' in A2 as [A2 A2']; [|rewrite Eh, Eu in Hh1; exact Hh1].
      destruct Rp1 as [_ [_ T1] (P1 & P2 & _) _ _ _ _]. destruct Rp2 as [_ [_ T2] (P3 & P4 & _) _ _ _ _].
      assert (F1 : s_parts r1 = s_parts w1 /\ s_nbound r1 = s_nbound w1 /\ s_host r1 = s_host w1) by (destruct C1 as [(_ & _ & ->)|(_ & _ & _ & t & ->)]; repeat split; reflexivity).
      assert (F2 : s_parts r2 = s_parts w2 /\ s_nbound r2 = s_nbound w2 /\ s_host r2 = s_host w2) by (destruct C2 as [(_ & _ & ->)|(_ & _ & _ & t & ->)]; repeat split; reflexivity).
      destruct F1 as (F1 & F1' & F1''), F2 as (F2 & F2' & F2'').
      assert (Ehl : s_host r1 = s_host r2).
      { assert (EE : s_host o1 = s_host o2) by (rewrite Es, Eu in Eh; exact Eh). pose proof (zget_some _ _ _ A1). pose proof (zget_some _ _ _ A2). rewrite zget_nat in A1, A2 by lia. rewrite NoDup_nth_error in Hids.
        assert (Z.to_nat (s_host r1) = Z.to_nat (s_host r2)); [|lia]. apply Hids; [eapply nth_error_lt; exact A1|congruence]. }
      assert (Hj : j1 <> j2) by (intros ->; apply Hne; congruence).
      assert (Hkne : k1 <> k2).
      { intros ->. destruct C1 as [(L1 & E1 & _)|(L1 & L1' & _)], C2 as [(L2 & E2 & _)|(L2 & L2' & _)]; try lia. apply Hj. eapply Hinj; eauto. }
      assert (I1 : bound_ids s = bound_ids w1). { unfold bound_ids, part_ids. rewrite Es. cbn. rewrite P1, P2, F1, F1'. reflexivity. }
      assert (I2 : bound_ids u = bound_ids w2). { unfold bound_ids, part_ids. rewrite Eu. cbn. rewrite P3, P4, F2, F2'. reflexivity. }
      assert (N1 : s_nbound s = s_nbound w1) by (rewrite Es; cbn; congruence). assert (N2 : s_nbound u = s_nbound w2) by (rewrite Eu; cbn; congruence).
      rewrite I1, I2. apply (Ho2 k1 k2 w1 w2 Hk1 Hk2 Hkne); [congruence|congruence|lia|lia|].
      intros HM. destruct (HF HM) as [HF1 HF2]. split; intros HX; [apply HF1; eapply (Hrec j1 k1 r1 s w1)|apply HF2; eapply (Hrec j2 k2 r2 u w2)]; try eassumption; [rewrite Es|rewrite Eu]; cbn; assumption.
  Qed.
  Lemma trace_steps fed locals nested works regs regs0 final : trace fed locals nested works regs regs0 final -> after_hosts = Done final.
  Proof. intros (Ef & El & En & Ew & Er & Efin & _). unfold after_hosts. rewrite Ef. cbn [rbind]. rewrite El. cbn [of_opt rbind]. rewrite En. cbn [rbind]. rewrite Ew. cbn [rbind]. rewrite Er. cbn [of_opt rbind]. exact Efin. Qed.
  Lemma steps_ok : exists final, after_hosts = Done final /\ step_result final.
  Proof. destruct steps_trace as (fed & locals & nested & works & regs & regs0 & final & HT & HS). exists final. split; [exact (trace_steps _ _ _ _ _ _ _ HT)|exact HS]. Qed.
End Steps.
