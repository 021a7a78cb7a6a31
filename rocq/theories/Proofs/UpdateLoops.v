(** The parallel loops of UpdateTracks and of the beginning of LevelUpDetachedSubhalos stay apart. *)
From Coq Require Import List ZArith QArith Bool Lia Sorting.Permutation.
From Verif.Model Require Import ListMem Mpi Run Hash Subhalo Nest UpdateTracks Unbind Threads UpdateThreads.
From Verif.Spec Require Import Members Forest Nesting Races.
From Verif.Proofs Require Import ListMemProofs MpiProofs ListExtra MemberProofs TreeProofs NestProofs NestProofs2 NestProofs3 NestProofs4 NestProofs5 HaloWork ThreadProofs WalkProofs LoopSafety HelperLoops.
Import ListNotations.
Local Open Scope Z_scope.

Section Generic.
  Context {X R : Type}.
  Local Notation subs_t := (list (sub X R)).
  Lemma index_run {A B} (body : A -> B -> run B) l : forall cur,
    run_each (seq 0 (length l)) (fun t => match nth_error l t with Some x => body x | None => fun _ => Crash end) cur = run_each l body cur.
  Proof.
    assert (G : forall post pre cur, run_each (seq (length pre) (length post)) (fun t => match nth_error (pre ++ post) t with Some i => body i | None => fun _ => Crash end) cur = run_each post body cur).
    { induction post as [|x post IH]; intros pre cur; [reflexivity|]. cbn [length seq run_each]. rewrite nth_error_app2, Nat.sub_diag by lia. cbn [nth_error]. destruct (body x cur) as [a| |]; [|reflexivity..]. cbn [rbind].
      specialize (IH (pre ++ [x]) a). rewrite app_length in IH. cbn [length] in IH. replace (length pre + 1)%nat with (S (length pre)) in IH by lia. rewrite <- app_assoc in IH. exact IH. }
    exact (G l []).
  Qed.
  Lemma each_done {A B} (f : A -> B -> option B) l : forall s s', for_each l f s = Some s' -> run_each l (fun x y => of_opt (f x y)) s = Done s'.
  Proof. induction l as [|x l IH]; intros s s' E; cbn in *; [congruence|]. destruct (f x s) as [s1|]; [|discriminate]. cbn. apply IH. exact E. Qed.
  Lemma change_foot (T : Z -> Prop) i f (cur : subs_t) : T i -> foot T (change i f) cur (fun _ _ => True).
  Proof. intros Ti. cbn. auto. Qed.
  Lemma peach_foot {B} (T : Z -> Prop) (body : B -> @prog Z (sub X R) unit) xs : (forall x cur, In x xs -> foot T (body x) cur (fun _ _ => True)) -> forall cur, foot T (peach xs body) cur (fun _ _ => True).
  Proof.
    unfold peach. induction xs as [|x xs IH]; intros H cur; [exact Logic.I|]. cbn [pfold]. apply foot_bind. eapply foot_mono; [|apply H; left; reflexivity]. cbn beta. intros [] c _. apply IH. intros y c' Hy. apply H. right. exact Hy.
  Qed.

  (** a list of subhalos gets rank 0 *)
  Lemma zero_loop l (start out : subs_t) : NoDup l -> for_each l (fun i l => modify l i (set_rank 0)) start = Some out -> safe_loop Z.eqb race (zero_turns l) (zget start) (zget out).
  Proof.
    intros Hnd E. apply each_done in E. refine (alone_loop _ (fun i => change (Z.of_nat i) (set_rank 0)) l start out Hnd _ _ E).
    - intros i a b Eb. apply of_opt_ends in Eb. rewrite modify_z in Eb. apply change_run. exact Eb.
    - intros i cur. apply change_foot. left. reflexivity.
  Qed.
  (** every subhalo by itself *)
  Lemma finish_loop (f : sub X R -> option (sub X R)) (start out : subs_t) : mapM f start = Some out -> safe_loop Z.eqb race (map (own_prog (fun s => of_opt (f s))) (seq 0 (length start))) (zget start) (zget out).
  Proof.
    intros E. apply own_loop; [apply seq_NoDup|].
    assert (G : forall post pre out', mapM f post = Some out' -> run_each (seq (length pre) (length post)) (unbind_at_with (fun s => of_opt (f s))) (pre ++ post) = Done (pre ++ out')).
    { induction post as [|s post IH]; intros pre out' Eo; cbn in Eo; [injection Eo as <-; reflexivity|]. destruct (f s) as [s'|] eqn:Es; [|discriminate]. destruct (mapM f post) as [r|] eqn:Er; [|discriminate]. injection Eo as <-.
      cbn [length seq run_each]. unfold unbind_at_with at 1. rewrite nth_error_app2, Nat.sub_diag by lia. cbn [nth_error]. rewrite Es. cbn [of_opt rbind]. unfold modify. rewrite nth_error_app2, Nat.sub_diag by lia. cbn [nth_error].
      assert (Hu : upd (pre ++ s :: post) (length pre) s' = Some (pre ++ s' :: post)). { clear. induction pre as [|x pre IH]; [reflexivity|]. cbn. rewrite IH. reflexivity. }
      rewrite Hu. cbn [of_opt rbind]. specialize (IH (pre ++ [s']) r eq_refl). rewrite app_length in IH. cbn [length] in IH. replace (length pre + 1)%nat with (S (length pre)) in IH by lia. rewrite <- !app_assoc in IH. exact IH. }
    exact (G start [] out E).
  Qed.
End Generic.

(** ** Loops over the halos *)
Section Groups.
  Context {X R : Type}.
  Local Notation subs_t := (list (sub X R)).
  Variables (nh : nat) (table : list (list nat)).
  Definition spread : Prop := forall h k g g' i, nth_error table h = Some g -> nth_error table k = Some g' -> In i g -> In i g' -> h = k.
  Lemma table_spread (subs : subs_t) : table_for subs nh table -> spread.
  Proof. intros (_ & H & _) h k g g' i Hg Hg' Hi Hi'. apply (H h g Hg) in Hi as (s & Hs & E). apply (H k g' Hg') in Hi' as (s' & Hs' & E'). assert (s' = s) by congruence. subst. lia. Qed.
  Hypothesis Hspread : spread.
  Lemma spread_apart t u i : t <> u -> In i (region table t) -> ~ In i (region table u).
  Proof using Hspread.
    unfold region. intros Hne H1 H2. destruct (nth_error (tl table) t) as [g|] eqn:E1; [|destruct H1]. destruct (nth_error (tl table) u) as [g'|] eqn:E2; [|destruct H2].
    apply tl_at in E1, E2. apply in_map_iff in H1 as (j & <- & H1). apply in_zs in H2. apply Hne. assert (S t = S u) by (eapply Hspread; eauto). lia.
  Qed.
  Lemma rank_run (g : list nat) : forall ks (a b : subs_t), for_each (combine g (map Z.of_nat ks)) (fun ir l => modify l (fst ir) (set_rank (snd ir))) a = Some b ->
    lexec (peach (combine g ks) (fun ik => change (Z.of_nat (fst ik)) (set_rank (Z.of_nat (snd ik))))) a = Some (b, tt).
  Proof.
    induction g as [|i g IH]; intros [|k ks] a b E; cbn [map combine for_each fst snd] in E; try (injection E as <-; reflexivity). destruct (modify a i (set_rank (Z.of_nat k))) as [a1|] eqn:E1; [|discriminate].
    unfold peach in *. cbn [combine pfold fst snd]. rewrite lexec_bind. rewrite modify_z in E1. rewrite (change_run _ _ _ _ E1). apply IH. exact E.
  Qed.
  Lemma rank_loop (start out : subs_t) : for_each (tl table) rank_group start = Some out -> safe_loop Z.eqb race (rank_turns (tl table)) (zget start) (zget out).
  Proof using Hspread.
    intros E. apply each_done in E. rewrite <- index_run in E. eapply (loop_safe _ (region table) _ (seq 0 (length (tl table))) start out); [|apply spread_apart|intros t p a b Hp|intros t p cur Hp _ _|exact E].
    - unfold rank_turns. rewrite map_length. reflexivity.
    - cbn beta. unfold rank_turns in Hp. rewrite nth_error_map in Hp. destruct (nth_error (tl table) t) as [g|]; [|discriminate]. injection Hp as <-. intros Eb. apply of_opt_ends in Eb. apply rank_run. exact Eb.
    - unfold rank_turns in Hp. rewrite nth_error_map in Hp. unfold region. destruct (nth_error (tl table) t) as [g|]; [|discriminate]. injection Hp as <-. apply peach_foot. intros [i k] c Hin. apply in_combine_l in Hin. apply change_foot. apply in_zs. exact Hin.
  Qed.
  Lemma first_loop (start out : subs_t) : for_each (concat (map first_of (tl table))) (fun i l => modify l i (set_rank 0)) start = Some out -> safe_loop Z.eqb race (first_turns (tl table)) (zget start) (zget out).
  Proof using Hspread.
    intros E. assert (E' : run_each (tl table) (fun g (l : subs_t) => match g with [] => Done l | c :: _ => of_opt (modify l c (set_rank 0)) end) start = Done out).
    { revert start E. generalize (tl table). intros l. induction l as [|g l IH]; intros s E; cbn in *; [congruence|]. destruct g as [|c g]; cbn in E; [apply IH; exact E|]. destruct (modify s c (set_rank 0)); [|discriminate]. cbn. apply IH. exact E. }
    rewrite <- index_run in E'. eapply (loop_safe _ (region table) _ (seq 0 (length (tl table))) start out); [|apply spread_apart|intros t p a b Hp|intros t p cur Hp _ _|exact E'].
    - unfold first_turns. rewrite map_length. reflexivity.
    - cbn beta. unfold first_turns in Hp. rewrite nth_error_map in Hp. destruct (nth_error (tl table) t) as [g|]; [|discriminate]. injection Hp as <-. destruct g as [|c g]; intros Eb; [injection Eb as <-; reflexivity|]. apply of_opt_ends in Eb. rewrite modify_z in Eb. apply change_run. exact Eb.
    - unfold first_turns in Hp. rewrite nth_error_map in Hp. unfold region. destruct (nth_error (tl table) t) as [g|]; [|discriminate]. injection Hp as <-. destruct g as [|c g]; [exact Logic.I|]. apply change_foot. left. reflexivity.
  Qed.
  Lemma depth_loop fuel (start out : subs_t) :
    (forall h c rest, nth_error (tl table) h = Some (c :: rest) -> exists t, represents (local_nest start) t /\ label t = Z.of_nat c /\ Permutation (nodes t) (zs (c :: rest))) ->
    fill_depths fuel table start = Done out -> safe_loop Z.eqb race (depth_turns fuel (tl table)) (zget start) (zget out).
  Proof using Hspread.
    intros Hcov E. unfold fill_depths in E. rewrite <- index_run in E. eapply (loop_safe _ (region table) _ (seq 0 (length (tl table))) start out); [|apply spread_apart|intros t p a b Hp|intros t p cur Hp HL Hag|exact E].
    - unfold depth_turns. rewrite map_length. reflexivity.
    - cbn beta. unfold depth_turns in Hp. rewrite nth_error_map in Hp. destruct (nth_error (tl table) t) as [g|]; [|discriminate]. injection Hp as <-. destruct g as [|c g]; intros Eb; [injection Eb as <-; reflexivity|]. apply depth_run. exact Eb.
    - unfold depth_turns in Hp. rewrite nth_error_map in Hp. unfold region in *. destruct (nth_error (tl table) t) as [g|] eqn:Eg; [|discriminate]. injection Hp as <-. destruct g as [|c g]; [exact Logic.I|].
      destruct (Hcov t c g Eg) as (tr & HR & Hl & HP). rewrite <- Hl. eapply foot_mono; [|apply depth_within].
      + intros; exact Logic.I.
      + intros i Hi. eapply Permutation_in; eauto.
      + eapply represents_ext; [exact HR|]. intros i l Hi (s & Hs & El). exists s. split; [|exact El]. rewrite Hag; [exact Hs|]. eapply Permutation_in; eauto.
  Qed.
End Groups.

Section Extend.
  Context {X R : Type}.
  Variables (subs : list (sub X R)) (ts : list tree) (nh : nat) (table heads : list (list nat)) (fuel : nat).
  Local Notation n := (length subs).
  Hypothesis Hforest : is_forest (local_nest subs) (zs (seq 0 n)) ts.
  Hypothesis Hroots : forall i s, zget subs i = Some s -> (s_rank s = 0 <-> In i (map label ts)).
  Hypothesis Huni : forall t i, In t ts -> In i (nodes t) -> hostz subs i = hostz subs (label t).
  Hypothesis Htable : table_for subs nh table.
  Hypothesis Hheadsl : length heads = nh.
  Hypothesis Hheads : forall h g hs, nth_error table (S h) = Some g -> nth_error heads h = Some hs -> (2 <= length g)%nat ->
    Permutation (zs hs) (filter (fun i => hostz subs i =? Z.of_nat h) (map label ts)).
  Hypothesis Hfuel : (n <= fuel)%nat.

  Lemma run_map {A B C} (f : A -> B) (body : B -> C -> run C) l : forall c, run_each (map f l) body c = run_each l (fun x => body (f x)) c.
  Proof. induction l as [|x l IH]; intros c; cbn; [reflexivity|]. destruct (body (f x) c); cbn; [apply IH|reflexivity..]. Qed.
  Lemma extend_run g hs (a b : list (sub X R)) : extend_one fuel g hs a = Done b -> lexec (extend_prog fuel g hs) a = Some (b, tt).
  Proof.
    destruct g as [|c0 [|c1 g]]; cbn [extend_one extend_prog]; intros E; try (injection E as <-; reflexivity). cbn [lexec]. rewrite zget_of_nat. destruct (nth_error a c0) as [c|]; [|discriminate]. destruct (s_rank c =? 0).
    - apply of_opt_ends in E. rewrite modify_z in E. apply change_run. exact E.
    - apply rbind_ends in E as (a1 & E1 & E). apply of_opt_ends in E1. rewrite modify_z in E1. apply rbind_ends in E as (a2 & E2 & E3). apply of_opt_ends in E3. rewrite modify_z in E3.
      rewrite lexec_bind, (change_run _ _ _ _ E1), lexec_bind. rewrite (peach_run (fun h l => level_up fuel h l) (level_prog fuel) (map Z.of_nat hs) (fun x l l' _ => level_run fuel x l l') a1 a2); [apply change_run; exact E3|].
      rewrite run_map. exact E2.
  Qed.
  Lemma levels_within (T : Z -> Prop) us : NoDup (flat_map nodes us) -> (forall i, In i (flat_map nodes us) -> T i) -> forall cur : list (sub X R), Forall (represents (local_nest cur)) us ->
    foot T (peach (map label us) (level_prog fuel)) cur (fun _ _ => True).
  Proof.
    unfold peach. induction us as [|u us IH]; intros HN HT cur HF; [exact Logic.I|]. cbn [map pfold]. apply foot_bind. cbn in HN, HT. inversion HF as [|? ? R1 R2]; subst. eapply foot_mono; [|apply (level_within T u fuel cur)].
    - cbn beta. intros [] c Hk. apply IH; [eapply NoDup_app_remove_l; eauto|intros i Hi; apply HT, in_or_app; right; exact Hi|]. apply Forall_forall. intros w Hw. rewrite Forall_forall in R2. eapply represents_ext; [apply R2; exact Hw|].
      intros j l Hj Hl. apply Hk; [|exact Hl]. intros Hju. apply (NoDup_app_disjoint _ _ j HN Hju). apply in_flat. eauto.
    - intros i Hi. apply HT, in_or_app. left. exact Hi.
    - eapply NoDup_app_remove_r; eauto.
    - exact R1.
  Qed.
  Lemma extend_within h g hs (cur : list (sub X R)) : nth_error table (S h) = Some g -> nth_error heads h = Some hs -> (forall i, In i (zs g) -> zget cur i = zget subs i) ->
    foot (fun i => In i (zs g)) (extend_prog fuel g hs) cur (fun _ _ => True).
  Proof.
    intros Hg Hhs Hag. destruct g as [|c0 [|c1 r]]; try exact Logic.I. set (g := c0 :: c1 :: r) in *. assert (Hc : In (Z.of_nat c0) (zs g)) by (left; reflexivity).
    pose proof (Hheads h g hs Hg Hhs ltac:(cbn; lia)) as HH.
    assert (EH : filter (fun i => hostz subs i =? Z.of_nat h) (map label ts) = map label (host_trees subs ts (Z.of_nat h))).
    { unfold host_trees. clear. induction ts as [|t l IH]; cbn; [reflexivity|]. destruct (hostz subs (label t) =? Z.of_nat h); cbn; [f_equal|]; exact IH. }
    rewrite EH in HH. apply Permutation_map_inv in HH as (us & Eus & HPu).
    pose proof (host_nodes subs ts nh table heads fuel Hforest Hroots Huni Htable Hheadsl Hheads Hfuel (S h) g Hg) as HP. replace (Z.of_nat (S h) - 1) with (Z.of_nat h) in HP by lia. rewrite (flat_map_perm nodes _ _ HPu) in HP.
    cbn [extend_prog g foot]. intros s Hs. split; [exact Hc|]. destruct (s_rank s =? 0); [apply change_foot; exact Hc|].
    apply foot_bind. cbn [change foot]. intros s1 Hs1. split; [exact Hc|]. intros c Hcu. split; [exact Hc|]. apply foot_bind. fold (zs hs). rewrite Eus. eapply foot_mono; [|apply levels_within].
    - cbn beta. intros [] c' _. apply change_foot. exact Hc.
    - eapply Permutation_NoDup; [symmetry; exact HP|]. apply NoDup_map_inj; [intros x y _ _; apply Nat2Z.inj|]. apply Htable in Hg as [Hn _]. exact Hn.
    - intros i Hi. eapply Permutation_in; eauto.
    - apply Forall_forall. intros t Ht. assert (Ht' := Ht). apply (Permutation_in _ (Permutation_sym HPu)) in Ht. apply filter_In in Ht as [Ht _]. destruct Hforest as [HF _]. rewrite Forall_forall in HF.
      eapply represents_ext; [apply HF; exact Ht|]. intros i l Hi (w & Hw & El). eapply keeps_put; [exact Hs1|exact Hcu|reflexivity|]. exists w. split; [|exact El]. rewrite Hag; [exact Hw|]. eapply Permutation_in; [exact HP|]. apply in_flat. eauto.
  Qed.
  Lemma extend_loop order out : Permutation order (seq 0 nh) -> extend_nests fuel order table heads subs = Done out -> safe_loop Z.eqb race (extend_turns fuel (tl table) heads) (zget subs) (zget out).
  Proof.
    intros Hord E. unfold extend_nests in E. assert (HL : length (tl table) = nh). { destruct Htable as (H & _). destruct table; cbn in *; lia. }
    eapply (loop_safe _ (region table) _ order subs out); [|eapply spread_apart, table_spread, Htable|intros t p a b Hp|intros t p cur Hp HLc Hag|exact E].
    - unfold extend_turns. rewrite map_length, combine_length, HL, Hheadsl, Nat.min_id. exact Hord.
    - unfold extend_turns in Hp. rewrite nth_error_map in Hp. destruct (nth_error (combine (tl table) heads) t) as [[g hs]|] eqn:Eg; [|discriminate]. injection Hp as <-. apply combine_nth in Eg as [E1 E2]. apply tl_at in E1. cbn beta. rewrite E1, E2. apply extend_run.
    - unfold extend_turns in Hp. rewrite nth_error_map in Hp. destruct (nth_error (combine (tl table) heads) t) as [[g hs]|] eqn:Eg; [|discriminate]. injection Hp as <-. apply combine_nth in Eg as [E1 E2]. unfold region in *. rewrite E1 in *. apply tl_at in E1. cbn [fst snd].
      eapply extend_within; eauto.
  Qed.
End Extend.
