(** The parallel loops of a process stay apart. *)
From Coq Require Import List ZArith QArith Bool Lia Sorting.Permutation.
From Verif.Model Require Import ListMem Mpi Run Hash Subhalo Nest Mask Unbind Merge Threads.
From Verif.Spec Require Import Members Forest Nesting Sinking Races.
From Verif.Proofs Require Import ListMemProofs MpiProofs ListExtra MemberProofs TreeProofs NestProofs NestProofs2 NestProofs3 NestProofs4 NestProofs5 LocalizeProofs ForestSteps HistorySteps ReachProofs GlueProofs GlueTree HaloWork DetectProofs MergeFinal ThreadProofs WalkProofs.
Import ListNotations.
Local Open Scope Z_scope.

Lemma combine_nth {A B} (a : list A) (b : list B) n x y : nth_error (combine a b) n = Some (x, y) -> nth_error a n = Some x /\ nth_error b n = Some y.
Proof. revert b n. induction a as [|u a IH]; intros [|v b] [|n]; cbn; intros H; try discriminate; [injection H as -> ->; auto|apply IH; exact H]. Qed.

Section W.
  Context {X R : Type}.
  Local Notation subs_t := (list (sub X R)).
  Local Notation code := (@prog Z (sub X R)).
  Variables (moved : subs_t) (nh : nat) (table : list (list nat)) (subs : subs_t) (ts : list tree) (heads : list (list nat)).
  Hypothesis HN : nested_as moved nh table subs ts.
  Hypothesis Hheads : mapM (heads_of subs) (tl table) = Some heads.

  Definition region (t : nat) : list Z := match nth_error (tl table) t with Some g => zs g | None => [] end.
  Lemma region_apart t u i : t <> u -> In i (region t) -> ~ In i (region u).
  Proof.
    unfold region. intros Hne H1 H2. destruct (nth_error (tl table) t) as [g|] eqn:E1; [|destruct H1]. destruct (nth_error (tl table) u) as [g'|] eqn:E2; [|destruct H2].
    apply tl_at in E1, E2. apply Hne. eapply zs_disjoint; eauto.
  Qed.
  Lemma table_tl : length (tl table) = nh.
  Proof. assert (length table = S nh) by apply HN. destruct table; cbn in *; lia. Qed.

  (** the tree of a halo once its heads are joined *)
  Lemma joined cur h c rest others s cur1 : nth_error table (S h) = Some (c :: rest) -> nth_error heads h = Some (c :: others) -> (forall i, In i (zs (c :: rest)) -> zget cur i = zget subs i) ->
    zget cur (Z.of_nat c) = Some s -> zupd cur (Z.of_nat c) (set_nest (s_nest s ++ map Z.of_nat others) s) = Some cur1 ->
    exists t, represents (local_nest cur1) t /\ label t = Z.of_nat c /\ Permutation (nodes t) (zs (c :: rest)).
  Proof.
    intros Hg Hh Hag Hs Hu. destruct (glued_trees _ _ _ _ _ _ HN Hheads) as (glued & sizes & Eg & HL & Hget & Htree & Hrest).
    destruct (glue_spec (tl table) heads subs (centrals_nodup _ _ _ _ _ _ HN Hheads) (heads_len _ _ _ Hheads) (glue_ok _ _ _ _ _ _ HN Hheads)) as (g' & sz' & E & _ & _ & Hg3 & Hg4). rewrite Eg in E. injection E as <- <-.
    destruct (Htree h c rest Hg) as (t & HR & Hlab & HP). exists t. split; [|auto]. eapply represents_ext; [exact HR|]. intros i l Hi (u & Hu' & El).
    apply (Permutation_in _ HP) in Hi. unfold local_nest. rewrite (zget_zupd _ _ _ _ _ Hu). rewrite Hag in Hs by (left; reflexivity). rewrite zget_of_nat in Hs.
    destruct (Hg4 h c rest c others s (proj2 (tl_at table h _) Hg) Hh Hs) as [Hgc _]. apply in_map_iff in Hi as (j & <- & Hj). rewrite zget_of_nat in Hu'. destruct (Z.eqb_spec (Z.of_nat j) (Z.of_nat c)) as [Ej|Ej].
    - apply Nat2Z.inj in Ej. subst j. eexists. split; [reflexivity|]. rewrite Hgc in Hu'. injection Hu' as <-. exact El.
    - exists u. split; [|exact El]. rewrite Hag by (apply in_zs; exact Hj). rewrite zget_of_nat, <- Hg3; [exact Hu'|]. intros Hc. apply centrals_in in Hc as (k & r & Hk). apply (tl_at table) in Hk.
      assert (S h = S k) by (eapply groups_disjoint; [exact HN|exact Hg|exact Hk|exact Hj|left; reflexivity]). assert (h = k) by lia. subst k. rewrite Hg in Hk. injection Hk as -> _. contradiction.
  Qed.

  Lemma halo_loop (body : Z -> subs_t -> run subs_t) (prg : Z -> code unit) order out :
    (forall c a b, body c a = Done b -> lexec (prg c) a = Some (b, tt)) ->
    (forall T t cur, WalkProofs.inside T t -> represents (local_nest cur) t -> foot T (prg (label t)) cur (fun _ _ => True)) ->
    Permutation order (seq 0 nh) -> over_halos body order (tl table) heads subs = Done out ->
    safe_loop Z.eqb race (map (fun gh => halo_prog prg (fst gh) (snd gh)) (combine (tl table) heads)) (zget subs) (zget out).
  Proof.
    intros Hrun Hfoot Hord Hout. pose proof (heads_len _ _ _ Hheads) as Hhl. eapply (loop_safe _ region _ order subs out); [| |intros t p a b Hp|intros t p cur Hp HL Hag|exact Hout].
    - rewrite map_length, combine_length, Hhl, table_tl, Nat.min_id. exact Hord.
    - apply region_apart.
    - rewrite nth_error_map in Hp. destruct (nth_error (combine (tl table) heads) t) as [[g hs]|] eqn:E; [|discriminate]. injection Hp as <-. apply combine_nth in E as [E1 E2]. rewrite E1, E2. apply halo_run. exact Hrun.
    - rewrite nth_error_map in Hp. destruct (nth_error (combine (tl table) heads) t) as [[g hs]|] eqn:E; [|discriminate]. injection Hp as <-. apply combine_nth in E as [E1 E2]. unfold region in *. rewrite E1 in *. cbn [fst snd].
      destruct g as [|c rest]; [exact Logic.I|]. apply tl_at in E1. destruct (heads_first _ _ _ _ _ _ HN Hheads t c rest E1) as (others & Hh & _). rewrite E2 in Hh. injection Hh as ->.
      cbn [halo_prog foot]. intros s Hs. assert (Hc : In (Z.of_nat c) (zs (c :: rest))) by (left; reflexivity). split; [exact Hc|]. intros cur1 Hu. split; [exact Hc|]. apply foot_bind.
      destruct (joined cur t c rest others s cur1 E1 E2 Hag Hs Hu) as (tr & HR & Hlab & HP). rewrite <- Hlab. eapply foot_mono; [|apply Hfoot; [|exact HR]].
      + cbn beta. intros _ x _. cbn [change foot]. rewrite Hlab. intros w _. split; [exact Hc|]. intros y _. split; [exact Hc|exact Logic.I].
      + intros i Hi. eapply Permutation_in; eauto.
  Qed.
  Lemma mask_loop fuel order out : Permutation order (seq 0 nh) -> mask_halos fuel order (tl table) heads subs = Done out -> safe_loop Z.eqb race (mask_turns fuel (tl table) heads) (zget subs) (zget out).
  Proof.
    intros Ho E. eapply (halo_loop _ _ order); [| |exact Ho|exact E].
    - intros c a b Eb. apply rbind_ends in Eb as ([e l] & E1 & E2). injection E2 as <-. rewrite lexec_bind, (mask_run _ _ _ _ _ _ E1). reflexivity.
    - intros T t cur Hin HR. apply foot_bind. eapply foot_mono; [|apply mask_within; eassumption]. intros; exact Logic.I.
  Qed.
  Lemma unbind_loop unbind fuel order out : (forall s u, unbind s = Done u -> s_nest u = s_nest s) -> Permutation order (seq 0 nh) -> over_halos (recursive_with unbind fuel) order (tl table) heads subs = Done out ->
    safe_loop Z.eqb race (unbind_turns unbind fuel (tl table) heads) (zget subs) (zget out).
  Proof.
    intros Hu Ho E. eapply (halo_loop _ _ order); [| |exact Ho|exact E].
    - intros c a b. apply unbind_run.
    - intros T t cur Hin HR. eapply foot_mono; [|apply unbind_within; eassumption]. intros; exact Logic.I.
  Qed.

  (** loops over the halos after the heads have been joined *)
  Section Joined.
  Variables (g : subs_t) (sizes : list nat).
  Hypothesis Eg : glue (tl table) heads subs = Some (g, sizes).
  Variable a : subs_t.
  Hypothesis Hnests : forall i l, local_nest g i l -> local_nest a i l.
  Lemma group_loop (body : nat -> subs_t -> run subs_t) (prg : Z -> code unit) order out :
    (forall h c rest x y, nth_error (tl table) h = Some (c :: rest) -> body h x = Done y -> lexec (prg (Z.of_nat c)) x = Some (y, tt)) ->
    (forall h x, nth_error (tl table) h = Some [] -> body h x = Done x) ->
    (forall h t cur, (h < nh)%nat -> (forall i, In i (region h) -> zget cur i = zget a i) -> WalkProofs.inside (fun i => In i (region h)) t -> represents (local_nest cur) t -> foot (fun i => In i (region h)) (prg (label t)) cur (fun _ _ => True)) ->
    Permutation order (seq 0 nh) -> run_each order body a = Done out ->
    safe_loop Z.eqb race (map (fun g => match g with [] => Ret tt | c :: _ => prg (Z.of_nat c) end) (tl table)) (zget a) (zget out).
  Proof.
    intros Hrun Hnil Hfoot Hord Hout. eapply (loop_safe _ region body order a out); [| |intros t p x y Hp|intros t p cur Hp HL Hag|exact Hout].
    - rewrite map_length, table_tl. exact Hord.
    - apply region_apart.
    - rewrite nth_error_map in Hp. destruct (nth_error (tl table) t) as [gr|] eqn:E; [|discriminate]. injection Hp as <-. destruct gr as [|c rest]; [rewrite (Hnil t x E); intros H; injection H as <-; reflexivity|]. intros H. eapply Hrun; eauto.
    - rewrite nth_error_map in Hp. destruct (nth_error (tl table) t) as [gr|] eqn:E; [|discriminate]. injection Hp as <-. destruct gr as [|c rest]; [exact Logic.I|].
      destruct (g_all _ _ _ _ _ _ HN Hheads g sizes Eg) as (_ & _ & _ & _ & _ & Htree & _). assert (E' := E). apply tl_at in E'. destruct (Htree t c rest E') as (tr & HR & Hlab & HP).
      assert (Hin : WalkProofs.inside (fun i => In i (region t)) tr) by (intros i Hi; unfold region; rewrite E; eapply Permutation_in; eauto).
      rewrite <- Hlab. apply (Hfoot t tr cur); [rewrite <- table_tl; eapply nth_error_lt; eauto|exact Hag|exact Hin|].
      eapply represents_ext; [exact HR|]. intros i l Hi Hl. apply Hnests in Hl as (s & Hs & El). exists s. split; [|exact El]. rewrite (Hag i (Hin i Hi)). exact Hs.
  Qed.
  Lemma merge_loop pmass snap fuel order out : snap <> -1 -> Permutation order (seq 0 nh) ->
    (forall h i s, In i (region h) -> zget a i = Some s -> trapped s && alive s = true -> In (s_sink s) (region h)) ->
    run_each order (fun h l => match nth_error (tl table) h with None => Crash | Some [] => Done l | Some (c :: _) => merge_rec pmass snap fuel (Z.of_nat c) l end) a = Done out ->
    safe_loop Z.eqb race (merge_turns pmass snap fuel (tl table)) (zget a) (zget out).
  Proof.
    intros Hsn Hord Hsink Hout. eapply (group_loop _ (merge_prog pmass snap fuel) order out); [..|exact Hout]; [| | |exact Hord].
    - intros h c rest x y E H. cbn beta in H. rewrite E in H. apply merge_run. exact H.
    - intros h x E. cbn beta. rewrite E. reflexivity.
    - intros h t cur Hh Hag Hin HR. eapply foot_mono; [|eapply merge_within; [exact Hsn|exact Hin|exact HR|]]; [intros; exact Logic.I|].
      intros i s Hi Hs. rewrite (Hag i Hi) in Hs. eapply Hsink; eauto.
  Qed.
  End Joined.
End W.

(** loops that treat each subhalo by itself *)
Section Own.
  Context {X R : Type}.
  Local Notation subs_t := (list (sub X R)).
  Lemma alone_loop (body : nat -> subs_t -> run subs_t) (prg : nat -> @prog Z (sub X R) unit) l (start out : subs_t) : NoDup l ->
    (forall i a b, body i a = Done b -> lexec (prg i) a = Some (b, tt)) -> (forall i cur, foot (fun j => In j [Z.of_nat i]) (prg i) cur (fun _ _ => True)) ->
    run_each l body start = Done out -> safe_loop Z.eqb race (map prg l) (zget start) (zget out).
  Proof.
    intros Hnd Hrun Hfoot E.
    eapply (loop_safe _ (fun t => match nth_error l t with Some i => [Z.of_nat i] | None => [] end) (fun t => match nth_error l t with Some i => body i | None => fun _ => Crash end) (seq 0 (length l)) start out); [|intros t u i Hne|intros t p a b Hp|intros t p cur Hp HL Hag|].
    - rewrite map_length. reflexivity.
    - destruct (nth_error l t) as [x|] eqn:Ex; [|intros []]. destruct (nth_error l u) as [y|] eqn:Ey; [|intros _ []]. intros [<-|[]] [Hc|[]]. apply Nat2Z.inj in Hc. subst y. apply Hne. eapply NoDup_nth_error; [exact Hnd|eapply nth_error_lt; eauto|congruence].
    - rewrite nth_error_map in Hp. destruct (nth_error l t); [|discriminate]. injection Hp as <-. apply Hrun.
    - rewrite nth_error_map in Hp. destruct (nth_error l t) as [i|]; [|discriminate]. injection Hp as <-. apply Hfoot.
    - rewrite <- E. clear. assert (G : forall pre post cur, run_each (seq (length pre) (length post)) (fun t => match nth_error (pre ++ post) t with Some i => body i | None => fun _ => Crash end) cur = run_each post body cur).
      { intros pre post. revert pre. induction post as [|x post IH]; intros pre cur; [reflexivity|]. cbn [length seq run_each]. rewrite nth_error_app2, Nat.sub_diag by lia. cbn [nth_error]. destruct (body x cur); [|reflexivity..]. cbn [rbind].
        specialize (IH (pre ++ [x]) a). rewrite app_length in IH. cbn [length] in IH. replace (length pre + 1)%nat with (S (length pre)) in IH by lia. rewrite <- app_assoc in IH. exact IH. }
      apply (G [] l start).
  Qed.
  Variable f : sub X R -> run (sub X R).
  Lemma own_foot i (cur : subs_t) : foot (fun j => In j [Z.of_nat i]) (own_prog f i) cur (fun _ _ => True).
  Proof. cbn [own_prog foot]. intros s Hs. split; [left; reflexivity|]. destruct (f s); [|exact Logic.I..]. cbn. intros l' _. auto. Qed.
  Lemma own_loop l (start out : subs_t) : NoDup l -> run_each l (unbind_at_with f) start = Done out -> safe_loop Z.eqb race (map (own_prog f) l) (zget start) (zget out).
  Proof. intros Hnd. apply (alone_loop _ _ l start out Hnd); [intros i a b; apply own_run|intros; apply own_foot]. Qed.
  Lemma merged_loop (flags : list bool) l (start out : subs_t) : NoDup l ->
    run_each l (fun i (l : subs_t) => match nth_error flags i, nth_error l i with Some m, Some s => if (m : bool) then rbind (f s) (fun s' => of_opt (upd l i s')) else Done l | _, _ => Crash end) start = Done out ->
    safe_loop Z.eqb race (map (merged_prog f flags) l) (zget start) (zget out).
  Proof.
    intros Hnd. apply (alone_loop _ _ l start out Hnd).
    - intros i a b. unfold merged_prog. destruct (nth_error flags i) as [[|]|]; [| |discriminate]; (destruct (nth_error a i) as [s|] eqn:Es; [|discriminate]).
      + intros E. apply own_run. unfold unbind_at_with. rewrite Es. apply rbind_ends in E as (s' & -> & E). cbn [rbind]. unfold modify. rewrite Es. exact E.
      + intros E. injection E as <-. reflexivity.
    - intros i cur. unfold merged_prog. destruct (nth_error flags i) as [[|]|]; [apply own_foot|exact Logic.I..].
  Qed.
End Own.

(** LevelUpDetachedSubhalos *)
Section Level.
  Context {X R : Type}.
  Local Notation subs_t := (list (sub X R)).
  Variables (subs start : subs_t) (ts : list tree) (is_head : list bool).
  Hypothesis forest : NoDup (flat_map nodes ts).
  Hypothesis trees : Forall (represents (local_nest start)) ts.
  Hypothesis roots : forall i, nth_error is_head i = Some true -> In (Z.of_nat i) (map label ts).
  Definition tree_region (i : nat) : list Z := match nth_error is_head i, find (fun t => label t =? Z.of_nat i) ts with Some true, Some t => nodes t | _, _ => [] end.
  Lemma tree_region_in i j : In j (tree_region i) -> exists t, In t ts /\ label t = Z.of_nat i /\ In j (nodes t).
  Proof. unfold tree_region. destruct (nth_error is_head i) as [[|]|]; try (intros []). destruct (find _ ts) as [t|] eqn:E; [|intros []]. apply find_some in E as [H1 H2]. apply Z.eqb_eq in H2. eauto. Qed.
  Lemma one_tree t u j : In t ts -> In u ts -> In j (nodes t) -> In j (nodes u) -> t = u.
  Proof.
    revert forest. clear. induction ts as [|x l IH]; intros HN; [intros []|]. cbn in HN. pose proof (NoDup_app_remove_l _ _ HN) as N2. pose proof (fun y => NoDup_app_disjoint _ _ y HN) as N3.
    intros [->|Ht] [->|Hu] Hj Hj'; [reflexivity| | |exact (IH N2 Ht Hu Hj Hj')].
    - destruct (N3 j Hj). apply in_flat. eauto.
    - destruct (N3 j Hj'). apply in_flat. eauto.
  Qed.
  Lemma level_loop fuel order out : Permutation order (seq 0 (length is_head)) ->
    run_each order (fun i l => match nth_error is_head i with None => Crash | Some true => level_up fuel (Z.of_nat i) l | Some false => Done l end) start = Done out ->
    safe_loop Z.eqb race (level_turns fuel is_head) (zget start) (zget out).
  Proof.
    intros Hord Hout. assert (Hturn : forall t p, nth_error (level_turns (X := X) (R := R) fuel is_head) t = Some p -> exists b, nth_error is_head t = Some b /\ p = if b then level_prog fuel (Z.of_nat t) else Ret tt).
    { intros t p Hp. unfold level_turns in Hp. rewrite nth_error_map in Hp. destruct (nth_error (combine _ is_head) t) as [[k b]|] eqn:E; [|discriminate]. injection Hp as <-. apply combine_nth in E as [E1 E2]. exists b. split; [exact E2|].
      pose proof (nth_error_lt _ _ _ E1) as Hlt. rewrite seq_length in Hlt. rewrite nth_error_nth' with (d := O) in E1 by (rewrite seq_length; exact Hlt). rewrite seq_nth in E1 by exact Hlt. injection E1 as <-. reflexivity. }
    eapply (loop_safe _ tree_region _ order start out); [|intros t u j Hne H1 H2|intros t p x y Hp|intros t p cur Hp HL Hag|exact Hout].
    - unfold level_turns. rewrite map_length, combine_length, seq_length, Nat.min_id. exact Hord.
    - apply tree_region_in in H1 as (x & Hx & Lx & Jx). apply tree_region_in in H2 as (y & Hy & Ly & Jy). assert (x = y) by (eapply one_tree; eauto). subst y. apply Hne. lia.
    - destruct (Hturn t p Hp) as (b & E & ->). rewrite E. destruct b; [apply level_run|]. intros H. injection H as <-. reflexivity.
    - destruct (Hturn t p Hp) as (b & E & ->). destruct b; [|exact Logic.I]. assert (exists u, find (fun u => label u =? Z.of_nat t) ts = Some u) as [u Hu].
      { destruct (find _ ts) as [u|] eqn:Ef; [eauto|]. exfalso. apply roots in E. apply in_map_iff in E as (u & Lu & Iu). pose proof (find_none _ _ Ef u Iu) as Hf. cbn in Hf. rewrite Lu, Z.eqb_refl in Hf. discriminate. }
      assert (Er : tree_region t = nodes u) by (unfold tree_region; rewrite E, Hu; reflexivity). rewrite Er in *. apply find_some in Hu as [Iu Lu]. apply Z.eqb_eq in Lu. rewrite <- Lu. rewrite Forall_forall in trees.
      eapply foot_mono; [|apply level_within].
      + intros; exact Logic.I.
      + intros j Hj. exact Hj.
      + clear -forest Iu. induction ts as [|x l IH]; [destruct Iu|]. cbn in forest. destruct Iu as [->|Iu]; [exact (NoDup_app_remove_r _ _ forest)|exact (IH (NoDup_app_remove_l _ _ forest) Iu)].
      + eapply represents_ext; [exact (trees u Iu)|]. intros j l Hj (s & Hs & El). exists s. split; [|exact El]. rewrite (Hag j Hj). exact Hs.
  Qed.
End Level.
