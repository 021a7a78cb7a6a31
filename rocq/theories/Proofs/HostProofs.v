(** Proofs about host finding. *)
From Coq Require Import List ZArith Bool Lia Sorting.Permutation.
From Verif.Model Require Import ListMem Mpi Hash Subhalo Hosts.
From Verif.Spec Require Import Lookup Hosts.
From Verif.Proofs Require Import ListMemProofs ListExtra MpiProofs HashProofs.
Import ListNotations.
Local Open Scope nat_scope.

(** *** Lists. *)
Lemma filter_none {A} (f : A -> bool) l : (forall x, In x l -> f x = false) -> filter f l = [].
Proof. induction l as [|x l IH]; intros H; [reflexivity|]. cbn. rewrite (H x (or_introl eq_refl)). apply IH. intros y Hy. apply H. right. exact Hy. Qed.
Lemma combine_mapped {A B} (f : A -> B) l : combine l (map f l) = map (fun x => (x, f x)) l.
Proof. induction l as [|x r IH]; [reflexivity|]. cbn. rewrite IH. reflexivity. Qed.
Lemma combine_map_both {A B C} (f : A -> B) (g : A -> C) l : combine (map f l) (map g l) = map (fun x => (f x, g x)) l.
Proof. induction l as [|x r IH]; [reflexivity|]. cbn. rewrite IH. reflexivity. Qed.
Lemma filter_map_comm {A B} (f : A -> B) (p : B -> bool) l : filter p (map f l) = map f (filter (fun x => p (f x)) l).
Proof. induction l as [|x r IH]; [reflexivity|]. cbn. destruct (p (f x)); cbn; rewrite IH; reflexivity. Qed.
Lemma mapM_some {A B} (f : A -> option B) (g : A -> B) l : (forall x, In x l -> f x = Some (g x)) -> mapM f l = Some (map g l).
Proof. induction l as [|x r IH]; intros H; [reflexivity|]. cbn. rewrite (H x (or_introl eq_refl)), IH by (intros y Hy; apply H; right; exact Hy). reflexivity. Qed.
Lemma segment_concat {A} (ls : list (list A)) r l : nth_error ls r = Some l ->
  firstn (nth r (map (@length A) ls) 0) (skipn (nth r (displacements (map (@length A) ls)) 0) (concat ls)) = l.
Proof.
  intros Hr. pose proof (nth_error_lt _ _ _ Hr) as Hlt. rewrite displacements_eq. erewrite (nth_error_nth (offs_from 0 _)); [|apply offs_from_nth; rewrite map_length; exact Hlt].
  erewrite (nth_error_nth (map _ _)); [|apply map_nth_error; exact Hr]. cbn [plus]. revert r Hr Hlt. induction ls as [|x ls IH]; intros r Hr Hlt; [destruct r; discriminate|]. destruct r as [|r]; cbn [nth_error] in Hr.
  - injection Hr as ->. cbn. rewrite firstn_app, firstn_all, Nat.sub_diag. apply app_nil_r.
  - cbn [map firstn nsum concat]. rewrite skipn_app, skipn_all2 by lia. replace (length x + nsum (firstn r (map (@length A) ls)) - length x) with (nsum (firstn r (map (@length A) ls))) by lia. cbn [app]. apply IH; [exact Hr|cbn in Hlt; lia].
Qed.
Lemma concat_filters {A} (f : A -> nat) W l : (forall x, In x l -> f x < W) -> Permutation (concat (map (fun r => filter (fun x => f x =? r) l) (seq 0 W))) l.
Proof.
  intros H. induction l as [|x l IH].
  - cbn. clear. induction (seq 0 W); [reflexivity|]. cbn. assumption.
  - assert (E : Permutation (concat (map (fun r => filter (fun y => f y =? r) (x :: l)) (seq 0 W))) (x :: concat (map (fun r => filter (fun y => f y =? r) l) (seq 0 W)))).
    { assert (Hx : In (f x) (seq 0 W)) by (apply in_seq; specialize (H x (or_introl eq_refl)); lia). pose proof (seq_NoDup W 0) as Hn. revert Hx Hn. generalize (seq 0 W). intros rs Hx Hn. induction rs as [|r rs IHr]; [destruct Hx|]. cbn [map concat filter].
      inversion Hn as [|? ? Hni Hn']; subst. destruct (Nat.eqb_spec (f x) r) as [E|E].
      - cbn [app]. constructor. apply Permutation_app_head. clear IHr Hx. assert (Hd : forall r', In r' rs -> f x <> r') by (intros r' Hr' E'; apply Hni; congruence). clear -Hd. induction rs as [|r' rs IH]; [reflexivity|]. cbn [map concat filter]. destruct (Nat.eqb_spec (f x) r') as [E|_]; [exfalso; exact (Hd r' (or_introl eq_refl) E)|]. apply Permutation_app_head. apply IH. intros r'' Hr''. apply Hd. right. exact Hr''.
      - destruct Hx as [Hx|Hx]; [congruence|]. rewrite (IHr Hx Hn'). symmetry. apply Permutation_middle. }
    rewrite E. constructor. apply IH. intros y Hy. apply H. right. exact Hy.
Qed.

(** *** The stable sort. *)
Lemma insert_groups (G : nat -> list (nat * nat)) x : (forall r y, In y (G r) -> snd y = r) -> forall k a, a <= snd x < a + k ->
  insert_rank x (concat (map G (seq a k))) = concat (map (fun r => if snd x =? r then x :: G r else G r) (seq a k)).
Proof.
  intros HG. induction k as [|k IH]; intros a Ha; [lia|]. cbn [seq map concat]. destruct (Nat.eqb_spec (snd x) a) as [E|E].
  - assert (E1 : map (fun r => if snd x =? r then x :: G r else G r) (seq (S a) k) = map G (seq (S a) k)). { apply map_ext_in. intros r Hr. apply in_seq in Hr. destruct (Nat.eqb_spec (snd x) r); [lia|reflexivity]. }
    rewrite E1. cbn [app]. assert (Hge : forall y, In y (G a ++ concat (map G (seq (S a) k))) -> snd x <= snd y).
    { intros y Hy. apply in_app_or in Hy as [Hy|Hy]; [rewrite (HG _ _ Hy); lia|]. apply in_concat in Hy as (g & Hg & Hy). apply in_map_iff in Hg as (r & <- & Hr). apply in_seq in Hr. rewrite (HG _ _ Hy). lia. }
    destruct (G a ++ concat (map G (seq (S a) k))) as [|y t]; [reflexivity|]. cbn [insert_rank]. destruct (Nat.leb_spec (snd x) (snd y)) as [_|Hlt]; [reflexivity|]. specialize (Hge y (or_introl eq_refl)). lia.
  - assert (Hlt : forall y, In y (G a) -> snd y < snd x) by (intros y Hy; rewrite (HG _ _ Hy); lia). rewrite <- IH by lia. induction (G a) as [|y t IHt]; [reflexivity|]. cbn [app insert_rank]. destruct (Nat.leb_spec (snd x) (snd y)) as [Hle|_]; [specialize (Hlt y (or_introl eq_refl)); lia|]. f_equal. apply IHt. intros z Hz. apply Hlt. right. exact Hz.
Qed.
Lemma sort_rank_groups W l : (forall x, In x l -> snd x < W) -> sort_rank l = concat (map (fun r => filter (fun x => snd x =? r) l) (seq 0 W)).
Proof.
  intros H. induction l as [|x l IH].
  - cbn. clear. induction (seq 0 W); [reflexivity|]. cbn. assumption.
  - cbn [sort_rank fold_right]. fold (sort_rank l). rewrite IH by (intros y Hy; apply H; right; exact Hy). rewrite (insert_groups (fun r => filter (fun x => snd x =? r) l)).
    + f_equal.
    + intros r y Hy. apply filter_In in Hy as [_ Hy]. apply Nat.eqb_eq in Hy. exact Hy.
    + specialize (H x (or_introl eq_refl)). lia.
Qed.

(** *** The largest answer. *)
Lemma maxloc_from_spec ids : forall best r0, snd best < r0 -> let g := maxloc_from best r0 ids in
  (g = best \/ exists i, nth_error ids i = Some (fst g) /\ snd g = r0 + i) /\ (fst best <= fst g)%Z /\ (fst g = fst best -> g = best) /\
  forall i v, nth_error ids i = Some v -> (v <= fst g)%Z /\ (v = fst g -> snd g <= r0 + i).
Proof.
  induction ids as [|a ids IH]; intros best r0 Hb; cbn [maxloc_from]; cbn zeta.
  - split; [left; reflexivity|]. split; [lia|]. split; [auto|]. intros [|i] v; discriminate.
  - destruct (Z.ltb_spec (fst best) a) as [Hlt|Hge].
    + destruct (IH (a, r0) (S r0)) as (H1 & H2 & H3 & H4); [cbn; lia|]. cbn [fst snd] in *. set (g := maxloc_from (a, r0) (S r0) ids) in *. split; [|split; [lia|split]].
      * right. destruct H1 as [->|(i & Hi & Hs)]; [exists 0; split; [reflexivity|cbn; lia]|exists (S i); split; [exact Hi|lia]].
      * intros E. lia.
      * intros [|i] v Hv; cbn [nth_error] in Hv; [injection Hv as <-; split; [lia|]; intros E; rewrite (H3 (eq_sym E)); cbn; lia|]. destruct (H4 i v Hv) as [A B]. split; [exact A|]. intros E. specialize (B E). lia.
    + destruct (IH best (S r0)) as (H1 & H2 & H3 & H4); [lia|]. set (g := maxloc_from best (S r0) ids) in *. split; [|split; [lia|split; [exact H3|]]].
      * destruct H1 as [->|(i & Hi & Hs)]; [left; reflexivity|right; exists (S i); split; [exact Hi|lia]].
      * intros [|i] v Hv; cbn [nth_error] in Hv; [injection Hv as <-; split; [lia|]; intros E; rewrite H3 by lia; lia|]. destruct (H4 i v Hv) as [A B]. split; [exact A|]. intros E. specialize (B E). lia.
Qed.
Lemma maxloc_spec ids g : maxloc ids = Some g -> nth_error ids (snd g) = Some (fst g) /\ forall i v, nth_error ids i = Some v -> (v <= fst g)%Z /\ (v = fst g -> snd g <= i).
Proof.
  destruct ids as [|a ids]; [discriminate|]. cbn [maxloc]. intros E. assert (E' : maxloc_from (a, 0) 1 ids = g) by congruence. clear E. destruct (maxloc_from_spec ids (a, 0) 1) as (H1 & H2 & H3 & H4); [cbn; lia|]. rewrite E' in *. cbn [fst snd] in *. split.
  - destruct H1 as [->|(i & Hi & ->)]; [reflexivity|exact Hi].
  - intros [|i] v Hv; cbn [nth_error] in Hv; [injection Hv as <-; split; [lia|]; intros E; rewrite (H3 (eq_sym E)); cbn; lia|]. apply (H4 i v Hv).
Qed.

(** *** One process. *)
Lemma in_halo_keys halos id v : In (id, v) (halo_keys halos) <-> exists h l, nth_error halos h = Some l /\ In id l /\ v = Z.of_nat h.
Proof.
  unfold halo_keys. rewrite in_concat. split.
  - intros (g & Hg & Hin). apply in_map_iff in Hg as ([h l] & <- & Hg). apply in_map_iff in Hin as (id' & E & Hin). cbn [fst snd] in *. injection E as <- <-. apply in_nth_iff in Hg as [i Hi]. apply combine_nth_error_inv in Hi as [Hi Hl]. rewrite nth_seq in Hi. destruct (i <? length halos); [|discriminate]. cbn in Hi. injection Hi as <-. exists i, l. auto.
  - intros (h & l & Hh & Hin & ->). exists (map (fun id => (id, Z.of_nat h)) l). split; [|apply in_map_iff; exists id; auto]. apply in_map_iff. exists (h, l). split; [reflexivity|]. eapply nth_error_In. apply combine_nth_error; [|exact Hh]. rewrite nth_seq. pose proof (nth_error_lt _ _ _ Hh). destruct (Nat.ltb_spec h (length halos)); [reflexivity|lia].
Qed.
Lemma in_part_keys ids id v : In (id, v) (part_keys ids) <-> exists i, nth_error ids i = Some id /\ v = Z.of_nat i.
Proof.
  unfold part_keys. rewrite in_nth_iff. split.
  - intros [i Hi]. apply combine_nth_error_inv in Hi as [H1 H2]. rewrite nth_error_map, nth_seq in H2. destruct (i <? length ids); [|discriminate]. cbn in H2. injection H2 as <-. exists i. auto.
  - intros (i & Hi & ->). exists i. apply combine_nth_error; [exact Hi|]. rewrite nth_error_map, nth_seq. pose proof (nth_error_lt _ _ _ Hi). destruct (Nat.ltb_spec i (length ids)); [reflexivity|lia].
Qed.
Lemma part_keys_fst ids : map fst (part_keys ids) = ids.
Proof. unfold part_keys. apply nth_error_ext. intros i. rewrite nth_error_map. destruct (nth_error ids i) as [x|] eqn:E.
  - erewrite combine_nth_error; [reflexivity|exact E|]. rewrite nth_error_map, nth_seq. pose proof (nth_error_lt _ _ _ E). destruct (Nat.ltb_spec i (length ids)); [reflexivity|lia].
  - destruct (nth_error (combine ids _) i) as [[a b]|] eqn:E2; [|reflexivity]. apply combine_nth_error_inv in E2 as [E2 _]. congruence.
Qed.
Lemma local_host_spec p pid : ready p -> exists v, local_host p pid = Some v /\
  ((exists h l, nth_error (pr_halos p) h = Some l /\ In pid l /\ v = Z.of_nat h) \/
   ((forall h l, nth_error (pr_halos p) h = Some l -> ~ In pid l) /\ ((In pid (pr_ids p) /\ v = -1) \/ (~ In pid (pr_ids p) /\ v = -2))%Z)).
Proof.
  intros ((Hh & Hp) & H0 & H1 & Hn). unfold local_host.
  assert (HF : Forall (fun kv => 0 <= fst kv)%Z (halo_keys (pr_halos p))). { apply Forall_forall. intros [id v] Hin. apply in_halo_keys in Hin as (h & l & Hl & Hin & _). rewrite Forall_forall in H0. apply H0. apply in_concat. exists l. split; [eapply nth_error_In; eauto|exact Hin]. }
  destruct (mapped_lookup (-1) _ _ pid Hh HF) as (r & -> & [Hr|[Hr ->]]).
  - apply in_halo_keys in Hr as (h & l & Hl & Hin & ->). destruct (Z.ltb_spec (Z.of_nat h) 0); [lia|]. exists (Z.of_nat h). split; [reflexivity|]. left. exists h, l. auto.
  - cbn [Z.ltb Z.compare]. assert (Hno : forall h l, nth_error (pr_halos p) h = Some l -> ~ In pid l). { intros h l Hl Hin. apply Hr. apply in_map_iff. exists (pid, Z.of_nat h). split; [reflexivity|]. apply in_halo_keys. exists h, l. auto. }
    assert (HP : exists i, part_get (pr_ptable p) pid = Some i /\ lookup_result (-1) (part_keys (pr_ids p)) pid i).
    { unfold part_get. destruct (pr_ptable p) as [t|t].
      - apply mapped_lookup; [exact Hp|]. apply Forall_forall. intros [id v] Hin. apply in_part_keys in Hin as (i & Hi & _). rewrite Forall_forall in H1. apply H1. eapply nth_error_In; eauto.
      - destruct Hp as (order & HO & HFl). destruct (flat_lookup (-1) (part_keys (pr_ids p)) order pid HO) as (t' & r & E1 & E2 & E3); [rewrite part_keys_fst; exact Hn|]. assert (t' = t) by congruence. subst t'. exists r. auto. }
    destruct HP as (i & -> & [Hi|[Hi ->]]).
    + apply in_part_keys in Hi as (k & Hk & ->). destruct (Z.eqb_spec (Z.of_nat k) (-1)); [lia|]. exists (-1)%Z. split; [reflexivity|]. right. split; [exact Hno|]. left. split; [eapply nth_error_In; eauto|reflexivity].
    + rewrite Z.eqb_refl. eexists. split; [reflexivity|]. right. split; [exact Hno|]. right. split; [rewrite part_keys_fst in Hi; exact Hi|reflexivity].
Qed.

(** *** Moving. *)
Section Move.
  Context {X R : Type}.
  Local Notation subs_t := (list (sub X R)).
  Variable procs : list proc.
  Variable max_chunk : nat.
  Hypothesis good : Forall ready procs.
  Hypothesis some : procs <> [].
  Local Notation W := (length procs).

  Definition host_of (p : proc) (pid : Z) : Z := match local_host p pid with Some v => v | None => 0%Z end.
  Lemma host_of_ok p pid : In p procs -> local_host p pid = Some (host_of p pid).
  Proof. intros Hp. unfold host_of. rewrite Forall_forall in good. destruct (local_host_spec p pid (good p Hp)) as (v & -> & _). reflexivity. Qed.
  Definition best (pid : Z) : Z * nat := match maxloc (map (fun p => host_of p pid) procs) with Some g => g | None => (0%Z, 0) end.
  Lemma best_ok pid : maxloc (map (fun p => host_of p pid) procs) = Some (best pid).
  Proof. unfold best. destruct procs as [|p ps]; [congruence|]. reflexivity. Qed.
  Lemma best_rank pid : snd (best pid) < W.
  Proof. destruct (maxloc_spec _ _ (best_ok pid)) as [H _]. apply nth_error_lt in H. rewrite map_length in H. exact H. Qed.
  Definition target (s : sub X R) : Z * nat := match s_parts s with [] => (0%Z, 0) | q :: _ => best (fst q) end.
  Definition mv (s : sub X R) : sub X R := set_host (fst (target s)) s.
  Definition goes (r : nat) (l : subs_t) : subs_t := filter (fun s => snd (target s) =? r) l.
  Lemma target_rank s : snd (target s) < W.
  Proof. unfold target. destruct (s_parts s); [cbn; destruct procs; [congruence|cbn; lia]|apply best_rank]. Qed.
  Definition found (root : nat) (s : sub X R) : Prop := exists q r p, s_parts s = q :: r /\ nth_error procs root = Some p /\ s_host s = host_of p (fst q).
  Lemma global_ok root s : found root s -> global_host procs root s = Some (target s).
  Proof.
    intros (q & r & p & Hq & Hp & Hh). unfold global_host, answers, target. rewrite Hq.
    assert (E : mapM (fun rp => if fst rp =? root then Some (s_host s) else local_host (snd rp) (fst q)) (combine (seq 0 W) procs) = Some (map (fun p => host_of p (fst q)) procs)).
    { rewrite (mapM_some _ (fun rp => host_of (snd rp) (fst q))).
      - f_equal. rewrite <- (map_map snd (fun p => host_of p (fst q))). f_equal. clear. generalize 0 at 1. induction procs as [|p ps IH]; intros k; [reflexivity|]. cbn. f_equal. apply IH.
      - intros [i p'] Hin. cbn [fst snd]. apply in_nth_iff in Hin as [k Hk]. apply combine_nth_error_inv in Hk as [H1 H2]. rewrite nth_seq in H1. destruct (k <? W); [|discriminate]. cbn in H1. injection H1 as <-. destruct (Nat.eqb_spec k root) as [->|]; [|apply host_of_ok; eapply nth_error_In; eauto]. rewrite Hh. congruence. }
    rewrite E. apply best_ok.
  Qed.
  Lemma pick_enum {A} (f : A -> nat) (M : list A) r : forall pre, mapM (fun ir : nat * nat => nth_error (pre ++ M) (fst ir)) (filter (fun ir => snd ir =? r) (combine (seq (length pre) (length M)) (map f M))) = Some (filter (fun x => f x =? r) M).
  Proof.
    induction M as [|x M IH]; intros pre; [reflexivity|]. cbn [length seq map combine filter snd fst]. specialize (IH (pre ++ [x])). rewrite app_length in IH. cbn [length] in IH. rewrite Nat.add_1_r, <- app_assoc in IH. cbn [app] in IH.
    destruct (f x =? r); [|exact IH]. cbn [mapM fst]. rewrite nth_error_app2, Nat.sub_diag by lia. cbn [nth_error]. rewrite IH. reflexivity.
  Qed.
  Lemma mapM_concat {A B} (f : A -> option B) ls ms : Forall2 (fun l m => mapM f l = Some m) ls ms -> mapM f (concat ls) = Some (concat ms).
  Proof.
    assert (HA : forall a b x y, mapM f a = Some x -> mapM f b = Some y -> mapM f (a ++ b) = Some (x ++ y)). { induction a as [|u a IH]; intros b x y Ha Hb; cbn in Ha; [injection Ha as <-; exact Hb|]. cbn. destruct (f u); [|discriminate]. destruct (mapM f a) as [x'|]; [|discriminate]. injection Ha as <-. rewrite (IH b x' y eq_refl Hb). reflexivity. }
    induction 1 as [|l m ls ms H HF IH]; [reflexivity|]. cbn [concat]. apply HA; assumption.
  Qed.
  Lemma find_other_ok root chunk (base : nat -> subs_t) : (forall s, In s chunk -> found root s) ->
    find_other procs root chunk (map base (seq 0 W)) = Some (map (fun r => base r ++ map mv (goes r chunk)) (seq 0 W)).
  Proof.
    intros HF. unfold find_other. rewrite (mapM_some _ target) by (intros s Hs; apply global_ok, HF, Hs). rewrite combine_mapped, !map_map, !map_length, seq_length. cbn [fst snd].
    rewrite (sort_rank_groups W). 2: { intros [i r] Hin. apply in_nth_iff in Hin as [k Hk]. apply combine_nth_error_inv in Hk as [_ Hk]. rewrite nth_error_map in Hk. destruct (nth_error chunk k); [|discriminate]. cbn in Hk. injection Hk as <-. apply target_rank. }
    set (moved := map (fun s => set_host (fst (target s)) s) chunk).
    assert (Em : mapM (fun ir => nth_error moved (fst ir)) (concat (map (fun r => filter (fun x => snd x =? r) (combine (seq 0 (length chunk)) (map (fun x => snd (target x)) chunk))) (seq 0 W))) = Some (concat (map (fun r => map mv (goes r chunk)) (seq 0 W)))).
    { apply mapM_concat. apply Forall2_of_nth; [rewrite !map_length; reflexivity|]. intros i x y Hx Hy. rewrite nth_error_map in Hx, Hy. rewrite nth_seq in Hx, Hy. destruct (i <? W); [|discriminate]. cbn in Hx, Hy. injection Hx as <-. injection Hy as <-.
      pose proof (pick_enum (fun s => snd (target s)) moved i []) as HP. cbn [app length] in HP. unfold moved in HP at 2 3. rewrite map_length, map_map in HP. rewrite (map_ext (fun x => snd (target (set_host (fst (target x)) x))) (fun x => snd (target x))) in HP by (intros s; reflexivity). rewrite HP. f_equal. unfold moved, goes. rewrite filter_map_comm. reflexivity. }
    rewrite Em. f_equal. apply nth_error_ext. intros r. rewrite !nth_error_map.
    destruct (nth_error (combine (seq 0 W) (map base (seq 0 W))) r) as [[r' l]|] eqn:Er; rewrite nth_seq.
    - apply combine_nth_error_inv in Er as [E1 E2]. rewrite nth_error_map in E2. rewrite nth_seq in E1, E2. destruct (Nat.ltb_spec r W) as [Hr|]; [|discriminate]. cbn in E1, E2. injection E1 as <-. injection E2 as <-. cbn [option_map fst snd plus]. f_equal. f_equal.
      assert (Ec : map (fun r => length (filter (fun sh => snd (snd sh) =? r) (map (fun x => (x, target x)) chunk))) (seq 0 W) = map (@length (sub X R)) (map (fun r => map mv (goes r chunk)) (seq 0 W))).
      { rewrite map_map. apply map_ext. intros r'. rewrite filter_map_comm, !map_length. reflexivity. }
      rewrite Ec, (segment_concat _ r (map mv (goes r chunk))).
      + rewrite map_map, filter_map_comm. cbn [snd fst]. fold (goes r chunk). rewrite combine_map_both, map_map. apply map_ext. intros s. cbn [fst snd]. destruct s; reflexivity.
      + rewrite nth_error_map, nth_seq. destruct (Nat.ltb_spec r W); [reflexivity|lia].
    - destruct (Nat.ltb_spec r W) as [Hr|]; [|reflexivity]. exfalso. assert (E : nth_error (combine (seq 0 W) (map base (seq 0 W))) r = Some (r, base r)). { apply combine_nth_error; [|rewrite nth_error_map]; rewrite nth_seq; destruct (Nat.ltb_spec r W); try lia; reflexivity. } congruence.
  Qed.
  Lemma goes_app r a b : goes r (a ++ b) = goes r a ++ goes r b.
  Proof. apply filter_app. Qed.
  Lemma chunks_concat : forall (rest chunk : subs_t) size, concat (chunks_from max_chunk chunk size rest) = chunk ++ rest.
  Proof.
    induction rest as [|s r IH]; intros chunk size; cbn [chunks_from].
    - destruct chunk; [reflexivity|]. cbn. reflexivity.
    - destruct (max_chunk <=? size + length (s_parts s)).
      + destruct chunk as [|c0 chunk]; [rewrite IH; reflexivity|]. cbn [concat]. rewrite IH. reflexivity.
      + rewrite IH, <- app_assoc. reflexivity.
  Qed.
  Lemma chunks_ok root chunks : forall (base : nat -> subs_t), (forall s, In s (concat chunks) -> found root s) ->
    for_each chunks (find_other procs root) (map base (seq 0 W)) = Some (map (fun r => base r ++ map mv (goes r (concat chunks))) (seq 0 W)).
  Proof.
    induction chunks as [|c cs IH]; intros base HF; cbn [for_each concat].
    - f_equal. apply map_ext. intros r. cbn. rewrite app_nil_r. reflexivity.
    - rewrite find_other_ok by (intros s Hs; apply HF; cbn; apply in_or_app; left; exact Hs). rewrite IH by (intros s Hs; apply HF; cbn; apply in_or_app; right; exact Hs). f_equal. apply map_ext. intros r. rewrite goes_app, map_app, app_assoc. reflexivity.
  Qed.
  Lemma safely_ok root subs (base : nat -> subs_t) : (forall s, In s subs -> found root s) ->
    find_other_safely procs max_chunk root subs (map base (seq 0 W)) = Some (map (fun r => base r ++ map mv (goes r subs)) (seq 0 W)).
  Proof.
    intros HF. unfold find_other_safely. rewrite chunks_ok; rewrite chunks_concat; [reflexivity|exact HF].
  Qed.
  Lemma roots_ok (frees : list (nat * subs_t)) : forall (base : nat -> subs_t), (forall rf s, In rf frees -> In s (snd rf) -> found (fst rf) s) ->
    for_each frees (fun rf local => find_other_safely procs max_chunk (fst rf) (snd rf) local) (map base (seq 0 W)) =
    Some (map (fun r => base r ++ map mv (goes r (concat (map snd frees)))) (seq 0 W)).
  Proof.
    induction frees as [|[root f] frees IH]; intros base HF; cbn [for_each map concat].
    - f_equal. apply map_ext. intros r. cbn. rewrite app_nil_r. reflexivity.
    - cbn [fst snd]. rewrite safely_ok by (intros s Hs; apply (HF (root, f) s); [left; reflexivity|exact Hs]). rewrite IH by (intros rf s Hr Hs; apply (HF rf s); [right; exact Hr|exact Hs]). f_equal. apply map_ext. intros r. rewrite goes_app, map_app, app_assoc. reflexivity.
  Qed.
  (** *** All of it. *)
  Definition localised (p : proc) (s : sub X R) : sub X R := set_host (match s_parts s with [] => -1 | q :: _ => host_of p (fst q) end)%Z s.
  Definition kept (p : proc) (subs : subs_t) : subs_t := filter (fun s => negb (leaves s)) (map (localised p) subs).
  Definition freed (p : proc) (subs : subs_t) : subs_t := filter leaves (map (localised p) subs).
  Lemma find_local_ok p subs : In p procs -> find_local p subs = Some (freed p subs, kept p subs).
  Proof.
    intros Hp. unfold find_local. rewrite (mapM_some _ (localised p)); [reflexivity|]. intros s _. unfold with_local_host, localised. destruct (s_parts s) as [|q r]; [reflexivity|]. rewrite host_of_ok by exact Hp. reflexivity.
  Qed.
  Definition all_free (subs : list subs_t) : subs_t := concat (map (fun ps => freed (fst ps) (snd ps)) (combine procs subs)).
  Definition final (subs : list subs_t) (r : nat) : subs_t :=
    match nth_error procs r, nth_error subs r with Some p, Some l => kept p l ++ map mv (goes r (all_free subs)) | _, _ => [] end.
  Lemma assign_ok subs : length subs = W -> assign_hosts procs max_chunk subs = Some (map (final subs) (seq 0 W)).
  Proof.
    intros HL. unfold assign_hosts. rewrite (mapM_some _ (fun ps => (freed (fst ps) (snd ps), kept (fst ps) (snd ps)))).
    2: { intros [p l] Hin. cbn [fst snd]. apply find_local_ok. eapply in_combine_l; eauto. }
    rewrite !map_map, map_length, combine_length, HL, Nat.min_id. cbn [fst snd].
    set (base := fun r => match nth_error (combine procs subs) r with Some ps => kept (fst ps) (snd ps) | None => [] end).
    assert (Eb : map (fun ps => kept (fst ps) (snd ps)) (combine procs subs) = map base (seq 0 W)).
    { apply nth_error_ext. intros r. rewrite !nth_error_map, nth_seq. unfold base. destruct (nth_error (combine procs subs) r) as [ps|] eqn:Ep.
      - pose proof (nth_error_lt _ _ _ Ep) as Hr. rewrite combine_length, HL, Nat.min_id in Hr. destruct (Nat.ltb_spec r W); [|lia]. cbn [option_map plus]. rewrite Ep. reflexivity.
      - apply nth_error_None in Ep. rewrite combine_length, HL, Nat.min_id in Ep. destruct (Nat.ltb_spec r W); [lia|reflexivity]. }
    rewrite Eb. rewrite roots_ok.
    - f_equal. apply map_ext_in. intros r Hr. apply in_seq in Hr. unfold final, base. destruct (nth_error_in_range procs r) as [p Hp]; [lia|]. destruct (nth_error_in_range subs r) as [l Hl]; [lia|]. rewrite (combine_nth_error _ _ _ _ _ Hp Hl), Hp, Hl. cbn [fst snd]. f_equal. f_equal. f_equal. unfold all_free. f_equal.
      assert (HS : forall (B : Type) (l : list B) k, map snd (combine (seq k (length l)) l) = l). { intros B l0. induction l0 as [|x l0 IH]; intros k; [reflexivity|]. cbn. f_equal. apply IH. }
      pose proof (HS _ (map (fun ps => freed (fst ps) (snd ps)) (combine procs subs)) 0) as E. rewrite map_length, combine_length, HL, Nat.min_id in E. exact E.
    - intros [root f] s Hin Hs. cbn [fst snd] in *. apply in_nth_iff in Hin as [k Hk]. apply combine_nth_error_inv in Hk as [H1 H2]. rewrite nth_error_map in H2. rewrite nth_seq in H1. destruct (Nat.ltb_spec k W) as [Hk|]; [|discriminate]. cbn in H1. injection H1 as <-.
      destruct (nth_error (combine procs subs) k) as [[p l]|] eqn:Ep; [|discriminate]. cbn in H2. injection H2 as <-. apply combine_nth_error_inv in Ep as [Ep El]. unfold freed in Hs. apply filter_In in Hs as [Hs Hlv]. apply in_map_iff in Hs as (s0 & <- & Hs0). unfold found. unfold leaves, localised in Hlv. cbn [s_parts set_host] in Hlv.
      unfold localised. cbn [s_parts set_host s_host]. destruct (s_parts s0) as [|q r] eqn:Eq; [rewrite andb_comm in Hlv; cbn in Hlv; discriminate|]. exists q, r, p. auto.
  Qed.

  Lemma in_all_free subs s : In s (all_free subs) -> exists q rest, s_parts s = q :: rest.
  Proof.
    unfold all_free. intros H. apply in_concat in H as (l & Hl & H). apply in_map_iff in Hl as ([p l0] & <- & _). unfold freed in H. apply filter_In in H as [_ H]. unfold leaves in H. apply andb_true_iff in H as [_ H]. destruct (s_parts s) as [|q r]; [discriminate|]. eauto.
  Qed.
  Lemma kept_data p l : map data (kept p l ++ freed p l) = map data (filter (fun s => negb (leaves (localised p s))) l ++ filter (fun s => leaves (localised p s)) l).
  Proof. unfold kept, freed. rewrite !filter_map_comm, !map_app, !map_map. reflexivity. Qed.
  Lemma final_data subs : length subs = W -> Permutation (map data (concat (map (final subs) (seq 0 W)))) (map data (concat subs)).
  Proof.
    intros HL. set (F := all_free subs).
    assert (E0 : map (final subs) (seq 0 W) = map (fun rps => kept (fst (snd rps)) (snd (snd rps)) ++ map mv (goes (fst rps) F)) (combine (seq 0 W) (combine procs subs))).
    { apply nth_error_ext. intros r. rewrite !nth_error_map, nth_seq. destruct (Nat.ltb_spec r W) as [Hr|Hr].
      - destruct (nth_error_in_range procs r) as [p Hp]; [lia|]. destruct (nth_error_in_range subs r) as [l Hl]; [lia|]. erewrite (combine_nth_error (seq 0 W)); [|rewrite nth_seq; destruct (Nat.ltb_spec r W); [reflexivity|lia]|apply combine_nth_error; eauto]. cbn [option_map fst snd plus]. unfold final. rewrite Hp, Hl. reflexivity.
      - replace (nth_error (combine (seq 0 W) (combine procs subs)) r) with (@None (nat * (proc * subs_t))); [reflexivity|]. symmetry. apply nth_error_None. rewrite combine_length, seq_length. lia. }
    assert (E1 : Permutation (concat (map (final subs) (seq 0 W))) (concat (map (fun ps => kept (fst ps) (snd ps)) (combine procs subs)) ++ map mv (concat (map (fun r => goes r F) (seq 0 W))))).
    { rewrite E0. assert (HLc : length (combine procs subs) = length (seq 0 W)) by (rewrite combine_length, seq_length; lia). revert HLc. generalize (combine procs subs) (seq 0 W). clear. intros cs rs. revert rs. induction cs as [|c cs IH]; intros [|r rs] HL; try discriminate; [reflexivity|]. cbn [combine map concat fst snd]. rewrite IH by (cbn in HL; lia). rewrite map_app, <- !app_assoc. apply Permutation_app_head. rewrite !app_assoc. apply Permutation_app_tail. apply Permutation_app_comm. }
    rewrite E1. rewrite map_app, map_map. change (map (fun x => data (mv x))) with (map (@data X R)).
    assert (E2 : Permutation (concat (map (fun r => goes r F) (seq 0 W))) F) by (apply (concat_filters (fun s => snd (target s))); intros s _; apply target_rank).
    rewrite E2, <- map_app. unfold F, all_free. assert (E3 : Permutation (concat (map (fun ps => kept (fst ps) (snd ps)) (combine procs subs)) ++ concat (map (fun ps => freed (fst ps) (snd ps)) (combine procs subs))) (concat (map (fun ps => kept (fst ps) (snd ps) ++ freed (fst ps) (snd ps)) (combine procs subs)))).
    { generalize (combine procs subs). clear. intros cs. induction cs as [|c cs IH]; [reflexivity|]. cbn [map concat]. rewrite <- IH, <- !app_assoc. apply Permutation_app_head. rewrite !app_assoc. apply Permutation_app_tail. apply Permutation_app_comm. }
    rewrite E3. rewrite !concat_map, map_map. revert HL. clear. revert subs. induction procs as [|p ps IH]; intros [|l subs] HL; try discriminate; [reflexivity|]. cbn [combine map concat fst snd]. apply Permutation_app; [|apply IH; cbn in HL; lia].
    rewrite kept_data. apply Permutation_map. clear. induction l as [|s l IH]; [reflexivity|]. cbn [filter]. destruct (leaves (localised p s)); cbn [negb].
    - rewrite <- Permutation_middle. constructor. exact IH.
    - cbn [app]. constructor. exact IH.
  Qed.
  Lemma final_place subs r s : length subs = W -> (forall l s, In l subs -> In s l -> known procs s) -> In s (final subs r) -> right_place procs r s.
  Proof.
    intros HL HK. unfold final. destruct (nth_error procs r) as [p|] eqn:Ep; [|intros []]. destruct (nth_error subs r) as [l|] eqn:El; [|intros []]. intros Hin. apply in_app_or in Hin as [Hin|Hin].
    - unfold kept in Hin. apply filter_In in Hin as [Hin Hlv]. apply in_map_iff in Hin as (s0 & <- & Hs0). unfold right_place. unfold leaves, localised in Hlv. unfold localised. cbn [set_host s_parts s_host] in *. destruct (s_parts s0) as [|q rest] eqn:Eq; [reflexivity|]. cbn [length Nat.eqb negb] in Hlv. rewrite andb_true_r in Hlv. apply negb_true_iff, Z.ltb_ge in Hlv.
      pose proof (nth_error_In _ _ Ep) as Hp. assert (HR : ready p) by (rewrite Forall_forall in good; apply good; exact Hp). destruct (local_host_spec p (fst q) HR) as (v & Ev & Hv). rewrite (host_of_ok p (fst q) Hp) in Ev. assert (host_of p (fst q) = v) by congruence. rewrite H in *. destruct Hv as [(h & l' & Hh & Hi & ->)|[_ [[_ ->]|[_ ->]]]]; [|lia|lia]. left. exists h. split; [exists p, l'; auto|reflexivity].
    - apply in_map_iff in Hin as (s1 & <- & Hs1). unfold goes in Hs1. apply filter_In in Hs1 as [Hs1 Hr]. apply Nat.eqb_eq in Hr. destruct (in_all_free _ _ Hs1) as (q & rest & Eq).
      assert (Hk : known procs s1). { unfold all_free in Hs1. apply in_concat in Hs1 as (l1 & Hl1 & Hs1). apply in_map_iff in Hl1 as ([p0 l0] & <- & Hp0). unfold freed in Hs1. apply filter_In in Hs1 as [Hs1 _]. apply in_map_iff in Hs1 as (s0 & <- & Hs0). apply in_combine_r in Hp0. exact (HK l0 s0 Hp0 Hs0). }
      unfold right_place, mv. cbn [set_host s_parts s_host]. unfold known in Hk. unfold target in *. rewrite Eq in *. destruct (maxloc_spec _ _ (best_ok (fst q))) as [HM1 HM2]. rewrite Hr, nth_error_map, Ep in HM1. cbn [option_map] in HM1. injection HM1 as HM1.
      pose proof (nth_error_In _ _ Ep) as Hp. assert (HR : ready p) by (rewrite Forall_forall in good; apply good; exact Hp). destruct (local_host_spec p (fst q) HR) as (v & Ev & Hv). rewrite (host_of_ok p (fst q) Hp) in Ev. assert (Evv : v = fst (best (fst q))) by congruence. rewrite <- Evv in *.
      assert (HO : forall r' p' , nth_error procs r' = Some p' -> exists v', (v' <= v)%Z /\ ((exists h l, nth_error (pr_halos p') h = Some l /\ In (fst q) l /\ v' = Z.of_nat h) \/ ((forall h l, nth_error (pr_halos p') h = Some l -> ~ In (fst q) l) /\ ((In (fst q) (pr_ids p') /\ v' = -1) \/ (~ In (fst q) (pr_ids p') /\ v' = -2))%Z))).
      { intros r' p' Hp'. pose proof (nth_error_In _ _ Hp') as Hp2. assert (HR2 : ready p') by (rewrite Forall_forall in good; apply good; exact Hp2). destruct (local_host_spec p' (fst q) HR2) as (v' & Ev' & Hv'). exists v'. split; [|exact Hv']. rewrite (host_of_ok p' (fst q) Hp2) in Ev'. apply (HM2 r' v'). rewrite nth_error_map, Hp'. cbn. congruence. }
      destruct Hv as [(h & l' & Hh & Hi & ->)|[Hno Hv]].
      + left. exists h. split; [exists p, l'; auto|reflexivity].
      + right. assert (Hv0 : (v < 0)%Z) by (destruct Hv as [[_ ->]|[_ ->]]; lia). split.
        { intros r' h (p' & l' & Hp' & Hh & Hi). destruct (HO r' p' Hp') as (v' & Hle & [(h' & l2 & _ & _ & ->)|[Hn' _]]); [lia|]. exact (Hn' h l' Hh Hi). }
        destruct Hv as [[Hi ->]|[Hi ->]]; [split; [exists p; auto|reflexivity]|]. exfalso. destruct Hk as (r' & [(h & p' & l' & Hp' & Hh & Hi')|(p' & Hp' & Hi')]); destruct (HO r' p' Hp') as (v' & Hle & [(h' & l2 & _ & _ & ->)|[Hn' Hv']]); try lia.
        * exact (Hn' h l' Hh Hi').
        * destruct Hv' as [[_ ->]|[Hc _]]; [lia|exact (Hc Hi')].
  Qed.
  Lemma final_empty subs r l : length subs = W -> nth_error subs r = Some l ->
    filter (fun s => length (s_parts s) =? 0) (final subs r) = map (set_host (-1)) (filter (fun s => length (s_parts s) =? 0) l).
  Proof.
    intros HL Hl. unfold final. rewrite Hl. destruct (nth_error_in_range procs r) as [p ->]; [apply nth_error_lt in Hl; lia|]. rewrite filter_app.
    assert (E : filter (fun s : sub X R => length (s_parts s) =? 0) (map mv (goes r (all_free subs))) = []).
    { apply filter_none. intros s Hs. apply in_map_iff in Hs as (s0 & <- & Hs0). unfold goes in Hs0. apply filter_In in Hs0 as [Hs0 _]. destruct (in_all_free _ _ Hs0) as (q & rest & E). unfold mv. cbn [set_host s_parts]. rewrite E. reflexivity. }
    rewrite E, app_nil_r. unfold kept. clear. induction l as [|s l IH]; [reflexivity|]. cbn [map filter].
    assert (Ep : s_parts (localised p s) = s_parts s) by reflexivity. destruct (s_parts s) as [|q rest] eqn:Eq; cbn [length Nat.eqb].
    - assert (Ev : leaves (localised p s) = false) by (unfold leaves; rewrite Ep; apply andb_false_r). rewrite Ev. cbn [negb filter]. rewrite Ep. cbn [length Nat.eqb map]. rewrite IH. f_equal. unfold localised. rewrite Eq. reflexivity.
    - destruct (negb (leaves (localised p s))); [|exact IH]. cbn [filter]. rewrite Ep. exact IH.
  Qed.
End Move.
