(** Property C88: the parallel loops that feed the centrals, raise the ranks and update the tracks, whatever the threads do. *)
From Coq Require Import List ZArith QArith Bool Lia Sorting.Permutation.
From Verif.Model Require Import ListMem Mpi Run Hash Subhalo Tracks Nest UpdateTracks Unbind Threads UpdateThreads.
From Verif.Spec Require Import Members Forest Nesting NestHistory Races Counters.
From Verif.Proofs Require Import ListMemProofs MpiProofs ListExtra MemberProofs CentralProofs2 TreeProofs NestProofs NestProofs2 NestProofs3 NestProofs4 NestProofs5 HistorySteps HistorySteps2 HistoryProofs HaloWork WorkProofs LinkMerge ThreadProofs WalkProofs LoopSafety HelperLoops FeedLoops UpdateLoops GlobalLoop.
From Verif.Props Require Import PropsMembers PropsNest PropsThreads.
Import ListNotations.
Local Open Scope nat_scope.

(** C88, FeedCentrals: whatever the threads do and whichever of them draws a number for a new subhalo first, the loop over the halos
    ends, nothing undefined happens, no two turns ever are about to access the same subhalo or halo with one of them writing, and in
    the end subhalos, halos and the counter are those of the model for some order of the halos. *)
Theorem C88_feed : forall (X R H : Type) (sort : list nat -> list nat) (ratio : Q) (dist : sub X R -> H -> Q) (centre : H -> R -> R)
    (snap : Z) (fresh : R) (subs : list (sub X R)) (halos : list (list (Z * X) * H)),
  Forall (fun s => (-1 <= s_host s < Z.of_nat (length halos))%Z) subs -> sorts_by_mass subs sort ->
  Forall (fun s => (0 <= s_mass s)%Q) subs -> (ratio <= 1)%Q ->
  Forall (fun s => (0 <= s_host s)%Z -> s_parts s <> []) subs ->
  exists table0 table, build_table sort true (length halos) subs = Some table0 /\
    decide_centrals ratio dist subs (map snd halos) table0 = Some table /\
    safe_crew place_eqb (feed_turns centre snap (tl table)) (length subs) (stock (subs ++ repeat (new_sub fresh) (count_empty table)) halos)
      (fun c s => exists order st, Permutation order (seq 0 (length halos)) /\
         centrals_step sort ratio dist centre snap fresh order subs halos = Some (table, st) /\ c = f_npro st /\
         forall l, s l = stock (f_subs st) (f_halos st) l).
Proof.
  intros X R H sort ratio dist centre snap fresh subs halos Hhost Hsort Hmass Hratio Hparts.
  destruct (decided sort ratio dist subs halos Hhost Hsort Hmass Hratio) as (t0 & table & HB & HD & (HL & Hin & _) & _).
  exists t0, table. split; [exact HB|]. split; [exact HD|].
  destruct (feed_loop_safe centre snap fresh table subs halos HL) as [N HN].
  - intros g g' m l l' Hg Hg' Hm Hm'. destruct (proj1 (proj1 (Hin g l Hg) m) Hm) as (s & Hs & Hh).
    destruct (proj1 (proj1 (Hin g' l' Hg') m) Hm') as (s' & Hs' & Hh'). assert (s' = s) by congruence. subst. lia.
  - intros g m0 rest Hg. destruct (proj1 (proj1 (Hin (S g) _ Hg) m0) (or_introl eq_refl)) as (s & Hs & Hh). exists s. split; [exact Hs|].
    rewrite Forall_forall in Hparts. apply (Hparts s (nth_error_In _ _ Hs)). lia.
  - exists N. intros n ts c s HW. destruct (HN n ts c s HW) as (A & B & C & D). split; [exact A|]. split; [exact B|]. split; [exact C|].
    intros Hall. destruct (D Hall) as (order & st & Ho & Hf & Hc & Hs). exists order, st. split; [exact Ho|]. split; [|split; [exact Hc|exact Hs]].
    unfold centrals_step. rewrite HB, HD, Hf. reflexivity.
Qed.
Print Assumptions C88_feed.

Section Process.
  Context {X R H : Type}.
  (** One process in any snapshot of any history. *)
  Variables (before : list (list (sub X R))) (ps : list (@proc X R H)) (p : @proc X R H).
  Hypothesis HH : nest_history (H := H) before.
  Hypothesis HB : nest_begun before ps.
  Hypothesis Hp : In p ps.

  (** C88, the beginning of LevelUpDetachedSubhalos: the loop over the halos that gives the centrals rank 0, then that over the
      subhalos in no halo. *)
  Theorem C88_raise : exists first raised,
    safe_loop Z.eqb race (first_turns (tl (p_table p))) (zget (p_local p)) (zget first) /\
    safe_loop Z.eqb race (zero_turns (nth 0 (p_table p) [])) (zget first) (zget raised) /\
    raise_ranks (p_table p) (p_local p) = Some raised.
  Proof using HH HB Hp.
    assert (Hk := Hp). apply In_nth_error in Hk as [k Hk]. destruct (begun_spec before ps (history_ok _ HH) HB) as [H1 _]. destruct (H1 k p Hk) as (_ & (tn & _ & _ & HTL & HTG & _) & _).
    destruct HB as (_ & _ & Hnest & _). rewrite Forall_forall in Hnest. destruct (Hnest p Hp) as (order & Hord & En). unfold nest_local, level_up_all in En.
    apply rbind_ends in En as (out & En & _). apply rbind_ends in En as (raised & Er & _). apply of_opt_ends in Er. assert (Er0 := Er).
    unfold raise_ranks in Er. rewrite for_each_app in Er. destruct (for_each (concat (map first_of (tl (p_table p)))) _ _) as [first|] eqn:E1; [|discriminate].
    exists first, raised. split; [|split; [|exact Er0]].
    - apply first_loop; [|exact E1]. intros h h' g g' i Hg Hg' Hi Hi'. destruct (proj1 (proj1 (HTG _ _ Hg) i) Hi) as (s & Hs & Ehs). destruct (proj1 (proj1 (HTG _ _ Hg') i) Hi') as (s' & Hs' & Ehs'). assert (s' = s) by congruence. subst. lia.
    - destruct (p_table p) as [|g t]; [discriminate|]. cbn [nth firstn concat] in *. rewrite app_nil_r in Er. apply zero_loop; [apply (HTG 0 g eq_refl)|exact Er].
  Qed.

  (** C88, UpdateTracks: ExtendCentralNest, AssignRanks (two loops), FillDepth, the loop that keeps the history, and
      GlobalizeTrackReferences.  In the last each turn reads track numbers of other subhalos. *)
  Theorem C88_update : forall sort order snap halo_ids,
    sorts_by_mass (p_reg p) sort -> length halo_ids = length (p_halos p) -> Permutation order (seq 0 (length halo_ids)) ->
    update_tracks sort (length (p_reg p)) order snap halo_ids (p_heads p) (p_reg p) = Done (p_ranked p, p_out p) ->
    exists table extended zeroed ranked finished,
      build_table sort true (length halo_ids) (p_reg p) = Some table /\
      safe_loop Z.eqb race (extend_turns (length (p_reg p)) (tl table) (p_heads p)) (zget (p_reg p)) (zget extended) /\
      safe_loop Z.eqb race (zero_turns (nth 0 table [])) (zget extended) (zget zeroed) /\
      safe_loop Z.eqb race (rank_turns (tl table)) (zget zeroed) (zget ranked) /\
      safe_loop Z.eqb race (depth_turns (length (p_reg p)) (tl table)) (zget ranked) (zget (p_ranked p)) /\
      safe_loop Z.eqb race (finish_turns snap halo_ids (length (p_ranked p))) (zget (p_ranked p)) (zget finished) /\
      safe_loop field_eqb race (global_turns snap (length finished)) (fields finished) (fields (p_out p)).
  Proof using HH HB Hp.
    intros sort order snap ids Hsort Hids Hord E. assert (Hk := Hp). apply In_nth_error in Hk as [k Hk].
    destruct (begun_spec before ps (history_ok _ HH) HB) as [H1 H2]. destruct (H1 k p Hk) as (_ & (tn & HN) & Hheads & _). destruct (H2 k p Hk) as (tr & HR).
    destruct HB as (_ & _ & _ & Hwork & _). rewrite Forall_forall in Hwork. rewrite Hids in Hord.
    destruct (ranked_facts _ _ _ _ _ _ _ _ _ _ (Hwork p Hp) HN HR Hheads Hsort) as (table & ET & HT & Huni & Hhl & Hhd).
    destruct HR as ([Hfor Hroot] & _ & _ & _ & _ & _ & Hfield & _).
    destruct (extend_nests_spec _ _ _ _ _ _ Hfor Hroot Huni HT Hhl Hhd (le_n _) order Hord) as (s1 & E1 & HL1 & Hb1 & Ho1 & Hc1).
    assert (Ht1 : table_for s1 (length (p_halos p)) table).
    { eapply table_for_ext; [exact HL1| |exact HT]. intros i s Hs. destruct (Hb1 (Z.of_nat i) s) as (s' & Hs' & B); [rewrite zget_of_nat; exact Hs|].
      exists s'. rewrite zget_of_nat in Hs'. split; [exact Hs'|]. symmetry. apply same_but_host. exact B. }
    destruct (assign_ranks_spec s1 _ table Ht1) as (s2 & E2 & HL2 & Hr2).
    unfold update_tracks in E. rewrite Hids, ET in E. cbn [of_opt rbind] in E. rewrite E1 in E. cbn [rbind] in E. rewrite E2 in E. cbn [of_opt rbind] in E.
    apply rbind_ends in E as (s3 & E3 & E). apply rbind_ends in E as (s4 & E4 & E). apply of_opt_ends in E4. apply rbind_ends in E as (s5 & E5 & E). apply of_opt_ends in E5. injection E as <- <-.
    assert (Hsp := table_spread _ _ _ HT). assert (E2' := E2). unfold assign_ranks in E2'. destruct (for_each (concat (firstn 1 table)) _ _) as [s1'|] eqn:Ez; [|discriminate].
    exists table, s1, s1', s2, s4. rewrite Hids. split; [exact ET|]. split; [|split; [|split; [|split; [|split]]]].
    - exact (extend_loop _ _ _ _ _ _ Hfor Hroot Huni HT Hhl Hhd (le_n _) order s1 Hord E1).
    - destruct HT as (HTl & HTg & _). destruct table as [|g t]; [discriminate|]. cbn [nth firstn concat] in *. rewrite app_nil_r in Ez. apply zero_loop; [apply (HTg 0 g eq_refl)|exact Ez].
    - apply rank_loop; assumption.
    - apply depth_loop; [exact Hsp| |exact E3]. intros h c rest Hg. assert (Hh : In h (seq 0 (length (p_halos p)))). { apply in_seq. apply nth_error_lt in Hg. destruct HT as (HTl & _). destruct table; [discriminate|]. cbn in *. lia. }
      destruct table as [|g0 t]; [destruct h; discriminate|]. specialize (Hc1 h Hh (c :: rest) Hg). destruct Hc1 as (u & HRu & Hlu & HPu). exists u. split; [|auto].
      eapply represents_ext; [exact HRu|]. intros i l Hi (s & Hs & El). pose proof (zget_some _ _ _ Hs) as Hrg.
      destruct (Hr2 (Z.to_nat i) s) as (s' & Hs' & Hro & _); [rewrite <- zget_nat by lia; exact Hs|]. exists s'. rewrite zget_nat by lia. split; [exact Hs'|]. rewrite Hro. exact El.
    - exact (finish_loop _ _ _ E4).
    - apply global_loop. exact E5.
  Qed.
End Process.
Print Assumptions C88_raise.
Print Assumptions C88_update.

(** Threads that do what a schedule says. *)
Section Schedule.
  Context {L V : Type}.
  Variable same : L -> L -> bool.
  Fixpoint work_at (sched : list nat) (c : @crew L V) : option (@crew L V) :=
    match sched with
    | [] => Some c
    | t :: r => let '(ts, k, s) := c in
        match nth_error ts t with
        | Some (Plain p) => match step1 same p s with
                            | Some (p', s') => match upd ts t (Plain p') with Some ts' => work_at r (ts', k, s') | None => None end
                            | None => None
                            end
        | Some (Take f) => match upd ts t (Plain (f k)) with Some ts' => work_at r (ts', S k, s) | None => None end
        | None => None
        end
    end.
  Lemma works_front n (a b c : @crew L V) : work1 same a b -> works same n b c -> works same (S n) a c.
  Proof. intros H1 H2. induction H2 as [b|n b d e H2 IH H3]; [econstructor; [constructor|exact H1]|]. econstructor; [apply IH; exact H1|exact H3]. Qed.
  Lemma work_at_works sched : forall c c', work_at sched c = Some c' -> works same (length sched) c c'.
  Proof.
    induction sched as [|t r IH]; intros [[ts k] s] c' E; cbn in E; [injection E as <-; constructor|]. destruct (nth_error ts t) as [[p|f]|] eqn:Ep; [| |discriminate].
    - destruct (step1 same p s) as [[p' s']|] eqn:Es; [|discriminate]. destruct (upd ts t (Plain p')) as [ts'|] eqn:Eu; [|discriminate]. eapply works_front; [eapply work_plain; eauto|]. apply IH. exact E.
    - destruct (upd ts t (Plain (f k))) as [ts'|] eqn:Eu; [|discriminate]. eapply works_front; [eapply work_take; eauto|]. apply IH. exact E.
  Qed.
End Schedule.

(** The subhalos and halos of C24: halos 2 and 3 have no members, the thread of halo 3 draws its number first, and the threads then
    take turns.  The numbers and the memory are in fact those of the order 3, 1, 0, 2. *)
Example C88_witness : Forall (fun s => (-1 <= s_host s < Z.of_nat (length w_halos))%Z) w_subs /\ Forall (fun s => (0 <= s_mass s)%Q) w_subs /\
  Forall (fun s => (0 <= s_host s)%Z -> s_parts s <> []) w_subs /\
  (let dist := fun (s : sub Z nat) h => ((s_mass s - h) * (s_mass s - h))%Q in
   match centrals_step (mass_sort w_subs) (4 # 5) dist (fun _ r => r) 6 0 [3; 1; 0; 2] w_subs w_halos with
   | Some (table, st) =>
       match work_at place_eqb [3; 1; 2; 0; 2; 3; 1; 0; 3; 2; 1; 1; 0; 2; 0; 3; 2; 3]
           (feed_turns (fun _ r => r) 6%Z (tl table), 5, stock (w_subs ++ repeat (new_sub 0) (count_empty table)) w_halos) with
       | Some (ts, c, s) => (map (fun t => next (outside t)) ts, c, map s (map Sub (seq 0 7) ++ map Halo (seq 0 4))) =
           (repeat None 4, 7, map (stock (f_subs st) (f_halos st)) (map Sub (seq 0 7) ++ map Halo (seq 0 4)))
       | None => False
       end
   | None => False
   end).
Proof. split; [repeat constructor; cbn; lia|]. split; [repeat constructor; cbn; discriminate|]. split; [repeat constructor; cbn; discriminate|]. vm_compute. reflexivity. Qed.
(** The history of C28, in whose third snapshot the central of a halo changes. *)
Example C88_update_witness : nest_history (H := Q) (map p_out sim1) /\ nest_begun (map p_out sim1) sim2 /\
  (let p := nth 0 sim2 idle in exists order snap halo_ids,
     update_tracks (mass_sort (p_reg p)) (length (p_reg p)) order snap halo_ids (p_heads p) (p_reg p) = Done (p_ranked p, p_out p) /\
     length (extend_turns (X := Z) (R := nat) 3 (tl (p_table p)) (p_heads p)) = 1).
Proof. split; [apply sim_history|]. split; [apply sim2_run|]. exists [0], 2%Z, [100%Z]. split; vm_compute; reflexivity. Qed.
