(** Properties C25 and C26: track ids and track history. *)
From Coq Require Import List ZArith QArith Bool Lia Sorting.Permutation.
From Verif.Model Require Import ListMem Mpi Subhalo Tracks.
From Verif.Spec Require Import Tracks.
From Verif.Proofs Require Import ListMemProofs MpiProofs ListExtra TrackProofs.
Import ListNotations.
Local Open Scope nat_scope.

Lemma work_facts {X R} (moved : list (list (sub X R))) work :
  Forall2 (fun m (w : list (sub X R) * nat) => exists old new, fst w = old ++ new /\ snd w = length new /\ map s_track old = map s_track m) moved work ->
  Forall (fun p => snd p <= length (fst p)) work /\ map (map s_track) (map old_of work) = map (map s_track) moved /\
  map (fun p => length (old_of p)) work = map (@length _) moved.
Proof.
  induction 1 as [|m w moved work (old & new & E1 & E2 & E3) HF (IH1 & IH2 & IH3)]; [repeat split; constructor|].
  assert (Eo : old_of w = old).
  { unfold old_of. rewrite E1, E2, app_length. replace (length old + length new - length new) with (length old) by lia.
    rewrite firstn_app, firstn_all, Nat.sub_diag. cbn. apply app_nil_r. }
  split; [constructor; [rewrite E1, E2, app_length; lia|exact IH1]|]. cbn. rewrite Eo, E3, IH2, IH3. split; [reflexivity|]. f_equal.
  rewrite <- (map_length s_track old), E3, map_length. reflexivity.
Qed.

(** C25: for every number of processes and every history of migrations and births, the track ids over all processes are
    exactly 0 .. N-1, each used once. *)
Theorem C25_track_ids_contiguous : forall (X R : Type) (st : list (list (sub X R))), history st ->
  Permutation (map s_track (concat st)) (map Z.of_nat (seq 0 (length (concat st)))).
Proof.
  intros X R st HH. induction HH as [W|before after HH IH (moved & work & HP & HF & HR)].
  - replace (concat (repeat (@nil (sub X R)) W)) with (@nil (sub X R)) by (induction W; cbn; auto). reflexivity.
  - destruct (work_facts moved work HF) as (H1 & H2 & H3). destruct (register_spec work H1) as (out & HR' & HL & _ & HT).
    rewrite HR in HR'. injection HR' as <-.
    assert (Hn : nsum (map (fun p => length (old_of p)) work) = length (concat before)).
    { rewrite H3, <- concat_length_nsum. rewrite <- (map_length s_track (concat moved)), <- (Permutation_length HP), map_length. reflexivity. }
    assert (Hold : map s_track (concat (map old_of work)) = map s_track (concat moved)) by (rewrite !concat_map, H2; reflexivity).
    rewrite Hn, Hold in HT. pose proof (Permutation_length HT) as HLen. rewrite app_length, !map_length, seq_length in HLen.
    rewrite <- (map_length s_track (concat moved)), <- (Permutation_length HP), map_length in HLen.
    rewrite HLen, seq_app, map_app. eapply perm_trans; [exact HT|]. apply Permutation_app.
    + eapply perm_trans; [symmetry; exact HP|exact IH].
    + cbn [plus]. set (b := nsum _). set (a := length (concat before)). clear. clearbody a b.
      replace (map Z.of_nat (seq a b)) with (map (fun k => Z.of_nat (a + k)) (seq 0 b)); [reflexivity|].
      apply nth_error_ext. intros i. rewrite !nth_error_map, !nth_seq. destruct (i <? b); reflexivity.
Qed.
Print Assumptions C25_track_ids_contiguous.

(** C25: registration leaves every old subhalo exactly as it is, drops the new subhalos without bound particles, and gives
    the others ids not smaller than the number of old tracks: an id never changes and is never given again. *)
Theorem C25_ids_persist : forall (X R : Type) (ps : list (list (sub X R) * nat)),
  Forall (fun p => snd p <= length (fst p)) ps ->
  exists out, register ps = Some out /\ length out = length ps /\
    forall r subs nbirth, nth_error ps r = Some (subs, nbirth) ->
      exists news, nth_error out r = Some (firstn (length subs - nbirth) subs ++ news) /\
        Forall2 (fun s s' => exists t, s' = set_track t s /\ (Z.of_nat (nsum (map (fun p => (length (fst p) - snd p)%nat) ps)) <= t)%Z)
          (filter (fun s => 1 <? s_nbound s) (skipn (length subs - nbirth) subs)) news.
Proof.
  intros X R ps HF. destruct (register_spec ps HF) as (out & HR & HL & HN & _). exists out. split; [exact HR|]. split; [exact HL|].
  intros r subs nb Hr. specialize (HN r _ Hr). eexists. split; [exact HN|]. apply Forall2_of_nth; [symmetry; apply number_from_length|].
  intros i s s' Hs Hs'. rewrite number_from_nth in Hs'. unfold new_of in Hs'. cbn [fst snd] in Hs'.
  assert (Hs2 : nth_error (filter isbound (skipn (length subs - nb) subs)) i = Some s) by exact Hs. rewrite Hs2 in Hs'. cbn in Hs'. injection Hs' as <-.
  eexists. split; [reflexivity|]. unfold base_of.
  assert (Hm : map (fun p => length (fst p) - snd p) ps = map (fun p => length (old_of p)) ps).
  { apply map_ext_in. intros p Hp. unfold old_of. rewrite firstn_length. lia. }
  rewrite Hm. lia.
Qed.
Print Assumptions C25_ids_persist.

Definition nb (n : nat) : sub nat nat := set_nbound n (new_sub 0).
Definition c25_first : list (list (sub nat nat)) := [[set_track 0 (nb 5)]; [set_track 1 (nb 3); set_track 2 (nb 2)]].
Definition c25_second : list (list (sub nat nat)) := [[set_track 2 (nb 1); set_track 0 (nb 0); set_track 3 (nb 9); set_track 4 (nb 2)]; [set_track 1 (nb 7); set_track 5 (nb 4)]].
Example C25_witness : history c25_second.
Proof.
  apply (history_step c25_first); [apply (history_step (repeat [] 2)); [apply history_start|]|].
  - exists [[]; []], [([nb 1; nb 5], 2); ([nb 3; nb 1; nb 2; nb 0], 4)]. split; [apply Permutation_refl|]. split; [|reflexivity].
    constructor; [|constructor; [|constructor]].
    + exists [], [nb 1; nb 5]. auto.
    + exists [], [nb 3; nb 1; nb 2; nb 0]. auto.
  - exists [[set_track 2 (nb 1); set_track 0 (nb 0)]; [set_track 1 (nb 7)]],
      [([set_track 2 (nb 1); set_track 0 (nb 0); nb 9; nb 1; nb 2], 3); ([set_track 1 (nb 7); nb 4], 1)].
    split; [|split; [|reflexivity]].
    + cbn. apply Permutation_sym. eapply perm_trans; [apply perm_swap|]. constructor. apply perm_swap.
    + constructor; [|constructor; [|constructor]].
      * exists [set_track 2 (nb 1); set_track 0 (nb 0)], [nb 9; nb 1; nb 2]. auto.
      * exists [set_track 1 (nb 7)], [nb 4]. auto.
Qed.

(** The track after a history: at every entry all other fields may have changed arbitrarily, mass and rank are those of
    the entry, and UpdateTrack is called. *)
Definition at_entry {X R} (e : entry) (s : sub X R) : sub X R := update_track (e_snap e) (set_rank (e_rank e) (set_mass (e_mass e) s)).
Definition after {X R} (h : list entry) (s : sub X R) : sub X R := fold_left (fun s e => at_entry e s) h s.

Lemma at_entry_fields {X R} e (s : sub X R) : s_track s <> (-1)%Z ->
  s_track (at_entry e s) = s_track s /\
  s_snapiso (at_entry e s) = (if Z.eqb (e_rank e) 0 then e_snap e else s_snapiso s) /\
  s_lastmax (at_entry e s) = (if Qle_bool (s_lastmax s) (e_mass e) then e_mass e else s_lastmax s) /\
  s_snapmax (at_entry e s) = (if Qle_bool (s_lastmax s) (e_mass e) then e_snap e else s_snapmax s).
Proof.
  intros Ht. unfold at_entry, update_track. cbn [s_track set_rank set_mass s_rank]. destruct (Z.eqb_spec (s_track s) (-1)); [contradiction|].
  destruct (Z.eqb (e_rank e) 0); cbn; destruct (Qle_bool (s_lastmax s) (e_mass e)); cbn; auto.
Qed.

(** C26: for every sequence of masses and ranks, starting from a new track, LastMaxMass is the largest mass so far,
    SnapshotIndexOfLastMaxMass the last snapshot attaining it, SnapshotIndexOfLastIsolation the last snapshot of rank 0
    (-1 if there was none). *)
Theorem C26_history_fields : forall (X R : Type) (h : list entry) (s : sub X R),
  s_track s <> (-1)%Z -> (s_lastmax s == 0)%Q -> s_snapiso s = (-1)%Z -> Forall (fun e => (0 <= e_mass e)%Q) h -> h <> [] ->
  let s' := after h s in
  s_track s' = s_track s /\ largest_mass h (s_lastmax s') /\
  (exists e, last_with (fun e => (e_mass e == s_lastmax s')%Q) h e /\ s_snapmax s' = e_snap e) /\
  ((exists e, last_with (fun e => e_rank e = 0%Z) h e /\ s_snapiso s' = e_snap e) \/
   (Forall (fun e => e_rank e <> 0%Z) h /\ s_snapiso s' = (-1)%Z)).
Proof.
  intros X R h s Ht Hm Hi HF Hne. cbn zeta. revert HF Hne. induction h as [|e h IH] using rev_ind; [congruence|]. intros HF _.
  apply Forall_app in HF as [HF He]. inversion He as [|? ? He0 _]; subst. unfold after in *. rewrite fold_left_app. cbn [fold_left].
  set (s1 := fold_left (fun s e => at_entry e s) h s) in *.
  assert (Hs1 : h = [] /\ s1 = s \/ h <> []) by (destruct h; [left; split; reflexivity|right; discriminate]).
  assert (Ht1 : s_track s1 = s_track s) by (destruct Hs1 as [[-> ->]|Hne]; [reflexivity|apply IH; assumption]).
  destruct (at_entry_fields e s1) as (F1 & F2 & F3 & F4); [congruence|]. rewrite F1, F2, F3, F4, Ht1. split; [reflexivity|].
  (* mass part *)
  assert (Hmass : largest_mass (h ++ [e]) (if Qle_bool (s_lastmax s1) (e_mass e) then e_mass e else s_lastmax s1) /\
    (exists e0, last_with (fun e0 => (e_mass e0 == (if Qle_bool (s_lastmax s1) (e_mass e) then e_mass e else s_lastmax s1))%Q) (h ++ [e]) e0 /\
       (if Qle_bool (s_lastmax s1) (e_mass e) then e_snap e else s_snapmax s1) = e_snap e0)).
  { destruct (Qle_bool (s_lastmax s1) (e_mass e)) eqn:E.
    - apply Qle_bool_iff in E. split.
      + split.
        * intros e0 He0'. apply in_app_or in He0' as [Hin|[<-|[]]]; [|apply Qle_refl]. destruct Hs1 as [[-> _]|Hne]; [destruct Hin|].
          destruct (IH HF Hne) as (_ & [Hmax _] & _). eapply Qle_trans; [apply Hmax; exact Hin|exact E].
        * exists e. split; [apply in_or_app; right; left; reflexivity|reflexivity].
      + exists e. split; [|reflexivity]. exists h, []. split; [reflexivity|]. split; [reflexivity|constructor].
    - assert (Hlt : (e_mass e < s_lastmax s1)%Q).
      { destruct (Qlt_le_dec (e_mass e) (s_lastmax s1)) as [|Hl]; [assumption|]. apply Qle_bool_iff in Hl. congruence. }
      destruct Hs1 as [[-> Es]|Hne].
      { exfalso. rewrite Es, Hm in Hlt. apply (Qlt_not_le _ _ Hlt). exact He0. }
      destruct (IH HF Hne) as (_ & [Hmax (ex & Hex & Hexm)] & (e0 & (a & b & Eh & Hp & Hb) & Esn) & _). split.
      + split.
        * intros e1 Hin. apply in_app_or in Hin as [Hin|[<-|[]]]; [apply Hmax; exact Hin|apply Qlt_le_weak; exact Hlt].
        * exists ex. split; [apply in_or_app; left; exact Hex|exact Hexm].
      + exists e0. split; [|exact Esn]. exists a, (b ++ [e]). split; [rewrite Eh, <- app_assoc; reflexivity|]. split; [exact Hp|].
        apply Forall_app. split; [exact Hb|]. constructor; [|constructor]. intros Heq. rewrite Heq in Hlt. apply (Qlt_irrefl _ Hlt). }
  destruct Hmass as [Hm1 Hm2]. split; [exact Hm1|]. split; [exact Hm2|].
  destruct (Z.eqb_spec (e_rank e) 0) as [Er|Er].
  - left. exists e. split; [|reflexivity]. exists h, []. split; [reflexivity|]. split; [exact Er|constructor].
  - destruct Hs1 as [[-> Es]|Hne].
    + right. split; [constructor; [exact Er|constructor]|]. rewrite Es. exact Hi.
    + destruct (IH HF Hne) as (_ & _ & _ & [(e0 & (a & b & Eh & Hp & Hb) & Esn)|[Hall Hsi]]).
      * left. exists e0. split; [|exact Esn]. exists a, (b ++ [e]). split; [rewrite Eh, <- app_assoc; reflexivity|]. split; [exact Hp|].
        apply Forall_app. split; [exact Hb|]. constructor; [exact Er|constructor].
      * right. split; [|exact Hsi]. apply Forall_app. split; [exact Hall|constructor; [exact Er|constructor]].
Qed.
Print Assumptions C26_history_fields.
(** A subhalo without track id is left alone. *)
Theorem C26_unregistered_untouched : forall (X R : Type) (snap : Z) (s : sub X R), s_track s = (-1)%Z -> update_track snap s = s.
Proof. intros X R snap s H. unfold update_track. rewrite H. reflexivity. Qed.
Print Assumptions C26_unregistered_untouched.
Example C26_witness :
  let h := [mkentry 3 2 0; mkentry 4 5 0; mkentry 5 5 2; mkentry 6 1 1] in
  Forall (fun e => (0 <= e_mass e)%Q) h /\
  (fun s => (s_lastmax s, s_snapmax s, s_snapiso s)) (after h (set_track 7 (new_sub 0) : sub nat nat)) = (5%Q, 5%Z, 4%Z).
Proof. split; [repeat constructor; discriminate|reflexivity]. Qed.
