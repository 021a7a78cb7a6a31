(** The unbinding loop. *)
From Coq Require Import List ZArith QArith Qround Bool Lia Sorting.Permutation Sorting.Sorted.
From Verif.Model Require Import ListMem Mpi Run Subhalo Unbind.
From Verif.Spec Require Import Unbinding.
From Verif.Proofs Require Import ListMemProofs MpiProofs ListExtra PartitionProofs.
Import ListNotations.
Local Open Scope nat_scope.

Lemma mapM_total {A B} (f : A -> option B) l : (forall x, In x l -> exists y, f x = Some y) -> exists l', mapM f l = Some l'.
Proof.
  induction l as [|x r IH]; intros H; [exists []; reflexivity|]. destruct (H x (or_introl eq_refl)) as [y Hy]. destruct IH as [r' Hr]; [intros; apply H; right; assumption|].
  exists (y :: r'). cbn. rewrite Hy, Hr. reflexivity.
Qed.
Lemma mapM_F2 {A B} (f : A -> option B) l l' : mapM f l = Some l' -> Forall2 (fun x y => f x = Some y) l l'.
Proof. intros H. apply Forall2_of_nth; [symmetry; eapply mapM_length; eauto|]. intros i x y Hx Hy. destruct (mapM_nth _ _ _ _ _ H Hx) as (y' & Hy1 & Hy2). congruence. Qed.
Lemma F2_picks {A} (parts parts' : list A) (idx : list nat) : Permutation idx (seq 0 (length parts)) -> Forall2 (fun i p => nth_error parts i = Some p) idx parts' -> Permutation parts' parts.
Proof.
  intros HP HF. assert (HM : map Some parts' = map (nth_error parts) idx) by (clear HP; induction HF; [reflexivity|cbn; congruence]).
  assert (HS : map (nth_error parts) (seq 0 (length parts)) = map Some parts).
  { apply nth_error_ext. intros i. destruct (nth_error parts i) eqn:Ei.
    - rewrite (map_nth_error Some i parts Ei). pose proof (nth_error_lt _ _ _ Ei). erewrite map_nth_error; [|rewrite nth_seq; destruct (Nat.ltb_spec i (length parts)); [reflexivity|lia]]. cbn. congruence.
    - apply nth_error_None in Ei. rewrite !(proj2 (nth_error_None _ _)); [reflexivity|rewrite map_length; lia|rewrite map_length, seq_length; lia]. }
  assert (Permutation (map Some parts') (map Some parts)) as HQ by (rewrite HM, <- HS; apply Permutation_map; exact HP).
  apply Permutation_map_inv in HQ as (m & E & Hm). assert (parts' = m). { clear -E. revert m E. induction parts' as [|x r IH]; intros [|y m] E; try discriminate; [reflexivity|]. injection E as -> E. f_equal. auto. } subst m. symmetry. exact Hm.
Qed.

Section U.
  Context {X R E : Type}.
  Local Notation entry := (nat * E)%type.
  Variables neg pos : E -> bool.
  Variable lt : E -> E -> bool.
  Variable sorter : sort_site -> list entry -> list entry.
  Variable shuffle : list (Z * X) -> list (Z * X).
  Variable energy : list (Z * X) * R -> nat -> list entry -> nat -> E.
  Variable inner : list (Z * X) * R -> list entry -> nat -> E.
  Variable no_energy : E.
  Variable rest_of : list (Z * X) -> nat -> R -> R.
  Variable pmass : Z * X -> Q.
  Variables (min_part : nat) (converged : nat -> nat -> bool) (max_sample : nat) (refine : bool) (snap : Z).
  Hypothesis one_sign : forall e, neg e = true -> pos e = false.
  Hypothesis sorter_ok : forall site l, Permutation (sorter site l) l /\ ascending lt snd (sorter site l).
  Hypothesis shuffle_ok : forall l, Permutation (shuffle l) l.
  Hypothesis min_ok : 1 <= min_part.
  Hypothesis converged_ok : forall n, converged n n = true.

  Local Notation evaluate := (evaluate energy).
  Local Notation cut := (cut neg pos energy).
  Local Notation rounds := (rounds neg pos energy no_energy min_part converged).
  Local Notation enough := (enough converged).
  Local Notation final_order := (final_order lt inner max_sample refine).
  Local Notation loop := (unbind_loop neg pos sorter energy inner min_part converged max_sample refine).

  Lemma evaluate_nth s k n l i : nth_error (evaluate s k n l) i = option_map (fun e => if i <? n then (fst e, energy s k l i) else e) (nth_error l i).
  Proof.
    unfold Unbind.evaluate. destruct (nth_error l i) as [e|] eqn:Ee; cbn.
    - pose proof (nth_error_lt _ _ _ Ee) as Hi. erewrite map_nth_error; [|apply combine_nth_error; [rewrite nth_seq; destruct (Nat.ltb_spec i (length l)); [reflexivity|lia]|exact Ee]]. reflexivity.
    - apply nth_error_None in Ee. apply nth_error_None. rewrite map_length, combine_length, seq_length. lia.
  Qed.
  Lemma evaluate_length s k n l : length (evaluate s k n l) = length l.
  Proof. unfold Unbind.evaluate. rewrite map_length, combine_length, seq_length. lia. Qed.
  Lemma evaluate_fst s k n l : map fst (evaluate s k n l) = map fst l.
  Proof. apply nth_error_ext. intros i. rewrite !nth_error_map, evaluate_nth. destruct (nth_error l i) as [e|]; [|reflexivity]. cbn [option_map]. destruct (i <? n); reflexivity. Qed.

  (** The partition of the evaluated entries. *)
  Lemma cut_ok s k l n : n <= length l -> exists a b, partition_energy neg pos (evaluate s k n l) n = Done (a ++ b ++ skipn n l, length a) /\ cut s k l n a b /\ length (a ++ b) = n /\ Permutation (map fst (a ++ b)) (map fst (firstn n l)).
  Proof.
    intros Hn. set (ev := evaluate s k n l). destruct (partition_ok neg pos one_sign ev n) as (l' & m & EP & HP & HT & Hm & H1 & H2); [unfold ev; rewrite evaluate_length; exact Hn|].
    assert (HL : length l' = length l) by (rewrite (Permutation_length HP); apply evaluate_length).
    assert (Hsk : skipn n l' = skipn n l). { apply nth_error_ext. intros i. rewrite !nth_skipn, HT by lia. unfold ev. rewrite evaluate_nth. destruct (Nat.ltb_spec (n + i) n); [lia|]. destruct (nth_error l (n + i)); reflexivity. }
    assert (Hske : skipn n ev = skipn n l). { apply nth_error_ext. intros i. rewrite !nth_skipn. unfold ev. rewrite evaluate_nth. destruct (Nat.ltb_spec (n + i) n); [lia|]. destruct (nth_error l (n + i)); reflexivity. }
    exists (firstn m l'), (firstn (n - m) (skipn m l')).
    assert (Hab : firstn m l' ++ firstn (n - m) (skipn m l') = firstn n l').
    { rewrite <- (firstn_skipn m (firstn n l')) at 1. rewrite firstn_firstn, Nat.min_l by lia. f_equal. rewrite skipn_firstn_comm. reflexivity. }
    assert (Hlm : length (firstn m l') = m) by (rewrite firstn_length; lia).
    assert (HPn : Permutation (firstn n l') (firstn n ev)). { apply (Permutation_app_inv_r (skipn n l)). rewrite <- Hske at 2. rewrite <- Hsk. rewrite !firstn_skipn. exact HP. }
    split; [|split; [|split]].
    - rewrite EP. f_equal. f_equal; [|lia]. rewrite app_assoc, Hab, <- Hsk. symmetry. apply firstn_skipn.
    - split; [|split].
      + exists (firstn n ev). split; [rewrite firstn_length; unfold ev; rewrite evaluate_length; lia|]. split; [|rewrite Hab; exact HPn].
        intros i e Hi He. rewrite nth_firstn. unfold ev. rewrite evaluate_nth, He. cbn [option_map]. destruct (Nat.ltb_spec i n); [reflexivity|lia].
      + apply Forall_forall. intros e He. apply in_nth_iff in He as [i Hi]. rewrite nth_firstn in Hi. destruct (Nat.ltb_spec i m); [|discriminate]. eapply H1; eauto.
      + apply Forall_forall. intros e He. apply in_nth_iff in He as [i Hi]. rewrite nth_firstn, nth_skipn in Hi. destruct (Nat.ltb_spec i (n - m)); [|discriminate]. apply (H2 (m + i) e); [lia|exact Hi].
    - rewrite Hab, firstn_length. lia.
    - rewrite Hab, HPn, <- !firstn_map. unfold ev. rewrite evaluate_fst. reflexivity.
  Qed.
  Lemma cut_perm s k l n a b a' b' : Permutation a' a -> Permutation b' b -> cut s k l n a b -> cut s k l n a' b'.
  Proof.
    intros Ha Hb ((ev & H1 & H2 & H3) & H4 & H5). split; [exists ev; split; [exact H1|split; [exact H2|rewrite Ha, Hb; exact H3]]|]. split; [apply (Permutation_Forall (Permutation_sym Ha) H4)|apply (Permutation_Forall (Permutation_sym Hb) H5)].
  Qed.
  Lemma enough_bool n nb : converged n nb = true <-> enough n nb.
  Proof. reflexivity. Qed.
  Lemma enough_all n : enough n n.
  Proof. apply converged_ok. Qed.
  Lemma refine_ok s n sorted after : n <= length sorted -> exists idx c1, refine_order sorter inner s n (sorted ++ after) = Some (c1 ++ skipn n (sorted ++ after)) /\
    Permutation idx (seq 0 n) /\ ascending lt (inner s (sorted ++ after)) idx /\ Forall2 (fun i e => nth_error sorted i = Some e) idx c1.
  Proof.
    intros Hn. unfold refine_order. set (l := sorted ++ after). destruct (sorter_ok SortCore (map (fun i => (i, inner s l i)) (seq 0 n))) as [HP HS].
    set (core := sorter SortCore (map (fun i => (i, inner s l i)) (seq 0 n))) in *.
    assert (Hfst : Permutation (map fst core) (seq 0 n)). { rewrite HP, map_map. cbn. rewrite map_id. reflexivity. }
    assert (Hcore : forall ie, In ie core -> fst ie < n /\ snd ie = inner s l (fst ie)).
    { intros ie Hi. apply (Permutation_in _ HP) in Hi. apply in_map_iff in Hi as (i & <- & Hi). apply in_seq in Hi. cbn. split; [lia|reflexivity]. }
    destruct (mapM_total (fun ie => nth_error l (fst ie)) core) as [c1 Hc].
    { intros ie Hi. apply Hcore in Hi as [Hi _]. apply nth_error_in_range. unfold l. rewrite app_length. lia. }
    rewrite Hc. cbn. exists (map fst core), c1. split; [reflexivity|]. split; [exact Hfst|]. split.
    - clear Hc HP Hfst. unfold ascending in *. induction HS as [|x r HS IH HF]; [constructor|]. cbn. constructor; [apply IH; intros; apply Hcore; right; assumption|].
      apply Forall_forall. intros i Hi. apply in_map_iff in Hi as (ie & <- & Hi). rewrite Forall_forall in HF. specialize (HF ie Hi). destruct (Hcore ie (or_intror Hi)) as [_ E1]. destruct (Hcore x (or_introl eq_refl)) as [_ E2]. congruence.
    - apply mapM_F2 in Hc. clear -Hc Hcore Hn. induction Hc as [|ie e core c1 He Hc IH]; [constructor|]. cbn. constructor.
      + destruct (Hcore ie (or_introl eq_refl)) as [Hi _]. unfold l in He. rewrite nth_error_app1 in He by lia. exact He.
      + apply IH. intros; apply Hcore; right; assumption.
  Qed.
  Definition ending_ok (s : list (Z * X) * R) (e : @ending E) : Prop :=
    match e with
    | Disrupted l' => exists k l n a b, rounds s k l n /\ cut s k l n a b /\ length a < min_part /\ l' = a ++ b ++ skipn n l
    | Converged l' nb => exists k l n a b core, rounds s k l n /\ cut s k l n a b /\ min_part <= length a /\ enough n (length a) /\ final_order s a (b ++ skipn n l) core /\
        nb = length a /\ l' = core ++ b ++ skipn n l /\ Permutation (map fst l') (seq 0 (length (fst s))) /\ Permutation core a
    end.
  Lemma loop_ok s fuel : forall k corr l last nb, rounds s k l nb -> Permutation (map fst l) (seq 0 (length (fst s))) -> 1 <= nb -> nb <= length l -> (corr = true -> nb < last) -> nb <= fuel ->
    exists e, loop fuel s k corr l last nb = Done e /\ ending_ok s e.
  Proof.
    induction fuel as [|fuel IH]; intros k corr l last nb HR HP H1 Hnb Hc Hf; [lia|]. cbn [unbind_loop].
    assert (HC : (if corr then last =? nb else nb =? 0) = false). { destruct corr; apply Nat.eqb_neq; [specialize (Hc eq_refl)|]; lia. } rewrite HC.
    destruct (cut_ok s k l nb Hnb) as (a & b & EP & Hcut & Hab & Hfst). rewrite EP. cbn [rbind]. rewrite app_length in Hab.
    destruct (Nat.ltb_spec (length a) min_part) as [Hlt|Hge].
    - eexists. split; [reflexivity|]. exists k, l, nb, a, b. auto.
    - assert (E1 : firstn (length a) (a ++ b ++ skipn nb l) = a) by (rewrite firstn_app, Nat.sub_diag, firstn_all, app_nil_r; reflexivity).
      assert (E2 : firstn (nb - length a) (skipn (length a) (a ++ b ++ skipn nb l)) = b).
      { rewrite skipn_app, Nat.sub_diag, skipn_all. cbn. replace (nb - length a) with (length b) by lia. rewrite firstn_app, Nat.sub_diag, firstn_all. cbn. apply app_nil_r. }
      assert (E3 : skipn nb (a ++ b ++ skipn nb l) = skipn nb l).
      { rewrite app_assoc, skipn_app, app_length. replace nb with (length (a ++ b)) at 1 by (rewrite app_length; lia). rewrite skipn_all. replace (nb - (length a + length b)) with 0 by lia. reflexivity. }
      rewrite E1, E2, E3. set (b' := sorter SortUnbound b). destruct (sorter_ok SortUnbound b) as [Pb _]. fold b' in Pb.
      assert (Hcut' : cut s k l nb a b') by (eapply cut_perm; [reflexivity|exact Pb|exact Hcut]).
      assert (HP' : Permutation (map fst (a ++ b' ++ skipn nb l)) (seq 0 (length (fst s)))).
      { rewrite <- HP, app_assoc, map_app. replace (map fst l) with (map fst (firstn nb l) ++ map fst (skipn nb l)) by (rewrite <- map_app, firstn_skipn; reflexivity). apply Permutation_app_tail. rewrite <- Hfst. apply Permutation_map. rewrite Pb. reflexivity. }
      match goal with |- context [converged ?u ?v] => destruct (converged u v) eqn:Eq end.
      + apply enough_bool in Eq. assert (E4 : firstn (length a) (a ++ b' ++ skipn nb l) = a) by (rewrite firstn_app, Nat.sub_diag, firstn_all, app_nil_r; reflexivity).
        assert (E5 : skipn (length a) (a ++ b' ++ skipn nb l) = b' ++ skipn nb l) by (rewrite skipn_app, Nat.sub_diag, skipn_all; reflexivity).
        rewrite E4, E5. destruct (sorter_ok SortBound a) as [Pa Sa]. set (a' := sorter SortBound a) in *. assert (La : length a' = length a) by (apply Permutation_length; exact Pa).
        assert (HP2 : Permutation (map fst (a' ++ b' ++ skipn nb l)) (seq 0 (length (fst s)))) by (rewrite <- HP'; apply Permutation_map; rewrite Pa; reflexivity).
        destruct ((0 <? max_sample) && refine && (max_sample <? length a)) eqn:Er.
        * assert (Hm : max_sample < length a) by (apply andb_true_iff in Er as [_ Er]; apply Nat.ltb_lt; exact Er).
          destruct (refine_ok s max_sample a' (b' ++ skipn nb l)) as (idx & c1 & F1 & F2 & F3 & F4); [lia|]. rewrite F1. cbn [of_opt rbind].
          eexists. split; [reflexivity|]. cbn. exists k, l, nb, a, b', (c1 ++ skipn max_sample a').
          assert (Hc1 : Permutation c1 (firstn max_sample a')).
          { apply (F2_picks _ _ idx); [rewrite firstn_length; rewrite F2; replace (Nat.min max_sample (length a')) with max_sample by lia; reflexivity|].
            assert (Forall (fun i => i < max_sample) idx) as Hi. { apply Forall_forall. intros i Hi. apply (Permutation_in _ F2) in Hi. apply in_seq in Hi. lia. }
            clear -F4 Hi. induction F4; [constructor|]. inversion Hi; subst. constructor; [|auto]. rewrite nth_firstn. destruct (Nat.ltb_spec x max_sample); [assumption|lia]. }
          assert (Hcore : Permutation (c1 ++ skipn max_sample a') a) by (rewrite Hc1, firstn_skipn; exact Pa).
          assert (El : c1 ++ skipn max_sample (a' ++ b' ++ skipn nb l) = (c1 ++ skipn max_sample a') ++ b' ++ skipn nb l) by (rewrite skipn_app; replace (max_sample - length a') with 0 by lia; cbn; rewrite <- !app_assoc; reflexivity).
          repeat split; try assumption.
          -- apply Hcut'.
          -- apply Hcut'.
          -- apply Hcut'.
          -- exists a'. split; [exact Pa|]. split; [exact Sa|]. rewrite Er. exists idx, c1. auto.
          -- rewrite El. rewrite <- HP'. apply Permutation_map. rewrite Hcore. reflexivity.
        * cbn [of_opt rbind]. eexists. split; [reflexivity|]. cbn. exists k, l, nb, a, b', a'. repeat split; try assumption; try apply Hcut'.
          exists a'. split; [exact Pa|]. split; [exact Sa|]. rewrite Er. reflexivity.
      + assert (Hne : ~ enough nb (length a)) by (intros H; apply enough_bool in H; congruence).
        assert (Hlt : length a < nb). { destruct (Nat.lt_ge_cases (length a) nb) as [|H]; [assumption|]. exfalso. apply Hne. replace (length a) with nb by lia. apply enough_all. }
        apply IH; [econstructor; eassumption|exact HP'|lia|rewrite app_length; lia| |lia]. intros _. exact Hlt.
  Qed.

  Lemma find_id_spec id (l : list (Z * X)) : In id (map fst l) -> exists i p, find_id id l = Some i /\ nth_error l i = Some p /\ fst p = id.
  Proof.
    induction l as [|q r IH]; intros H; [destruct H|]. cbn. destruct (Z.eqb_spec (fst q) id) as [Eq|Hne]; [exists 0, q; auto|].
    destruct H as [H|H]; [congruence|]. destruct (IH H) as (i & p & A & B & C). exists (S i), p. rewrite A. auto.
  Qed.
  Lemma to_front_spec id (l : list (Z * X)) : In id (map fst l) -> Permutation (to_front id l) l /\ exists p r, to_front id l = p :: r /\ fst p = id.
  Proof.
    intros H. destruct (find_id_spec id l H) as (i & p & A & B & C). unfold to_front. rewrite A, B. destruct l as [|q r]; [destruct i; discriminate|]. cbn [nth_error].
    destruct (upd_some (q :: r) i q) as [l1 H1]; [eapply nth_error_lt; eauto|]. rewrite H1. destruct l1 as [|x l1]; [apply upd_length in H1; discriminate|]. cbn [upd].
    pose proof (upd_perm _ _ _ _ _ H1 B) as P1. split; [|eauto].
    destruct i as [|i].
    - cbn in B, H1. injection B as <-. injection H1 as <- <-. reflexivity.
    - assert (x = q) as -> by (pose proof (upd_other _ _ _ 0 _ H1 ltac:(lia)) as Hx; cbn in Hx; congruence). apply (Permutation_cons_inv (a := q)). rewrite perm_swap. exact P1.
  Qed.

  Local Notation unbind := (unbind neg pos sorter shuffle energy inner no_energy rest_of pmass min_part converged max_sample refine snap).
  Local Notation found_bound := (found_bound neg pos lt energy inner no_energy min_part converged max_sample refine).
  Local Notation found_lost := (found_lost neg pos energy no_energy min_part converged snap).
  Lemma same_die (s : sub X R) : s_track (die snap s) = s_track s.
  Proof. unfold die. destruct (alive s); reflexivity. Qed.
  Lemma unbind_ok s : 2 <= min_part \/ 2 <= length (s_parts s) -> exists s', unbind s = Done s' /\ same_otherwise s s' /\ Permutation (s_parts s') (s_parts s) /\ s_nbound s' <= length (s_parts s') /\
    s_mass s' = mass_sum pmass (firstn (s_nbound s') (s_parts s')) /\ (found_bound s s' \/ found_lost s s').
  Proof.
    intros Hmin. unfold Unbind.unbind, unbind_by. destruct s as [tr nb ma ho ra de lm sm si bi dth ss sk parts ne re]. cbn [s_parts].
    assert (Hs0 : forall b : bool, exists d, (if b then die snap (mksub tr nb ma ho ra de lm sm si bi dth ss sk parts ne re) else mksub tr nb ma ho ra de lm sm si bi dth ss sk parts ne re) = mksub tr nb ma ho ra de lm sm si bi d ss sk parts ne re /\
       d = if b then (if Z.eqb dth (-1) then snap else dth) else dth).
    { intros [|]; [|exists dth; split; reflexivity]. unfold die, alive. cbn. destruct (Z.eqb dth (-1)); [exists snap|exists dth]; split; reflexivity. }
    destruct (Hs0 (length parts <? min_part)) as (d & -> & Hd). clear Hs0. cbn [s_parts]. destruct parts as [|p0 [|p1 r]].
    - destruct (Nat.ltb_spec (length (@nil (Z * X))) min_part) as [H|H]; [|cbn in H, Hmin; lia]. eexists. split; [reflexivity|]. cbn. split; [reflexivity|]. split; [reflexivity|]. split; [lia|]. split; [reflexivity|]. right.
      split; cbn; auto. intros p r Hpr. discriminate.
    - destruct (Nat.ltb_spec (length [p0]) min_part) as [H|H]; [|cbn in H, Hmin; lia]. eexists. split; [reflexivity|]. cbn. split; [reflexivity|]. split; [reflexivity|]. split; [lia|]. split; [reflexivity|]. right.
      split; cbn; auto. intros p r Hpr. injection Hpr as <- <-. eauto.
    - set (parts := p0 :: p1 :: r) in *. set (n := length parts). assert (Hn : 2 <= n) by (unfold n, parts; cbn; lia).
      set (sh := if (0 <? max_sample) && (max_sample <? n) then shuffle parts else parts).
      assert (Psh : Permutation sh parts) by (unfold sh; destruct (_ && _); [apply shuffle_ok|reflexivity]).
      assert (Hsh : max_sample = 0 \/ length sh <= max_sample -> sh = parts).
      { intros H. unfold sh in *. destruct (Nat.ltb_spec 0 max_sample), (Nat.ltb_spec max_sample n); try reflexivity. cbn in H. rewrite (Permutation_length (shuffle_ok parts)) in H. fold n in H. lia. }
      set (s0 := mksub tr nb ma ho ra de lm sm si bi d ss sk parts ne re). set (s := mksub tr nb ma ho ra de lm sm si bi dth ss sk parts ne re).
      cbv zeta. set (s1 := set_parts sh s0).
      assert (Ls : length sh = n) by ( apply Permutation_length; exact Psh).
      set (w := (sh, re)). pose proof (rounds_start neg pos energy no_energy min_part converged w) as HR0. cbn [fst w] in HR0. rewrite Ls in HR0.
      destruct (loop_ok w n 0 false _ 0 n HR0) as (e & Ee & He).
      { rewrite map_map. cbn [fst w]. rewrite map_id, Ls. apply Permutation_refl. } { lia. } { rewrite map_length, seq_length. lia. } { discriminate. } { lia. }
      fold n. change (sh, s_rest s1) with w. rewrite Ee. cbn [rbind]. destruct e as [l'|l' nb'].
      + (* disrupted *) unfold s1, s0, die, alive. cbn [s_death set_parts]. destruct (to_front_spec (fst p0) sh) as [Pf (pf & rf & Ef & Hf)].
        { apply (Permutation_in _ (Permutation_map fst (Permutation_sym Psh))). left. reflexivity. }
        assert (Hdd : (if Z.eqb d (-1) then snap else d) = if Z.eqb dth (-1) then snap else dth).
        { rewrite Hd. destruct (length parts <? min_part); [|reflexivity]. destruct (Z.eqb_spec dth (-1)) as [->|Hne]; [destruct (Z.eqb_spec snap (-1)); congruence|]. destruct (Z.eqb_spec dth (-1)); congruence. }
        exists (set_rest (rest_of (to_front (fst p0) sh) 1 re) (set_mass (mass_sum pmass (firstn 1 (to_front (fst p0) sh))) (set_parts (to_front (fst p0) sh) (set_nbound 1 (set_death (if Z.eqb d (-1) then snap else d) s1))))).
        split. { unfold s1, s0. destruct (Z.eqb d (-1)); reflexivity. }
        split; [reflexivity|]. split; [cbn; rewrite Pf; exact Psh|]. split; [cbn; rewrite (Permutation_length Pf), (Permutation_length Psh); fold n; lia|]. split; [reflexivity|]. right. split; cbn [s_nbound s_parts s_death s_sink s_snapsink set_rest set_mass set_parts set_nbound set_death s1 s0 s].
        * destruct (Nat.lt_ge_cases (length parts) min_part) as [|Hg]; [left; assumption|right]. rewrite (proj2 (Nat.ltb_ge _ _) Hg) in Hd. destruct He as (k & l & m & a & b & A & B & C & _). exists sh, k, l, m, a, b. split; [exact Psh|]. auto.
        * reflexivity.
        * intros p r0 Hpr. unfold parts in Hpr. injection Hpr as <- <-. exists pf, rf. split; [exact Ef|congruence].
        * exact Hdd.
        * auto.
      + (* converged *) destruct He as (k & l & m & a & b & core & A1 & A2 & A3 & A4 & A5 & -> & El & A7 & A8).
        destruct (mapM_total (fun e => nth_error sh (fst e)) l') as [parts' HM].
        { intros e He. apply nth_error_in_range. apply (in_map fst) in He. apply (Permutation_in _ A7) in He. apply in_seq in He. cbn [fst w] in He. rewrite (Permutation_length Psh). fold n. lia. }
        rewrite HM. assert (HF := mapM_F2 _ _ _ HM).
        assert (Pp : Permutation parts' sh).
        { apply (F2_picks _ _ (map fst l')); [rewrite A7; reflexivity|]. clear -HF. induction HF; constructor; assumption. }
        assert (Hge : min_part <= length parts). { apply Nat.le_trans with (length a); [exact A3|]. assert (H := A7). rewrite El in H. apply Permutation_length in H. rewrite map_length, !app_length, seq_length in H; cbn [fst w] in H; rewrite Ls in H. pose proof (Permutation_length A8). lia. }
        assert (Hdd : d = dth) by (rewrite Hd; destruct (Nat.ltb_spec (length parts) min_part); [lia|reflexivity]). clear Hd. subst d.
        eexists. split; [reflexivity|]. unfold trapped. cbn [s_sink set_death s1 set_parts s0].
        assert (Hsame : forall t : bool, let s3 := if t then set_sink (-1)%Z (-1)%Z (set_death (-1)%Z s1) else set_death (-1)%Z s1 in
          s_nbound (set_parts parts' (set_nbound (length a) s3)) = length a) by (intros []; reflexivity).
        destruct (Z.eqb_spec sk (-1)) as [Hsk|Hsk]; cbn [negb]; (split; [reflexivity|]); (split; [cbn; rewrite Pp; exact Psh|]).
        all: (split; [cbn; rewrite (Permutation_length Pp), (Permutation_length Psh); assert (H := A7); rewrite El in H; apply Permutation_length in H; rewrite map_length, !app_length, seq_length in H; cbn [fst w] in H; rewrite Ls in H; pose proof (Permutation_length A8); fold n; lia|]).
        all: (split; [reflexivity|]); left; split; cbn.
        all: try (exact Hge); try reflexivity.
        all: try (rewrite (proj2 (Z.eqb_eq sk (-1)) Hsk) || rewrite (proj2 (Z.eqb_neq sk (-1)) Hsk); auto; fail).
        all: exists sh, k, l, m, a, b, core; split; [exact Psh|]; split; [exact Hsh|]; cbn; change (rounds w k l m /\ cut w k l m a b /\ min_part <= length a /\ enough m (length a) /\ final_order w a (b ++ skipn m l) core /\ length a = length a /\ Forall2 (fun e p => nth_error sh (fst e) = Some p) (core ++ b ++ skipn m l) parts').
        all: rewrite <- El; auto 10.
  Qed.
End U.
