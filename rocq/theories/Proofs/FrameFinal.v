(** The loop with computed energies is an instance of the loop with open energies; the frame at the end. *)
From Coq Require Import List ZArith QArith Bool Lia Lqa Sorting.Permutation.
From Verif.Model Require Import ListMem Mpi Run Mymath Tree Unbind Frames.
From Verif.Spec Require Import Basic Octree Chains Frames.
From Verif.Proofs Require Import ListMemProofs ListExtra MymathProofs MymathProofs2 MpiProofs TreeInsert TreeResults PartitionProofs UnbindProofs LinkPara FrameProofs.
Import ListNotations.
Local Open Scope nat_scope.

Section F.
  Local Notation entry := (nat * Q)%type.
  Variable body : nat -> particle.
  Variables (periodic : bool) (L : Q).
  Variables (hubble unit soft : Q) (phi : vec -> vec -> Q).
  Variable sorter : sort_site -> list entry -> list entry.
  Variables (min_part : nat) (converged : nat -> nat -> bool) (max_sample : nat) (refine : bool).
  Local Notation energies := (energies body periodic L hubble unit soft phi max_sample).
  Local Notation turn := (turn body periodic L hubble unit soft phi sorter min_part converged max_sample refine).
  Local Notation frames_loop := (frames_loop body periodic L hubble unit soft phi sorter min_part converged max_sample refine).
  Section Sim.
  Context {X R : Type}.
  Local Notation world := (list (Z * X) * R)%type.
  Local Notation loop := (fun en inn => @unbind_loop X R Q Qneg Qpos sorter en inn min_part converged max_sample refine).

  Lemma evaluate_ext (e1 e2 : world -> nat -> list entry -> nat -> Q) w k nb l : (forall i, e1 w k l i = e2 w k l i) -> evaluate e1 w k nb l = evaluate e2 w k nb l.
  Proof. intros H. unfold evaluate. apply map_ext. intros [i x]. cbn [fst snd]. rewrite H. reflexivity. Qed.
  Lemma loop_ext (e1 e2 : world -> nat -> list entry -> nat -> Q) inn w fuel : forall k corr l last nb, (forall k' l' i, k <= k' -> e1 w k' l' i = e2 w k' l' i) -> loop e1 inn fuel w k corr l last nb = loop e2 inn fuel w k corr l last nb.
  Proof.
    induction fuel as [|fuel IH]; intros k corr l last nb H; [reflexivity|]. cbn [unbind_loop]. rewrite (evaluate_ext e1 e2) by (intros i; apply H; lia). destruct (if corr then _ else _); [reflexivity|].
    destruct (partition_energy _ _ _ _) as [[l1 nb1]| |]; cbn [rbind]; [|reflexivity..]. destruct (nb1 <? min_part); [reflexivity|]. destruct (converged _ _); [reflexivity|]. apply IH. intros k' l' i Hk. apply H. lia.
  Qed.
  Lemma evaluate_at (e : world -> nat -> list entry -> nat -> Q) w k nb l i : nth_error (evaluate e w k nb l) i = option_map (fun x => if i <? nb then (fst x, e w k l i) else x) (nth_error l i).
  Proof. exact (on_first_nth nb (fun i _ => e w k l i) l i). Qed.
  Lemma energies_evaluate st (w : world) k : energies st = evaluate (fun _ _ _ i => snd (nth i (energies st) (0, 0%Q))) w k (u_nb st) (u_list st).
  Proof.
    apply nth_error_ext. intros i. rewrite evaluate_at. set (es := energies st). assert (Hi : nth_error es i = option_map (fun e => if i <? u_nb st then (fst e, snd (nth i es (0, 0%Q))) else e) (nth_error (u_list st) i)); [|exact Hi].
    assert (E : forall e0 : nat -> entry -> Q, es = on_first (u_nb st) e0 (u_list st) -> nth_error es i = option_map (fun e => if i <? u_nb st then (fst e, snd (nth i es (0, 0%Q))) else e) (nth_error (u_list st) i)).
    { intros e0 E0. assert (E1 := on_first_nth (u_nb st) e0 (u_list st) i). rewrite <- E0 in E1. destruct (nth_error (u_list st) i) as [x|] eqn:Ex; cbn [option_map] in E1 |- *; [|exact E1]. destruct (i <? u_nb st); [|exact E1]. rewrite (nth_error_nth es i _ E1). exact E1. }
    destruct (u_corr st) eqn:Ec; eapply E; unfold es, Frames.energies, correct, evaluate_all; rewrite Ec; reflexivity.
  Qed.
  Definition first_then (v : nat -> Q) k (en' : world -> nat -> list entry -> nat -> Q) : world -> nat -> list entry -> nat -> Q := fun w k' l i => if k' =? k then v i else en' w k' l i.
  Lemma sim (w : world) fuel : forall st k, exists en inn, loop en inn fuel w k (u_corr st) (u_list st) (u_last st) (u_nb st) = rbind (frames_loop fuel st) (fun r => Done (fst r)).
  Proof.
    induction fuel as [|fuel IH]; intros st k; [exists (fun _ _ _ _ => 0%Q), (fun _ _ _ => 0%Q); reflexivity|].
    set (v := fun i => snd (nth i (energies st) (0, 0%Q))).
    assert (EV : forall en', evaluate (first_then v k en') w k (u_nb st) (u_list st) = energies st).
    { intros en'. rewrite (evaluate_ext _ (fun _ _ _ i => v i)) by (intros i; unfold first_then; rewrite Nat.eqb_refl; reflexivity). symmetry. apply energies_evaluate. }
    destruct (if u_corr st then u_last st =? u_nb st else u_nb st =? 0) eqn:Ec.
    { exists (fun _ _ _ _ => 0%Q), (fun _ _ _ => 0%Q). cbn [unbind_loop Frames.frames_loop]. unfold Frames.turn. rewrite Ec. reflexivity. }
    destruct (partition_energy Qneg Qpos (energies st) (u_nb st)) as [[l1 nb1]| |] eqn:EP.
    2, 3: exists (first_then v k (fun _ _ _ _ => 0%Q)), (fun _ _ _ => 0%Q); cbn [unbind_loop Frames.frames_loop]; unfold Frames.turn; rewrite Ec, EV, EP; reflexivity.
    destruct (nb1 <? min_part) eqn:Em.
    { exists (first_then v k (fun _ _ _ _ => 0%Q)), (fun _ _ _ => 0%Q); cbn [unbind_loop Frames.frames_loop]; unfold Frames.turn; rewrite Ec, EV, EP; cbn [rbind]; rewrite Em; reflexivity. }
    destruct (converged (u_nb st) nb1) eqn:Eq.
    - set (l2 := firstn nb1 l1 ++ sorter SortUnbound (firstn (u_nb st - nb1) (skipn nb1 l1)) ++ skipn (u_nb st) l1).
      exists (first_then v k (fun _ _ _ _ => 0%Q)), (fun _ l i => match nth_error l i with
                                                              | Some e => let p := body (fst e) in binding body periodic L hubble unit soft phi 1 (map fst (firstn max_sample l)) (p_m p) (average_frame body periodic L (map fst (firstn nb1 l2)) (u_ref st)) p
                                                              | None => 0%Q end).
      cbn [unbind_loop Frames.frames_loop]. unfold Frames.turn. rewrite Ec, EV, EP. cbn [rbind]. rewrite Em, Eq. fold l2.
      unfold refine_order. destruct (if (0 <? max_sample) && refine && (max_sample <? nb1) then _ else _); reflexivity.
    - destruct (IH {| u_corr := u_corr st || small_change max_sample (u_nb st) nb1; u_ref := average_frame body periodic L (map fst (firstn nb1 (firstn nb1 l1 ++ sorter SortUnbound (firstn (u_nb st - nb1) (skipn nb1 l1)) ++ skipn (u_nb st) l1))) (u_ref st); u_old := if small_change max_sample (u_nb st) nb1 then u_ref st else u_old st;
        u_list := firstn nb1 l1 ++ sorter SortUnbound (firstn (u_nb st - nb1) (skipn nb1 l1)) ++ skipn (u_nb st) l1; u_last := u_nb st; u_nb := nb1 |} (S k)) as (en' & inn' & HI).
      exists (first_then v k en'), inn'. cbn [unbind_loop Frames.frames_loop]. unfold Frames.turn. rewrite Ec, EV, EP. cbn [rbind]. rewrite Em, Eq. cbn [rbind]. rewrite <- HI. cbn [u_corr u_list u_last u_nb].
      apply loop_ext. intros k' l' i Hk. unfold first_then. destruct (Nat.eqb_spec k' k); [lia|reflexivity].
  Qed.
  End Sim.

  (** *** The frame at the end. *)
  Variable n : nat.
  Hypothesis sorter_ok : forall site l, Permutation (sorter site l) l.
  Hypothesis mass_ok : forall i, (i < n)%nat -> (0 < p_m (body i))%Q.
  Hypothesis box_ok : periodic = true -> (0 < L)%Q.
  Hypothesis body_ok : forall i, (i < n)%nat -> periodic = true -> in_domain L (p_x (body i)).
  Hypothesis min_ok : 1 <= min_part.
  Local Notation m := (fun i => p_m (body i)).
  Lemma mean_velocity ids before : ids <> [] -> (forall i, In i ids -> i < n) -> mean m (fun i => p_v (body i)) ids (average_velocity body ids before).
  Proof.
    intros Hne Hid. destruct ids as [|o [|o' r]]; [congruence| |].
    - intros j. unfold average_velocity, qsum. cbn [fold_right]. ring.
    - apply weighted_mean. apply qsum_pos; [discriminate|]. intros i Hi. apply mass_ok, Hid, Hi.
  Qed.
  Lemma mean_position ids before : ids <> [] -> (forall i, In i ids -> i < n) -> centre periodic L m (fun i => p_x (body i)) ids (average_position body periodic L ids before).
  Proof.
    intros Hne Hid. destruct ids as [|o [|o' r]]; [congruence| |].
    - exists o. split; [left; reflexivity|]. intros j. exists (fun i => coord j (p_x (body i))). split.
      + intros i [<-|[]]. destruct (Bool.bool_dec periodic true) as [Hp|Hp]; [|destruct periodic; [congruence|reflexivity]]. pose proof (box_ok Hp). rewrite Hp. split; [exists 0%Z; change (inject_Z 0) with 0%Q; ring|lra].
      + unfold average_position, qsum. cbn [fold_right]. ring.
    - set (ids := o :: o' :: r) in *. assert (HM : (0 < qsum m ids)%Q) by (apply qsum_pos; [discriminate|intros i Hi; apply mass_ok, Hid, Hi]).
      exists o. split; [left; reflexivity|]. intros j. unfold average_position. fold ids. cbv match delta [ids]. fold ids. destruct (Bool.bool_dec periodic true) as [Hp|Hp].
      + rewrite Hp. exists (fun i => coord j (apart true L (p_x (body i)) (p_x (body o))) + coord j (p_x (body o)))%Q. split.
        * intros i Hi. rewrite apart_coord. pose proof (box_ok Hp) as HL. pose proof (body_ok i (Hid i Hi) Hp j) as Bi. pose proof (body_ok o (Hid o (or_introl eq_refl)) Hp j) as Bo.
          destruct (nearest_spec L (coord j (p_x (body i)) - coord j (p_x (body o))) HL) as [H1 [k H2]]; [lra|]. split; [exists k; rewrite H2; ring|]. assert (E2 : (L / 2 == L * (1 # 2))%Q) by (unfold Qdiv; change (/ 2)%Q with (1 # 2)%Q; reflexivity). rewrite E2 in H1. lra.
        * rewrite coord_vmap2. rewrite (qsum_ext (fun i => p_m (body i) * (coord j (apart true L (p_x (body i)) (p_x (body o))) + coord j (p_x (body o))))%Q (fun i => p_m (body i) * coord j (apart true L (p_x (body i)) (p_x (body o))) + p_m (body i) * coord j (p_x (body o)))%Q) by (intros; ring).
          assert (HS : forall a b : nat -> Q, (qsum (fun i => a i + b i) ids == qsum a ids + qsum b ids)%Q). { intros a b. unfold qsum. generalize ids. intros l. induction l as [|i l IH]; cbn [fold_right]; [ring|]. rewrite IH. ring. }
          rewrite HS, <- (weighted_mean body (fun i => apart true L (p_x (body i)) (p_x (body o))) ids HM j).
          assert (HC : forall c : Q, (qsum (fun i => p_m (body i) * c) ids == qsum m ids * c)%Q). { intros c. unfold qsum. generalize ids. intros l. induction l as [|i l IH]; cbn [fold_right]; [ring|]. rewrite IH. ring. }
          rewrite HC. ring.
      + exists (fun i => coord j (p_x (body i))). assert (Hf : periodic = false) by (destruct periodic; congruence). rewrite Hf. split; [intros; reflexivity|]. apply (weighted_mean body (fun i => p_x (body i)) ids HM j).
  Qed.
  Lemma centre_perm g a b x : Permutation a b -> centre periodic L m g a x -> centre periodic L m g b x.
  Proof.
    intros HP (o & Ho & H). exists o. split; [eapply Permutation_in; eauto|]. intros j. destruct (H j) as (u & H1 & H2). exists u. split; [intros i Hi; apply H1; eapply Permutation_in; [symmetry; exact HP|exact Hi]|]. rewrite <- !(qsum_perm _ _ _ HP). exact H2.
  Qed.
  Lemma mean_perm g a b x : Permutation a b -> mean m g a x -> mean m g b x.
  Proof. intros HP H j. rewrite <- !(qsum_perm _ _ _ HP). apply H. Qed.
  Definition weak (st : ustate) : Prop := Permutation (map fst (u_list st)) (seq 0 n) /\ u_nb st <= n.
  Definition good_end (e : @ending Q * frame) : Prop :=
    match fst e with
    | Disrupted _ => True
    | Converged l nb => Permutation (map fst l) (seq 0 n) /\ min_part <= nb <= n /\ mean m (fun i => p_v (body i)) (map fst (firstn nb l)) (snd (snd e)) /\ centre periodic L m (fun i => p_x (body i)) (map fst (firstn nb l)) (fst (snd e))
    end.
  Lemma refine_perm (inn : list (Z * Datatypes.unit) * Datatypes.unit -> list entry -> nat -> Q) w k l l' : k <= length l -> refine_order sorter inn w k l = Some l' -> exists c, l' = c ++ skipn k l /\ Permutation c (firstn k l).
  Proof.
    intros Hk HR. unfold refine_order in HR. set (core := sorter SortCore (map (fun i => (i, inn w l i)) (seq 0 k))) in *. destruct (mapM (fun ie => nth_error l (fst ie)) core) as [c|] eqn:Ec; [|discriminate]. cbn [option_map] in HR. injection HR as <-. exists c. split; [reflexivity|].
    apply mapM_F2 in Ec. apply (F2_picks (firstn k l) c (map fst core)).
    - rewrite firstn_length, Nat.min_l by exact Hk. unfold core. rewrite (Permutation_map fst (sorter_ok _ _)), map_map. cbn [fst]. rewrite map_id. reflexivity.
    - assert (Hc : forall ie, In ie core -> fst ie < k). { intros ie Hi. apply (Permutation_in _ (sorter_ok _ _)) in Hi. apply in_map_iff in Hi as (i & <- & Hi). apply in_seq in Hi. cbn. lia. }
      clear -Ec Hc. induction Ec as [|ie e core c He Hr IH]; [constructor|]. cbn [map]. constructor; [rewrite nth_firstn; specialize (Hc ie (or_introl eq_refl)); destruct (Nat.ltb_spec (fst ie) k); [exact He|lia]|]. apply IH. intros; apply Hc; right; assumption.
  Qed.
  Lemma turn_weak st : weak st -> match turn st with Done (inl st') => weak st' | Done (inr e) => good_end e | _ => True end.
  Proof.
    intros (HP & Hnb). unfold Frames.turn. destruct (if u_corr st then _ else _); [exact I|]. set (en := energies st).
    assert (Hfst : map fst en = map fst (u_list st)) by apply energies_fst.
    assert (HLe : length en = n) by (rewrite <- (map_length fst), Hfst; apply Permutation_length in HP; rewrite HP, seq_length; reflexivity).
    assert (Hone : forall e, Qneg e = true -> Qpos e = false). { intros e He. unfold Qneg, Qpos in *. apply Qgtb_spec in He. apply Qgtb_false. lra. }
    destruct (partition_ok Qneg Qpos Hone en (u_nb st)) as (l1 & nb1 & EP & HP1 & HT1 & Hm & _); [lia|]. rewrite EP. cbn [rbind]. destruct (Nat.ltb_spec nb1 min_part); [exact I|].
    assert (HL1 : length l1 = n) by (rewrite (Permutation_length HP1); exact HLe).
    set (l2 := firstn nb1 l1 ++ sorter SortUnbound (firstn (u_nb st - nb1) (skipn nb1 l1)) ++ skipn (u_nb st) l1).
    assert (H2 : Permutation l2 l1). { unfold l2. rewrite sorter_ok. transitivity (firstn nb1 l1 ++ skipn nb1 l1); [|rewrite firstn_skipn; reflexivity]. apply Permutation_app_head. rewrite <- (firstn_skipn (u_nb st - nb1) (skipn nb1 l1)) at 2. rewrite skipn_skipn. replace (nb1 + (u_nb st - nb1)) with (u_nb st) by lia. reflexivity. }
    assert (Hids : Permutation (map fst l2) (seq 0 n)) by (rewrite H2, HP1, Hfst; exact HP).
    assert (HL2 : length l2 = n) by (rewrite (Permutation_length H2); exact HL1).
    destruct (converged _ _); [|split; [exact Hids|cbn [u_nb]; lia]].
    set (l3 := sorter SortBound (firstn nb1 l2) ++ skipn nb1 l2). assert (Hls : length (sorter SortBound (firstn nb1 l2)) = nb1) by (rewrite (Permutation_length (sorter_ok _ _)), firstn_length; lia).
    assert (H3 : Permutation (firstn nb1 l3) (firstn nb1 l2) /\ skipn nb1 l3 = skipn nb1 l2). { unfold l3. rewrite firstn_app, skipn_app, Hls, Nat.sub_diag, (firstn_all2 (sorter SortBound (firstn nb1 l2))), (skipn_all2 (sorter SortBound (firstn nb1 l2))) by lia. cbn [firstn skipn app]. rewrite app_nil_r. split; [apply sorter_ok|reflexivity]. }
    assert (G : forall l4, Permutation (firstn nb1 l4) (firstn nb1 l3) -> skipn nb1 l4 = skipn nb1 l3 -> good_end (Converged l4 nb1, average_frame body periodic L (map fst (firstn nb1 l2)) (u_ref st))).
    { intros l4 H4 H4'. unfold good_end. cbn [fst snd]. assert (HP4 : Permutation (map fst l4) (seq 0 n)). { rewrite <- Hids. apply Permutation_map. rewrite <- (firstn_skipn nb1 l4), <- (firstn_skipn nb1 l2), H4', H4, (proj1 H3), (proj2 H3). reflexivity. }
      split; [exact HP4|]. split; [lia|]. assert (HPi : Permutation (map fst (firstn nb1 l2)) (map fst (firstn nb1 l4))) by (apply Permutation_map; rewrite H4; symmetry; apply H3).
      assert (Hne : map fst (firstn nb1 l2) <> []) by (intros E; apply (f_equal (@length nat)) in E; rewrite map_length, firstn_length in E; cbn in E; lia).
      assert (Hin : forall i, In i (map fst (firstn nb1 l2)) -> i < n). { intros i Hi. rewrite <- firstn_map in Hi. apply firstn_incl in Hi. apply (Permutation_in _ Hids) in Hi. apply in_seq in Hi. lia. }
      split; [eapply mean_perm; [exact HPi|apply mean_velocity; assumption]|eapply centre_perm; [exact HPi|apply mean_position; assumption]]. }
    destruct ((0 <? max_sample) && refine && (max_sample <? nb1)) eqn:Er.
    - match goal with |- match rbind (of_opt ?t) _ with _ => _ end => destruct t as [l4|] eqn:Et; cbn [of_opt rbind]; [|exact I] end.
      apply andb_true_iff in Er as [_ Er]. apply Nat.ltb_lt in Er. apply refine_perm in Et as (c & -> & Hc); [|unfold l3; rewrite app_length, Hls, skipn_length; lia].
      assert (HLc : length c = max_sample) by (rewrite (Permutation_length Hc), firstn_length; unfold l3; rewrite app_length, Hls, skipn_length; lia).
      apply G.
      + rewrite firstn_app, firstn_all2 by lia. rewrite HLc. rewrite <- (firstn_skipn max_sample (firstn nb1 l3)) at 1. rewrite firstn_firstn, Nat.min_l by lia. rewrite Hc. rewrite skipn_firstn_comm. reflexivity.
      + rewrite skipn_app, skipn_all2 by lia. rewrite HLc. cbn [app]. rewrite skipn_skipn. f_equal. lia.
    - cbn [of_opt rbind]. apply G; reflexivity.
  Qed.
  Lemma frames_good fuel : forall st e, weak st -> frames_loop fuel st = Done e -> good_end e.
  Proof.
    induction fuel as [|fuel IH]; intros st e HW HF; [discriminate|]. cbn [Frames.frames_loop] in HF. pose proof (turn_weak st HW) as HT. destruct (turn st) as [[st'|e']| |]; cbn [rbind] in HF; [|congruence|discriminate..]. eapply IH; eauto.
  Qed.
End F.
