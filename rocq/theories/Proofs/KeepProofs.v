(** A build without stripping unbinds like one with stripping where every energy is negative and the sort comes after the
    real partition. *)
From Coq Require Import List ZArith QArith Bool Lia Sorting.Permutation Sorting.Sorted.
From Verif.Model Require Import ListMem Mpi Run Subhalo Nest Mask Unbind Merge Work Variants.
From Verif.Spec Require Import Unbinding.
From Verif.Proofs Require Import ListMemProofs MpiProofs ListExtra PartitionProofs UnbindProofs.
Import ListNotations.
Local Open Scope nat_scope.

Section K.
  Context {X R E : Type}.
  Local Notation entry := (nat * E)%type.
  Variables neg pos : E -> bool.
  Variable lt : E -> E -> bool.
  Variable sorter : sort_site -> list entry -> list entry.
  Hypothesis one_sign : forall e, neg e = true -> pos e = false.
  Hypothesis sorter_ok : forall site l, Permutation (sorter site l) l /\ ascending lt snd (sorter site l).
  Definition all : E -> bool := fun _ => true.
  Definition none : E -> bool := fun _ => false.

  (** The partition when every energy is negative swaps the first and the last entry. *)
  Definition swap_pos (n i : nat) : nat := if i =? 0 then n - 1 else if i =? n - 1 then 0 else i.
  Lemma back_all tmp b : forall k f fuel (l : list entry), b - f = S k -> b < length l -> f < b -> b <= fuel + f ->
    exists l', part_loop all none fuel false tmp f b l = Done (l', S b) /\ upd l b tmp = Some l'.
  Proof.
    induction k as [|k IH]; intros f fuel l Hk Hb Hf Hfu; (destruct fuel as [|fuel]; [lia|]); cbn [part_loop].
    - replace (S f =? b) with true by (symmetry; apply Nat.eqb_eq; lia). destruct (upd_some l b tmp Hb) as [l' El]. rewrite El. cbn. exists l'. split; reflexivity.
    - replace (S f =? b) with false by (symmetry; apply Nat.eqb_neq; lia). destruct (nth_error_in_range l (S f)) as [e Ee]; [lia|]. rewrite Ee. cbn [none]. unfold none at 1. apply IH; lia.
  Qed.
  Lemma fwd_step fuel tmp f b (l : list entry) : part_loop all none (S fuel) true tmp f (S b) l =
    if b =? f then rbind (of_opt (upd l f tmp)) (fun l' => Done (l', S b))
    else match nth_error l b with None => Crash | Some e => rbind (of_opt (upd l f e)) (part_loop all none fuel false tmp f b) end.
  Proof. reflexivity. Qed.
  Lemma partition_all (l : list entry) : 1 < length l -> exists l', partition_energy all none l (length l) = Done (l', length l) /\ length l' = length l /\
    forall i, nth_error l' i = nth_error l (swap_pos (length l) i).
  Proof.
    intros H. destruct (length l) as [|[|n]] eqn:EL; try lia. unfold partition_energy. destruct (nth_error_in_range l 0) as [x Hx]; [lia|]. rewrite Hx. cbn [Nat.eqb]. rewrite fwd_step. cbn [Nat.eqb].
    destruct (nth_error_in_range l (S n)) as [y Hy]; [lia|]. rewrite Hy. destruct (upd_some l 0 y) as [l1 E1]; [lia|]. rewrite E1. cbn [of_opt rbind].
    assert (L1 := upd_length _ _ _ _ E1). destruct (back_all x (S n) n 0 (S n) l1) as (l' & -> & E2); [lia..|]. assert (L2 := upd_length _ _ _ _ E2). exists l'. split; [reflexivity|]. split; [congruence|].
    intros i. unfold swap_pos. cbn [Nat.sub]. destruct (Nat.eqb_spec i 0) as [->|H0]; [|destruct (Nat.eqb_spec i (S n)) as [->|Hn]].
    - rewrite (upd_other _ _ _ _ _ E2) by lia. rewrite (upd_same _ _ _ _ E1). congruence.
    - rewrite (upd_same _ _ _ _ E2). congruence.
    - rewrite (upd_other _ _ _ _ _ E2) by lia. rewrite (upd_other _ _ _ _ _ E1) by lia. reflexivity.
  Qed.
  (** The entries as left by the real partition, from those left by the other. *)
  Definition redo (l : list entry) : list entry :=
    if length l <=? 1 then l else
    match partition_energy all none l (length l) with
    | Done r => match partition_energy neg pos (fst r) (length l) with Done r2 => fst r2 | _ => l end
    | _ => l
    end.
  Lemma redo_perm l : Permutation (redo l) l.
  Proof.
    unfold redo. destruct (Nat.leb_spec (length l) 1) as [H|H]; [reflexivity|]. 
    destruct (partition_ok all none (fun _ _ => eq_refl) l (length l) (le_n _)) as (l1 & n1 & -> & P1 & _). cbn [fst].
    destruct (partition_ok neg pos one_sign l1 (length l)) as (l2 & n2 & -> & P2 & _); [rewrite (Permutation_length P1); lia|]. cbn [fst]. rewrite P2. exact P1.
  Qed.
  Lemma redo_all l : 1 < length l -> forall r, partition_energy all none l (length l) = Done r -> forall l2 m, partition_energy neg pos l (length l) = Done (l2, m) -> redo (fst r) = l2.
  Proof.
    intros H r Er l2 m E2. destruct (partition_all l H) as (l1 & E1 & L1 & N1). rewrite E1 in Er. injection Er as <-. cbn [fst]. unfold redo. rewrite (proj2 (Nat.leb_gt _ _)) by lia.
    destruct (partition_all l1 ltac:(lia)) as (l0 & E0 & L0 & N0). rewrite E0. cbn [fst]. assert (l0 = l).
    { apply nth_error_ext. intros i. rewrite N0, N1, L1. f_equal. unfold swap_pos. destruct (Nat.eqb_spec i 0), (Nat.eqb_spec i (length l - 1)); subst; rewrite ?Nat.eqb_refl;
        repeat match goal with |- context [?a =? ?b] => destruct (Nat.eqb_spec a b) end; lia. }
    subst l0. rewrite L1, E2. reflexivity.
  Qed.

  (** The signs and the sorts with which the stripping loop does what a build does. *)
  Variable strip : bool.
  Definition neg_of : E -> bool := if strip then neg else all.
  Definition pos_of : E -> bool := if strip then pos else none.
  Definition sorter_of : sort_site -> list entry -> list entry :=
    if strip then sorter else fun site l => match site with SortBound => sorter SortBound (redo l) | _ => sorter site l end.
  Lemma sign_of : forall e, neg_of e = true -> pos_of e = false.
  Proof. unfold neg_of, pos_of. destruct strip; [exact one_sign|reflexivity]. Qed.
  Lemma sorter_of_ok : forall site l, Permutation (sorter_of site l) l /\ ascending lt snd (sorter_of site l).
  Proof.
    intros site l. unfold sorter_of. destruct strip; [apply sorter_ok|]. destruct site; try apply sorter_ok. destruct (sorter_ok SortBound (redo l)) as [A B]. split; [rewrite A; apply redo_perm|exact B].
  Qed.

  Variable shuffle : list (Z * X) -> list (Z * X).
  Variable energy : list (Z * X) * R -> nat -> list entry -> nat -> E.
  Variable inner : list (Z * X) * R -> list entry -> nat -> E.
  Variable no_energy : E.
  Variable rest_of : list (Z * X) -> nat -> R -> R.
  Variable pmass : Z * X -> Q.
  Variables (min_part : nat) (converged : nat -> nat -> bool) (max_sample : nat) (refine : bool) (snap : Z).
  Local Notation unbind_of := (unbind_of neg pos sorter shuffle energy inner no_energy rest_of pmass min_part converged max_sample refine snap).
  Local Notation unbind' := (unbind neg_of pos_of sorter_of shuffle energy inner no_energy rest_of pmass min_part converged max_sample refine snap).

  Definition same_ending (a b : run (@ending E)) : Prop :=
    match a, b with Done (Disrupted _), Done (Disrupted _) => True | _, _ => a = b end.
  Lemma same_refl a : same_ending a a.
  Proof. destruct a as [[]| |]; cbn; reflexivity || exact I. Qed.
  Lemma sorter_nil : sorter SortUnbound [] = [].
  Proof. apply Permutation_nil. symmetry. apply sorter_ok. Qed.
  Lemma keep_loop_step fuel w k corr l last nb : keep_loop neg pos sorter energy inner min_part converged max_sample refine (S fuel) w k corr l last nb =
    if (if corr then last =? nb else nb =? 0) then Crash else
    rbind (partition_energy neg pos (evaluate energy w k nb l) nb) (fun r =>
      let l1 := fst r in
      if nb <? min_part then Done (Disrupted l1) else
      let l2 := firstn nb l1 ++ sorter SortUnbound (firstn (nb - nb) (skipn nb l1)) ++ skipn nb l1 in
      let corr1 := corr || ((nb - nb <? nb) && ((max_sample =? 0) || (nb - nb <? max_sample))) in
      if converged nb nb then
        let l3 := sorter SortBound (firstn nb l2) ++ skipn nb l2 in
        rbind (of_opt (if (0 <? max_sample) && refine && (max_sample <? nb) then refine_order sorter inner w max_sample l3 else Some l3)) (fun l4 => Done (Converged l4 nb))
      else keep_loop neg pos sorter energy inner min_part converged max_sample refine fuel w (S k) corr1 l2 nb nb).
  Proof. reflexivity. Qed.
  Lemma unbind_loop_step g p so fuel w k corr l last nb : unbind_loop g p so energy inner min_part converged max_sample refine (S fuel) w k corr l last nb =
    if (if corr then last =? nb else nb =? 0) then Crash else
    rbind (partition_energy g p (evaluate energy w k nb l) nb) (fun r =>
      let (l1, nb1) := r in
      if nb1 <? min_part then Done (Disrupted l1) else
      let l2 := firstn nb1 l1 ++ so SortUnbound (firstn (nb - nb1) (skipn nb1 l1)) ++ skipn nb l1 in
      let corr1 := corr || ((nb - nb1 <? nb1) && ((max_sample =? 0) || (nb - nb1 <? max_sample))) in
      if converged nb nb1 then
        let l3 := so SortBound (firstn nb1 l2) ++ skipn nb1 l2 in
        rbind (of_opt (if (0 <? max_sample) && refine && (max_sample <? nb1) then refine_order so inner w max_sample l3 else Some l3)) (fun l4 => Done (Converged l4 nb1))
      else unbind_loop g p so energy inner min_part converged max_sample refine fuel w (S k) corr1 l2 nb nb1).
  Proof. reflexivity. Qed.
  Lemma loop_same w l f : strip = false -> 1 < length l ->
    same_ending (keep_loop neg pos sorter energy inner min_part converged max_sample refine (S (S f)) w 0 false l 0 (length l))
                (unbind_loop neg_of pos_of sorter_of energy inner min_part converged max_sample refine (S (S f)) w 0 false l 0 (length l)).
  Proof.
    intros Hs Hl. set (n := length l) in *. rewrite keep_loop_step, unbind_loop_step.
    replace (n =? 0) with false by (symmetry; apply Nat.eqb_neq; lia). set (ev := evaluate energy w 0 n l). assert (Le : length ev = n) by (unfold ev, evaluate; rewrite map_length, combine_length, seq_length; lia).
    destruct (partition_ok neg pos one_sign ev n) as (l1 & m & E1 & P1 & _); [lia|]. rewrite E1. cbn [rbind fst].
    destruct (partition_all ev) as (l2 & E2 & L2 & _); [lia|]. rewrite Le in E2, L2. unfold neg_of, pos_of. rewrite Hs, E2. cbn [rbind].
    assert (L1 : length l1 = n) by (rewrite (Permutation_length P1); exact Le).
    destruct (n <? min_part); [exact I|]. rewrite Nat.sub_diag. cbn [firstn]. unfold sorter_of. rewrite Hs, sorter_nil. cbn [app].
    rewrite (firstn_all2 l1), (firstn_all2 l2), (skipn_all2 l1), (skipn_all2 l2), !app_nil_r by lia. cbn zeta.
    destruct (converged n n) eqn:Ec.
    - rewrite (firstn_all2 l1), (firstn_all2 l2), (skipn_all2 l1), (skipn_all2 l2), !app_nil_r by lia.
      assert (Er : redo l2 = l1). { change l2 with (fst (l2, n)). eapply redo_all with (l := ev); rewrite ?Le; [lia|exact E2|exact E1]. } rewrite Er.
      match goal with |- same_ending ?a ?b => assert (a = b) as ->; [|apply same_refl] end. reflexivity.
    - assert (HC : (0 <? n) && ((max_sample =? 0) || (0 <? max_sample)) = true) by (rewrite (proj2 (Nat.ltb_lt _ _)) by lia; destruct max_sample; reflexivity).
      rewrite HC. cbn [orb]. rewrite keep_loop_step, unbind_loop_step, Nat.eqb_refl. reflexivity.
  Qed.

  (** Unbinding in either build. *)
  Lemma unbind_of_same s : unbind_of strip s = unbind' s.
  Proof.
    pose proof (loop_same) as HL. unfold Variants.unbind_of, Unbind.unbind. destruct strip eqn:Hs.
    - unfold neg_of, pos_of, sorter_of. rewrite Hs. reflexivity.
    - unfold unbind_by. set (s0 := if length (s_parts s) <? min_part then die snap s else s). destruct (s_parts s0) as [|p [|q r]] eqn:Ep; [reflexivity..|].
      set (parts := if _ && _ then shuffle _ else _). set (n := length (p :: q :: r)).
      set (ent := map (fun i => (i, no_energy)) (seq 0 n)). assert (Le : length ent = n) by (unfold ent; rewrite map_length, seq_length; reflexivity).
      specialize (HL (parts, s_rest (set_parts parts s0)) ent (length r) eq_refl). rewrite Le in HL. specialize (HL ltac:(unfold n; cbn; lia)).
      change (S (S (length r))) with n in HL. revert HL.
      destruct (keep_loop _ _ _ _ _ _ _ _ _ n _ _ _ _ _ _) as [[l1|l1 m1]| |] eqn:E1, (unbind_loop _ _ _ _ _ _ _ _ _ n _ _ _ _ _ _) as [[l2|l2 m2]| |] eqn:E2; cbn; intros HL; try discriminate HL; try reflexivity.
      injection HL as -> ->. reflexivity.
  Qed.
End K.

(** The loops over the subhalos depend on unbinding only through its results. *)
Section Ext.
  Context {X R : Type}.
  Local Notation subs_t := (list (sub X R)).
  Variables (u1 u2 : sub X R -> run (sub X R)) (tr : sub X R -> sub X R).
  Hypothesis same : forall s, u1 s = u2 s.
  Lemma run_each_ext {A B} (f g : A -> B -> run B) l : (forall x b, In x l -> f x b = g x b) -> forall b, run_each l f b = run_each l g b.
  Proof. induction l as [|x l IH]; intros H b; [reflexivity|]. cbn. rewrite (H x b (or_introl eq_refl)). destruct (g x b); cbn; try reflexivity. apply IH. intros; apply H; right; assumption. Qed.
  Lemma rbind_ext {A B} (f g : A -> run B) r : (forall a, f a = g a) -> rbind r f = rbind r g.
  Proof. intros H. destruct r; cbn; auto. Qed.
  Lemma recursive_ext fuel : forall p l, recursive_with u1 fuel p l = recursive_with u2 fuel p l.
  Proof.
    induction fuel as [|f IH]; intros p l; [reflexivity|]. cbn [recursive_with]. destruct (zget l p) as [s|]; [|reflexivity]. cbn zeta.
    rewrite (run_each_ext _ (fun c l => rbind (recursive_with u2 f c l) (fun l1 => match zget l1 c with None => Crash | Some sc => if length (s_parts sc) <? s_nbound sc then Crash else of_opt (zmodify l1 p (fun q => set_parts (s_parts q ++ skipn (s_nbound sc) (s_parts sc)) q)) end)) (s_nest s)); [|intros; rewrite IH; reflexivity].
    apply rbind_ext. intros a. destruct (zget a p); [|reflexivity]. rewrite same. reflexivity.
  Qed.
  Lemma over_halos_ext (f g : Z -> subs_t -> run subs_t) order groups heads l : (forall c a, f c a = g c a) -> over_halos f order groups heads l = over_halos g order groups heads l.
  Proof.
    intros H. unfold over_halos. apply run_each_ext. intros h a _. destruct (nth_error groups h) as [[|c r]|]; destruct (nth_error heads h) as [hs|]; try reflexivity.
    unfold halo_work. destruct (glue_one _ _ _) as [[a1 n]|]; [|reflexivity]. rewrite H. reflexivity.
  Qed.
  Lemma refine_ext fuel o1 o2 table heads l : refine_with u1 tr fuel o1 o2 table heads l = refine_with u2 tr fuel o1 o2 table heads l.
  Proof.
    unfold refine_with. rewrite (over_halos_ext (recursive_with u1 fuel) (recursive_with u2 fuel)); [|intros; apply recursive_ext]. apply rbind_ext. intros a.
    rewrite (run_each_ext (unbind_at_with u1) (unbind_at_with u2) o2); [reflexivity|]. intros i b _. unfold unbind_at_with. destruct (nth_error b i); [|reflexivity]. rewrite same. reflexivity.
  Qed.
  Lemma unbind_merged_ext order m (l : subs_t) : unbind_merged u1 tr order m l = unbind_merged u2 tr order m l.
  Proof.
    unfold unbind_merged. erewrite run_each_ext; [reflexivity|]. intros i a _. cbn beta. destruct (nth_error m i) as [[|]|]; destruct (nth_error a i); try reflexivity. rewrite same. reflexivity.
  Qed.
  Lemma merge_ext near pmass snap mt fuel o1 o2 o3 o4 table heads l : merge_subhalos near pmass snap u1 tr mt fuel o1 o2 o3 o4 table heads l = merge_subhalos near pmass snap u2 tr mt fuel o1 o2 o3 o4 table heads l.
  Proof.
    unfold merge_subhalos. destruct (glue _ _ _) as [[g sz]|]; [|reflexivity]. apply rbind_ext. intros dm. destruct mt; [|reflexivity].
    rewrite (rbind_ext (unbind_merged u1 tr o4 (snd dm)) (unbind_merged u2 tr o4 (snd dm))); [reflexivity|]. intros; apply unbind_merged_ext.
  Qed.
  Lemma work_ext pmass snap near mt fuel oh oh2 os o1 o2 o3 o4 table heads l :
    work_with u1 tr pmass snap near mt fuel oh oh2 os o1 o2 o3 o4 table heads l = work_with u2 tr pmass snap near mt fuel oh oh2 os o1 o2 o3 o4 table heads l.
  Proof. unfold work_with. apply rbind_ext. intros a. rewrite refine_ext. apply rbind_ext. intros b. apply merge_ext. Qed.
  Lemma work_inclusive_ext near pmass snap mt fuel os o1 o2 o3 o4 table heads l :
    work_inclusive u1 tr near pmass snap mt fuel os o1 o2 o3 o4 table heads l = work_inclusive u2 tr near pmass snap mt fuel os o1 o2 o3 o4 table heads l.
  Proof.
    unfold work_inclusive. assert (ER : refine_inclusive u1 tr os l = refine_inclusive u2 tr os l).
    { unfold refine_inclusive. apply run_each_ext. intros i b _. destruct (nth_error b i); [|reflexivity]. rewrite same. reflexivity. }
    rewrite ER. apply rbind_ext. intros b. unfold merge_inclusive. destruct (glue _ _ _) as [[g sz]|]; [|reflexivity]. apply rbind_ext. intros dm. destruct mt; [|reflexivity].
    rewrite (rbind_ext (unbind_merged u1 tr o4 (snd dm)) (unbind_merged u2 tr o4 (snd dm))); [reflexivity|]. intros; apply unbind_merged_ext.
  Qed.
End Ext.
