(** Proofs about the linked-list grid: cells and building in parallel. *)
From Coq Require Import List ZArith QArith Qround Qfield Bool Lia Lqa Sorting.Permutation.
From Verif.Model Require Import ListMem Run Mymath Tree LinkedList.
From Verif.Spec Require Import Basic Octree Chains.
From Verif.Proofs Require Import ListMemProofs ListExtra MymathProofs MymathProofs2 TreeInsert LinkProofs.
Import ListNotations.
Local Open Scope Z_scope.

(** *** The cell of a coordinate. *)
Lemma floor_iff x s g : (0 < s)%Q -> (Qfloor (x / s) = g <-> (inject_Z g * s <= x /\ x < inject_Z (g + 1) * s)%Q).
Proof.
  intros Hs. split.
  - intros <-. pose proof (Qfloor_le (x / s)) as H1. pose proof (Qlt_floor (x / s)) as H2. split.
    + rewrite <- (Qmult_div_r x s) at 2 by lra. rewrite (Qmult_comm s). apply Qmult_le_compat_r; lra.
    + rewrite <- (Qmult_div_r x s) at 1 by lra. rewrite (Qmult_comm s). apply Qmult_lt_compat_r; [exact Hs|exact H2].
  - intros [H1 H2]. assert (A1 : (inject_Z g <= x / s)%Q) by (apply Qle_shift_div_l; [exact Hs|exact H1]). assert (A2 : (x / s < inject_Z (g + 1))%Q) by (apply Qlt_shift_div_r; [exact Hs|exact H2]).
    pose proof (Qfloor_le (x / s)) as B1. pose proof (Qlt_floor (x / s)) as B2.
    assert (C1 : (inject_Z g < inject_Z (Qfloor (x / s) + 1))%Q) by (eapply Qle_lt_trans; [exact A1|exact B2]). assert (C2 : (inject_Z (Qfloor (x / s)) < inject_Z (g + 1))%Q) by (eapply Qle_lt_trans; [exact B1|exact A2]).
    rewrite <- Zlt_Qlt in C1, C2. lia.
Qed.
Lemma floor_shift x s k D L : (0 < s)%Q -> (s * inject_Z D == L)%Q -> Qfloor ((x + inject_Z k * L) / s) = Qfloor (x / s) + k * D.
Proof.
  intros Hs HL. apply floor_iff; [exact Hs|]. destruct (proj1 (floor_iff x s (Qfloor (x / s)) Hs) eq_refl) as [H1 H2]. revert H1 H2. set (g := Qfloor (x / s)). intros H1 H2.
  replace (g + k * D + 1) with (g + 1 + k * D) by lia. rewrite !inject_Z_plus, inject_Z_mult. rewrite !inject_Z_plus in H2. assert ((inject_Z k * inject_Z D * s == inject_Z k * L)%Q) by (rewrite <- HL; ring).
  split; [rewrite Qmult_plus_distr_l|rewrite Qmult_plus_distr_l]; lra.
Qed.
Lemma cell1_in ll j x g : good ll -> 0 <= g < ll_ndiv ll ->
  (cell1 ll j x = g <-> in_cell (ll_periodic ll) (ll_box ll) (coord j (ll_min ll)) (coord j (ll_step ll)) (ll_ndiv ll) g x).
Proof.
  intros (Hd & Hs & Hp) Hg. specialize (Hs j). unfold cell1, in_cell, fix_grid. set (lo := coord j (ll_min ll)). set (s := coord j (ll_step ll)) in *. set (D := ll_ndiv ll) in *.
  destruct (ll_periodic ll) eqn:Ep.
  - destruct (Hp eq_refl) as [HL HsL]. specialize (HsL j). fold s in HsL. rewrite shift_mod by exact Hd. fold D.
    assert (Hk : forall k, Qfloor ((x + inject_Z k * ll_box ll - lo) / s) = Qfloor ((x - lo) / s) + k * D).
    { intros k. rewrite <- (floor_shift (x - lo) s k D (ll_box ll) Hs HsL). apply Qfloor_comp. apply Qdiv_comp; [ring|reflexivity]. }
    split.
    + intros E. split; [exact Hg|]. exists (- (Qfloor ((x - lo) / s) / D)). apply floor_iff; [exact Hs|]. rewrite Hk. rewrite <- E. rewrite (Z.mod_eq (Qfloor ((x - lo) / s)) D) by lia. lia.
    + intros (_ & k & Hx). apply floor_iff in Hx; [|exact Hs]. rewrite Hk in Hx. symmetry. apply (Z.mod_unique _ _ (- k)); [left; exact Hg|lia].
  - unfold round_grid. fold D. destruct (proj1 (floor_iff (x - lo) s (Qfloor ((x - lo) / s)) Hs) eq_refl) as [F1 F2]. set (f := Qfloor ((x - lo) / s)) in *. unfold in_clamped_cell.
    assert (HZ : forall a b, a <= b -> (inject_Z a * s <= inject_Z b * s)%Q). { intros a b Hab. apply Qmult_le_compat_r; [rewrite <- Zle_Qle; exact Hab|lra]. }
    destruct (Z.ltb_spec f 0) as [Hf|Hf]; [|destruct (Z.leb_spec D f) as [Hf'|Hf']].
    + assert (Hx : (x - lo < 0)%Q). { eapply Qlt_le_trans; [exact F2|]. pose proof (HZ (f + 1) 0 ltac:(lia)) as H. rewrite Qmult_0_l in H. exact H. }
      split; [intros <-; split; [lia|]; right; left; split; [reflexivity|exact Hx]|]. intros (_ & [[H1 H2]|[[H1 H2]|[H1 H2]]]); [|lia|].
      * exfalso. pose proof (HZ 0 g ltac:(lia)) as H. rewrite Qmult_0_l in H. lra.
      * exfalso. pose proof (HZ 0 D ltac:(lia)) as H. rewrite Qmult_0_l in H. lra.
    + pose proof (HZ D f Hf'). split; [intros <-; split; [lia|]; right; right; split; [reflexivity|lra]|]. intros (_ & [[H1 H2]|[[H1 H2]|[H1 H2]]]); [|exfalso|lia].
      * assert (~ g + 1 <= D - 1 + 0 \/ True) by auto. pose proof (HZ (g + 1) D ltac:(lia)). exfalso. lra.
      * pose proof (HZ 0 D ltac:(lia)) as H3. rewrite Qmult_0_l in H3. lra.
    + split; [intros <-; split; [lia|]; left; split; assumption|]. intros (_ & [[H1 H2]|[[H1 H2]|[H1 H2]]]).
      * destruct (Z.lt_trichotomy f g) as [Hlt|[Heq|Hgt]]; [exfalso|exact Heq|exfalso].
        -- pose proof (HZ (f + 1) g ltac:(lia)). lra.
        -- pose proof (HZ (g + 1) f ltac:(lia)). lra.
      * exfalso. pose proof (HZ 0 f ltac:(lia)) as H. rewrite Qmult_0_l in H. lra.
      * exfalso. pose proof (HZ (f + 1) D ltac:(lia)). lra.
Qed.
Lemma cell_of_in ll x i j k : good ll -> 0 <= i < ll_ndiv ll -> 0 <= j < ll_ndiv ll -> 0 <= k < ll_ndiv ll ->
  let inc := fun a g => in_cell (ll_periodic ll) (ll_box ll) (coord a (ll_min ll)) (coord a (ll_step ll)) (ll_ndiv ll) g (coord a x) in
  (cell_of ll x = sub2ind ll (i, j, k) <-> inc 0%nat i /\ inc 1%nat j /\ inc 2%nat k).
Proof.
  intros Hg Hi Hj Hk. cbn zeta. rewrite <- !cell1_in by assumption. unfold cell_of. pose proof (proj1 Hg) as Hd. split.
  - intros E. apply sub2ind_inj in E; auto; apply fix_range; exact Hd.
  - intros (-> & -> & ->). reflexivity.
Qed.
Lemma linked_holds ll : good ll -> linked ll -> forall i j k, 0 <= i < ll_ndiv ll -> 0 <= j < ll_ndiv ll -> 0 <= k < ll_ndiv ll ->
  chain_holds (ll_periodic ll) (ll_box ll) (ll_min ll) (ll_step ll) (ll_ndiv ll) (ll_ps ll) (ll_hoc ll) (ll_next ll) i j k.
Proof.
  intros Hg (C & HC & HI) i j k Hi Hj Hk. assert (Hr := sub2ind_range ll i j k Hi Hj Hk). destruct HC as (_ & _ & HC). cbn [fst snd] in HC.
  assert (Hc : 0 <= sub2ind ll (i, j, k) < Z.of_nat (D3 ll)) by (unfold D3; lia). destruct (HC _ Hc) as (h & Hh & Hf). destruct (HI _ Hc) as [ND Hin].
  exists h, (C (sub2ind ll (i, j, k))). split; [exact Hh|]. split; [exact Hf|]. split; [exact ND|]. intros p. rewrite Hin. split; intros (x & Ex & Ec); exists x; (split; [exact Ex|]); [apply (proj1 (cell_of_in ll x i j k Hg Hi Hj Hk) Ec)|apply (proj2 (cell_of_in ll x i j k Hg Hi Hj Hk) Ec)].
Qed.

(** *** The chain of a cell, computed. *)
Definition chain_at (ll : llist) (c : Z) : list Z :=
  match zget (ll_hoc ll) c with Some h => match chain (ll_next ll) (length (ll_next ll)) h with Done l => l | _ => [] end | None => [] end.
Lemma linked_chain ll c : linked ll -> 0 <= c < Z.of_nat (D3 ll) ->
  exists h, zget (ll_hoc ll) c = Some h /\ (forall fuel, (length (ll_ps ll) <= fuel)%nat -> chain (ll_next ll) fuel h = Done (chain_at ll c)) /\
    NoDup (chain_at ll c) /\ forall i, In i (chain_at ll c) <-> exists x, zget (ll_ps ll) i = Some x /\ cell_of ll x = c.
Proof.
  intros (C & (H1 & H2 & HC) & HI) Hc. cbn [fst snd] in *. destruct (HC c Hc) as (h & Hh & Hf). destruct (HI c Hc) as [ND Hin]. exists h. split; [exact Hh|].
  assert (Hlen : (length (C c) <= length (ll_ps ll))%nat).
  { rewrite <- H2. rewrite <- (seq_length (length (ll_next ll)) 0), <- (map_length Z.of_nat (seq 0 (length (ll_next ll)))). apply NoDup_incl_length; [exact ND|]. intros i Hi. apply (chained_bound _ _ _ Hf) in Hi. apply in_map_iff. exists (Z.to_nat i). split; [lia|apply in_seq; lia]. }
  assert (E : chain_at ll c = C c). { unfold chain_at. rewrite Hh, (chain_follows _ _ _ Hf). rewrite H2. destruct (Nat.leb_spec (length (C c)) (length (ll_ps ll))); [reflexivity|lia]. }
  rewrite E. split; [|split; [exact ND|exact Hin]]. intros fuel Hfuel. rewrite (chain_follows _ _ _ Hf). destruct (Nat.leb_spec (length (C c)) fuel); [reflexivity|lia].
Qed.

(** *** Merging. *)
Lemma run_each_of {A S} (b : A -> S -> option S) l : forall s, run_each l (fun a s => of_opt (b a s)) s = of_opt (for_each l b s).
Proof. induction l as [|a l IH]; intros s; [reflexivity|]. cbn [run_each for_each]. destruct (b a s); cbn [of_opt rbind]; [apply IH|reflexivity]. Qed.
Lemma run_each_ext {A S} (b b' : A -> S -> run S) l : (forall a s, In a l -> b a s = b' a s) -> forall s, run_each l b s = run_each l b' s.
Proof. induction l as [|a l IH]; intros H s; [reflexivity|]. cbn [run_each]. rewrite (H a s (or_introl eq_refl)). destruct (b' a s); cbn [rbind]; try reflexivity. apply IH. intros; apply H; right; assumption. Qed.
Lemma for_each_app {A S} (b : A -> S -> option S) l l' : forall s, for_each (l ++ l') b s = match for_each l b s with Some s' => for_each l' b s' | None => None end.
Proof. induction l as [|a l IH]; intros s; [reflexivity|]. cbn [app for_each]. destruct (b a s); [apply IH|reflexivity]. Qed.
Lemma for_each_flat {A B S} (f : A -> list B) (b : B -> S -> option S) l : forall s, for_each l (fun a => for_each (f a) b) s = for_each (flat_map f l) b s.
Proof. induction l as [|a l IH]; intros s; [reflexivity|]. cbn [for_each flat_map]. rewrite for_each_app. destruct (for_each (f a) b s); [apply IH|reflexivity]. Qed.

Definition same_grid (ll ll' : llist) : Prop := ll_ndiv ll = ll_ndiv ll' /\ ll_periodic ll = ll_periodic ll' /\ ll_min ll = ll_min ll' /\ ll_step ll = ll_step ll'.
Lemma same_grid_cell ll ll' x : same_grid ll ll' -> cell_of ll x = cell_of ll' x.
Proof. intros (H1 & H2 & H3 & H4). unfold cell_of, cell1, sub2ind, fix_grid, round_grid, shift_grid. rewrite H1, H2, H3, H4. reflexivity. Qed.
(** The lists of the blocks of [lo, hi). *)
Fixpoint parts_ok (ll : llist) (lo hi : Z) (parts : list (Z * llist)) : Prop :=
  match parts with
  | [] => lo = hi
  | (off, p) :: r => off = lo /\ linked p /\ same_grid p ll /\ (forall i, 0 <= i < Z.of_nat (length (ll_ps p)) -> zget (ll_ps p) i = zget (ll_ps ll) (lo + i)) /\
      parts_ok ll (lo + Z.of_nat (length (ll_ps p))) hi r
  end.
Definition part_ids (parts : list (Z * llist)) (c : Z) : list Z := flat_map (fun p => map (fun pid => fst p + pid) (chain_at (snd p) c)) parts.
Lemma parts_le ll parts : forall lo hi, parts_ok ll lo hi parts -> lo <= hi.
Proof. induction parts as [|[off p] r IH]; intros lo hi H; cbn [parts_ok] in H; [lia|]. destruct H as (_ & _ & _ & _ & H). apply IH in H. lia. Qed.
Lemma part_ids_ok ll c : 0 <= c < Z.of_nat (D3 ll) -> forall parts lo hi, parts_ok ll lo hi parts ->
  NoDup (part_ids parts c) /\ forall i, In i (part_ids parts c) <-> lo <= i < hi /\ exists x, zget (ll_ps ll) i = Some x /\ cell_of ll x = c.
Proof.
  intros Hc. induction parts as [|[off p] r IH]; intros lo hi H; cbn [parts_ok] in H.
  - split; [constructor|]. intros i. split; [intros []|lia].
  - destruct H as (-> & Hl & Hg & Hz & Hr). destruct (IH _ _ Hr) as [ND Hin]. pose proof (parts_le _ _ _ _ Hr) as Hle.
    assert (Hcp : 0 <= c < Z.of_nat (D3 p)). { unfold D3 in *. rewrite (proj1 Hg). exact Hc. }
    destruct (linked_chain p c Hl Hcp) as (h & _ & _ & NDp & Hinp). unfold part_ids. cbn [flat_map fst snd]. fold (part_ids r c).
    assert (Hm : forall i, In i (map (fun pid => lo + pid) (chain_at p c)) <-> lo <= i < lo + Z.of_nat (length (ll_ps p)) /\ exists x, zget (ll_ps ll) i = Some x /\ cell_of ll x = c).
    { intros i. rewrite in_map_iff. split.
      - intros (pid & <- & Hpid). apply Hinp in Hpid as (x & Ex & Ec). pose proof (zget_some _ _ _ Ex). split; [lia|]. exists x. rewrite <- Hz by lia. rewrite <- (same_grid_cell p ll x Hg). auto.
      - intros (Hi & x & Ex & Ec). exists (i - lo). split; [lia|]. apply Hinp. exists x. rewrite Hz by lia. replace (lo + (i - lo)) with i by lia. rewrite (same_grid_cell p ll x Hg). auto. }
    split.
    + apply NoDup_app_intro; [apply NoDup_map_inj; [intros; lia|exact NDp]|exact ND|]. intros i Hi Hi'. apply Hm in Hi as [Hi _]. apply Hin in Hi' as [Hi' _]. lia.
    + intros i. rewrite in_app_iff, Hm, Hin. split; [intros [[H1 H2]|[H1 H2]]; (split; [lia|exact H2])|]. intros [H1 H2]. destruct (Z_lt_le_dec i (lo + Z.of_nat (length (ll_ps p)))); [left|right]; (split; [lia|exact H2]).
Qed.
Lemma merge_ok ll parts order fuel : ll_hoc ll = repeat (-1) (D3 ll) -> ll_next ll = repeat 0 (length (ll_ps ll)) -> good ll ->
  parts_ok ll 0 (Z.of_nat (length (ll_ps ll))) parts -> Permutation order (map Z.of_nat (seq 0 (D3 ll))) -> (length (ll_ps ll) <= fuel)%nat ->
  exists st, run_each order (fun c => run_each parts (move_chain fuel c)) (ll_hoc ll, ll_next ll) = Done st /\ linked (with_chains ll st).
Proof.
  intros Hh Hn Hg HP HO Hfuel. assert (Hord : forall c, In c order <-> 0 <= c < Z.of_nat (D3 ll)).
  { intros c. split; intros H.
    - apply (Permutation_in _ HO), in_map_iff in H as (k & <- & Hk). apply in_seq in Hk. lia.
    - apply (Permutation_in _ (Permutation_sym HO)), in_map_iff. exists (Z.to_nat c). split; [lia|apply in_seq; lia]. }
  assert (NDo : NoDup order). { apply (Permutation_NoDup (Permutation_sym HO)). apply NoDup_map_inj; [intros; lia|apply seq_NoDup]. }
  set (pairs := flat_map (fun c => map (fun i => (c, i)) (part_ids parts c)) order).
  assert (Hparts : forall lo hi, parts_ok ll lo hi parts -> 0 <= lo -> hi <= Z.of_nat (length (ll_ps ll)) -> forall p, In p parts -> linked (snd p) /\ ll_ndiv (snd p) = ll_ndiv ll /\ (length (ll_ps (snd p)) <= length (ll_ps ll))%nat).
  { clear - parts. induction parts as [|[off p] r IH]; intros lo hi H Hlo Hhi q Hq; [destruct Hq|]. cbn [parts_ok] in H. destruct H as (-> & Hl & Hg & Hz & Hr). pose proof (parts_le _ _ _ _ Hr). destruct Hq as [<-|Hq].
    - cbn [snd]. split; [exact Hl|]. split; [apply Hg|]. lia.
    - apply (IH _ _ Hr ltac:(lia) Hhi q Hq). }
  specialize (Hparts _ _ HP ltac:(lia) ltac:(lia)).
  assert (E : run_each order (fun c => run_each parts (move_chain fuel c)) (ll_hoc ll, ll_next ll) = of_opt (for_each pairs (fun p => push (fst p) (snd p)) (ll_hoc ll, ll_next ll))).
  { unfold pairs. rewrite <- for_each_flat, <- run_each_of. apply run_each_ext. intros c st Hc. apply Hord in Hc. rewrite for_each_map. cbn [fst snd]. unfold part_ids. rewrite <- for_each_flat, <- run_each_of.
    apply run_each_ext. intros [off p] st' Hp. cbn [fst snd]. destruct (Hparts _ Hp) as (Hl & Hd & Hlen). cbn [snd] in *. assert (Hcp : 0 <= c < Z.of_nat (D3 p)) by (unfold D3 in *; rewrite Hd; exact Hc).
    destruct (linked_chain p c Hl Hcp) as (h & Eh & Ec & _). unfold move_chain. cbn [fst snd]. rewrite Eh. cbn [of_opt rbind]. rewrite Ec by lia. cbn [rbind]. rewrite for_each_map. reflexivity. }
  assert (HND : NoDup (map snd pairs)).
  { unfold pairs. rewrite flat_map_concat_map, concat_map, map_map, <- flat_map_concat_map. apply NoDup_flat_map; [exact NDo| |].
    - intros c Hc. rewrite map_map. cbn [snd]. rewrite map_id. apply (part_ids_ok ll c (proj1 (Hord c) Hc) parts _ _ HP).
    - intros c c' i Hc Hc' Hi Hi'. rewrite map_map, map_id in Hi, Hi'. apply (part_ids_ok ll c (proj1 (Hord c) Hc) parts _ _ HP) in Hi as (_ & x & Ex & Ec). apply (part_ids_ok ll c' (proj1 (Hord c') Hc') parts _ _ HP) in Hi' as (_ & x' & Ex' & Ec'). congruence. }
  destruct (push_all (D3 ll) (length (ll_ps ll)) pairs [] (ll_hoc ll, ll_next ll)) as (st & Es & HC).
  - apply chains_empty; assumption.
  - intros c i Hin. apply in_flat_map in Hin as (c' & Hc & Hin). apply in_map_iff in Hin as (i' & E' & Hi). injection E' as -> ->. apply Hord in Hc. split; [exact Hc|]. apply (part_ids_ok ll c Hc parts _ _ HP) in Hi. lia.
  - exact HND.
  - rewrite E, Es. exists st. split; [reflexivity|]. exists (pushed pairs). change (D3 (with_chains ll st)) with (D3 ll). change (ll_ps (with_chains ll st)) with (ll_ps ll). destruct st as [hoc next]. split; [exact HC|].
    intros c Hc. split; [apply pushed_nodup; exact HND|]. intros i. rewrite pushed_in. unfold pairs. rewrite in_flat_map. change (cell_of (with_chains ll (hoc, next))) with (cell_of ll). split.
    + intros (c' & Hc' & Hin). apply in_map_iff in Hin as (i' & E' & Hi). injection E' as -> ->. apply (part_ids_ok ll c Hc parts _ _ HP) in Hi. apply Hi.
    + intros (x & Ex & Ec). exists c. split; [apply Hord; exact Hc|]. apply in_map_iff. exists i. split; [reflexivity|]. apply (part_ids_ok ll c Hc parts _ _ HP). pose proof (zget_some _ _ _ Ex). split; [lia|]. exists x. auto.
Qed.
