(** Proofs about the linked-list grid: parallel building and searching. *)
From Coq Require Import List ZArith QArith Qround Qfield Bool Lia Lqa Sorting.Permutation.
From Verif.Model Require Import ListMem Run Mymath Tree LinkedList.
From Verif.Spec Require Import Basic Octree Chains.
From Verif.Proofs Require Import ListMemProofs ListExtra MymathProofs MymathProofs2 TreeInsert TreeResults LinkProofs LinkMerge.
Import ListNotations.
Local Open Scope Z_scope.

(** *** Blocks. *)
Lemma zget_block {A} (l : list A) b k i : 0 <= b -> 0 <= i < k -> zget (firstn (Z.to_nat k) (skipn (Z.to_nat b) l)) i = zget l (b + i).
Proof.
  intros Hb Hi. rewrite !zget_nat by lia. rewrite nth_firstn, nth_skipn. destruct (Nat.ltb_spec (Z.to_nat i) (Z.to_nat k)); [|lia]. f_equal. lia.
Qed.
Lemma blocks_ok ndiv ps box periodic ll : 0 < ndiv -> (0 < box)%Q -> init ndiv ps box periodic = Some ll -> forall T ts ivs lo,
  map (fun t => assign_tasks t T (Z.of_nat (length ps))) ts = map Some ivs -> 0 <= lo -> tiles lo (Z.of_nat (length ps)) ivs ->
  exists parts, build_blocks T ts ndiv ps box periodic = Some parts /\ parts_ok ll lo (Z.of_nat (length ps)) parts.
Proof.
  intros Hd Hb Hi T. destruct (init_ok ndiv ps box periodic Hd Hb) as (ll' & Hi' & _ & Eps & En & Ep & _ & Em & Es). rewrite Hi in Hi'. injection Hi' as <-.
  induction ts as [|t ts IH]; intros [|[a b] ivs] lo E Hlo HT; try discriminate; cbn [build_blocks].
  - exists []. split; [reflexivity|exact HT].
  - cbn [map] in E. injection E as E1 E2. cbn [tiles] in HT. destruct HT as (-> & Hab & HT). unfold block. rewrite E1. pose proof (tiles_bounds _ _ _ HT) as Hbn.
    set (qs := firstn (Z.to_nat (b - lo)) (skipn (Z.to_nat lo) ps)).
    assert (Hlen : Z.of_nat (length qs) = b - lo). { unfold qs. rewrite firstn_length, skipn_length. lia. }
    destruct (init_ok ndiv qs box periodic Hd Hb) as (l0 & Hi0 & Hg0 & Eps0 & En0 & Ep0 & _ & Em0 & Es0).
    destruct (build_ok _ _ _ _ _ Hi0 Hg0) as (p & Ebp & Hl & Hgp & B1 & B2 & B3 & B4 & B5 & B6). rewrite Ebp.
    destruct (IH ivs b E2 ltac:(lia) HT) as (parts & Eparts & HP). rewrite Eparts. eexists. split; [reflexivity|]. cbn [parts_ok]. split; [reflexivity|]. split; [exact Hl|]. split.
    + split; [congruence|]. split; [congruence|]. rewrite B5, B6. clear - Em Es Em0 Es0. split.
      * pose proof (Em 0%nat) as X0. pose proof (Em 1%nat) as X1. pose proof (Em 2%nat) as X2. pose proof (Em0 0%nat) as Y0. pose proof (Em0 1%nat) as Y1. pose proof (Em0 2%nat) as Y2.
        destruct (ll_min l0) as [[? ?] ?], (ll_min ll) as [[? ?] ?]. cbn [coord] in *. congruence.
      * pose proof (Es 0%nat) as X0. pose proof (Es 1%nat) as X1. pose proof (Es 2%nat) as X2. pose proof (Es0 0%nat) as Y0. pose proof (Es0 1%nat) as Y1. pose proof (Es0 2%nat) as Y2.
        destruct (ll_step l0) as [[? ?] ?], (ll_step ll) as [[? ?] ?]. cbn [coord] in *. congruence.
    + rewrite B1, Hlen, Eps. split.
      * intros i Hir. apply zget_block; lia.
      * replace (lo + (b - lo)) with b by lia. exact HP.
Qed.
Lemma parallel_ok fuel T order ndiv ps box periodic : (0 < T)%nat -> 0 < ndiv -> (0 < box)%Q -> Permutation order (map Z.of_nat (seq 0 (Z.to_nat (ndiv * ndiv * ndiv)))) -> (length ps <= fuel)%nat ->
  exists ll, parallel_build fuel T order ndiv ps box periodic = Done ll /\ linked ll /\ good ll /\ ll_ps ll = ps /\ ll_ndiv ll = ndiv /\ ll_periodic ll = periodic /\ ll_box ll = box /\
    (forall j, coord j (ll_min ll) = 0)%Q /\ (forall j, coord j (ll_step ll) = (box - 0) / inject_Z ndiv)%Q.
Proof.
  intros HT Hd Hb HO Hf. unfold parallel_build. destruct (Qle_bool box 0) eqn:E; [apply Qle_bool_iff in E; lra|].
  destruct (init_ok ndiv ps box periodic Hd Hb) as (ll & Hi & Hg & Eps & En & Ep & Ebx & Em & Es).
  destruct (assign_tasks_correct T (Z.of_nat (length ps)) HT ltac:(lia)) as (ivs & Eiv & _ & Htile & _).
  destruct (blocks_ok ndiv ps box periodic ll Hd Hb Hi (Z.of_nat T) (map Z.of_nat (seq 0 T)) ivs 0) as (parts & Eparts & HP); [rewrite map_map; exact Eiv|lia|exact Htile|].
  rewrite Eparts, Hi. cbn [of_opt rbind]. destruct (init_state _ _ _ _ _ Hi) as (S1 & S2 & _ & _).
  destruct (merge_ok ll parts order fuel) as (st & Est & Hl); [unfold D3; rewrite En; exact S1|rewrite Eps; exact S2|exact Hg|rewrite Eps; exact HP|unfold D3; rewrite En; exact HO|rewrite Eps; exact Hf|].
  rewrite Est. cbn [rbind]. eexists. split; [reflexivity|]. split; [exact Hl|]. split; [apply good_with; exact Hg|]. repeat split; auto.
Qed.

(** *** Cells of a search. *)
Lemma zrange_in a b i : In i (zrange a b) <-> a <= i <= b.
Proof.
  unfold zrange. rewrite in_map_iff. split; [intros (k & <- & Hk); apply in_seq in Hk; lia|]. intros H. exists (Z.to_nat (i - a)). split; [lia|apply in_seq; lia].
Qed.
Lemma zrange_nodup a b : NoDup (zrange a b).
Proof. apply NoDup_map_inj; [intros; lia|apply seq_NoDup]. Qed.
Lemma cells_in i0 j0 k0 i1 j1 k1 i j k : In (i, j, k) (cells_between ((i0, j0, k0), (i1, j1, k1))) <-> i0 <= i <= i1 /\ j0 <= j <= j1 /\ k0 <= k <= k1.
Proof.
  cbn [cells_between]. rewrite in_flat_map. split.
  - intros (i' & Hi & H). apply in_flat_map in H as (j' & Hj & H). apply in_map_iff in H as (k' & Ek & Hk). injection Ek as -> -> ->. rewrite zrange_in in *. auto.
  - intros (Hi & Hj & Hk). exists i. split; [apply zrange_in; exact Hi|]. apply in_flat_map. exists j. split; [apply zrange_in; exact Hj|]. apply in_map. apply zrange_in. exact Hk.
Qed.
Lemma cells_nodup b : NoDup (cells_between b).
Proof.
  destruct b as [[[i0 j0] k0] [[i1 j1] k1]]. cbn [cells_between]. apply NoDup_flat_map; [apply zrange_nodup| |].
  - intros i _. apply NoDup_flat_map; [apply zrange_nodup| |].
    + intros j _. apply NoDup_map_inj; [intros; congruence|apply zrange_nodup].
    + intros j j' z _ _ H H'. apply in_map_iff in H as (? & <- & _). apply in_map_iff in H' as (? & E & _). congruence.
  - intros i i' z _ _ H H'. apply in_flat_map in H as (? & _ & H). apply in_map_iff in H as (? & <- & _). apply in_flat_map in H' as (? & _ & H'). apply in_map_iff in H' as (? & E & _). congruence.
Qed.
Lemma fix3_range ll g : 0 < ll_ndiv ll -> 0 <= sub2ind ll (fix3 ll g) < Z.of_nat (D3 ll).
Proof. intros H. destruct g as [[i j] k]. cbn [fix3]. pose proof (sub2ind_range ll (fix_grid ll i) (fix_grid ll j) (fix_grid ll k) (fix_range ll i H) (fix_range ll j H) (fix_range ll k H)). unfold D3. lia. Qed.
Lemma visit_ok ll fuel cells : linked ll -> good ll -> (length (ll_ps ll) <= fuel)%nat -> visit_cells ll fuel cells = Done (flat_map (fun g => chain_at ll (sub2ind ll (fix3 ll g))) cells).
Proof.
  intros Hl Hg Hf. induction cells as [|g r IH]; [reflexivity|]. cbn [visit_cells flat_map]. unfold head_of. destruct (linked_chain ll _ Hl (fix3_range ll g (proj1 Hg))) as (h & Eh & Ec & _). rewrite Eh. cbn [of_opt rbind].
  rewrite Ec by exact Hf. cbn [rbind]. rewrite IH. reflexivity.
Qed.

(** *** One axis. *)
Lemma nearest_shift L d : exists k : Z, (nearest L d == d + inject_Z k * L)%Q.
Proof.
  unfold nearest. destruct (negb _); [exists (-1); unfold inject_Z; ring|]. destruct (negb _); [exists 1; unfold inject_Z; ring|]. exists 0. unfold inject_Z. ring.
Qed.
Lemma floor_mono x y s : (0 < s)%Q -> (x <= y)%Q -> Qfloor (x / s) <= Qfloor (y / s).
Proof. intros Hs H. apply Qfloor_resp_le. apply Qle_shift_div_l; [exact Hs|]. rewrite Qmult_comm, Qmult_div_r by lra. exact H. Qed.
Lemma round_mono ll a b : 0 < ll_ndiv ll -> a <= b -> round_grid ll a <= round_grid ll b.
Proof. intros Hd H. unfold round_grid. destruct (Z.ltb_spec a 0), (Z.ltb_spec b 0); try lia; destruct (Z.leb_spec (ll_ndiv ll) b); try lia; destruct (Z.leb_spec (ll_ndiv ll) a); lia. Qed.
Lemma round_id ll a : 0 <= a < ll_ndiv ll -> round_grid ll a = a.
Proof. intros H. unfold round_grid. destruct (Z.ltb_spec a 0); [lia|]. destruct (Z.leb_spec (ll_ndiv ll) a); lia. Qed.
Definition floor1 (ll : llist) (j : nat) (x : Q) : Z := Qfloor ((x - coord j (ll_min ll)) / coord j (ll_step ll)).
Definition bound1 (ll : llist) (j : nat) (x : Q) : Z := if ll_periodic ll then floor1 ll j x else fix_grid ll (floor1 ll j x).
Definition diff1 (ll : llist) (L y x : Q) : Q := if ll_periodic ll then nearest L (y - x) else (y - x)%Q.
Lemma axis_covers ll j L y x r : good ll -> (L == ll_box ll)%Q -> (- r <= diff1 ll L y x <= r)%Q ->
  exists g, bound1 ll j (x - r) <= g <= bound1 ll j (x + r) /\ fix_grid ll g = cell1 ll j y.
Proof.
  intros (Hd & Hs & Hp) HL Hr. specialize (Hs j). unfold bound1, diff1, cell1, fix_grid in *. fold (floor1 ll j y). set (lo := coord j (ll_min ll)) in *. set (s := coord j (ll_step ll)) in *.
  destruct (ll_periodic ll).
  - destruct (Hp eq_refl) as [HL0 HsL]. specialize (HsL j). fold s in HsL. destruct (nearest_shift L (y - x)) as (k & Hk). set (d := nearest L (y - x)) in *. clearbody d.
    exists (floor1 ll j (x + d)). split; [unfold floor1; fold lo s; split; apply floor_mono; lra|].
    rewrite !shift_mod by exact Hd.
    assert (E : floor1 ll j (x + d) = floor1 ll j y + k * ll_ndiv ll).
    { unfold floor1. fold lo s. rewrite <- (floor_shift (y - lo) s k (ll_ndiv ll) (ll_box ll) Hs HsL). apply Qfloor_comp. apply Qdiv_comp; [|reflexivity]. rewrite <- HL. lra. }
    rewrite E. apply Z.mod_add. lia.
  - exists (round_grid ll (floor1 ll j y)). split; [|apply round_id; pose proof (fix_range ll (floor1 ll j y) Hd) as Hf; unfold fix_grid in Hf].
    + unfold floor1. fold lo s. split; (apply round_mono; [exact Hd|]; apply floor_mono; lra).
    + unfold round_grid. destruct (Z.ltb_spec (floor1 ll j y) 0); [lia|]. destruct (Z.leb_spec (ll_ndiv ll) (floor1 ll j y)); lia.
Qed.
Lemma axis_injective ll j x r g g' : good ll -> (ll_periodic ll = true -> 2 * r + coord j (ll_step ll) <= ll_box ll)%Q ->
  bound1 ll j (x - r) <= g <= bound1 ll j (x + r) -> bound1 ll j (x - r) <= g' <= bound1 ll j (x + r) -> fix_grid ll g = fix_grid ll g' -> g = g'.
Proof.
  intros (Hd & Hs & Hp) Hn H H' E. specialize (Hs j). unfold bound1, fix_grid in *. destruct (ll_periodic ll).
  - destruct (Hp eq_refl) as [HL0 HsL]. specialize (HsL j). specialize (Hn eq_refl). rewrite !shift_mod in E by exact Hd.
    assert (Hw : floor1 ll j (x + r) - floor1 ll j (x - r) < ll_ndiv ll).
    { unfold floor1. set (lo := coord j (ll_min ll)) in *. set (s := coord j (ll_step ll)) in *.
      destruct (proj1 (floor_iff (x + r - lo) s _ Hs) eq_refl) as [A1 A2]. destruct (proj1 (floor_iff (x - r - lo) s _ Hs) eq_refl) as [B1 B2].
      set (a := Qfloor ((x + r - lo) / s)) in *. set (b := Qfloor ((x - r - lo) / s)) in *.
      assert (C : (inject_Z a * s < inject_Z (b + ll_ndiv ll) * s)%Q). { rewrite !inject_Z_plus in *. change (inject_Z 1) with 1%Q in *. assert ((inject_Z b + inject_Z (ll_ndiv ll)) * s == inject_Z b * s + s * inject_Z (ll_ndiv ll))%Q by ring. rewrite H0, HsL. assert ((inject_Z b + 1) * s == inject_Z b * s + s)%Q by ring. lra. }
      apply Qmult_lt_r in C; [|exact Hs]. rewrite <- Zlt_Qlt in C. lia. }
    pose proof (Z.div_mod g (ll_ndiv ll) ltac:(lia)) as X. pose proof (Z.div_mod g' (ll_ndiv ll) ltac:(lia)) as X'. rewrite E in X. set (q := g / ll_ndiv ll) in *. set (q' := g' / ll_ndiv ll) in *. set (m := g' mod ll_ndiv ll) in *. assert (q = q') by nia. subst q'. lia.
  - assert (R : forall v, 0 <= round_grid ll v < ll_ndiv ll). { intros v. unfold round_grid. destruct (Z.ltb_spec v 0); [lia|]. destruct (Z.leb_spec (ll_ndiv ll) v); lia. }
    pose proof (R (floor1 ll j (x - r))). pose proof (R (floor1 ll j (x + r))). rewrite (round_id ll g), (round_id ll g') in E by lia. exact E.
Qed.

(** *** The particles met. *)
Lemma subbox_ok ll x rad : good ll -> subbox ll x rad = Some
  (let lo := fun j => bound1 ll j (coord j x - coord j rad) in let hi := fun j => bound1 ll j (coord j x + coord j rad) in ((lo 0%nat, lo 1%nat, lo 2%nat), (hi 0%nat, hi 1%nat, hi 2%nat))).
Proof.
  intros Hg. unfold subbox. rewrite !(grid3_ok _ _ Hg). cbn zeta. unfold bound1, floor1. destruct x as [[x0 x1] x2], rad as [[r0 r1] r2]. cbn [vmap2 coord]. destruct (ll_periodic ll); reflexivity.
Qed.
Definition narrow (ll : llist) (rad : vec) : Prop := ll_periodic ll = true -> forall j, (2 * coord j rad + coord j (ll_step ll) <= ll_box ll)%Q.
Lemma visited_ok ll L fuel x rad : linked ll -> good ll -> (L == ll_box ll)%Q -> (length (ll_ps ll) <= fuel)%nat ->
  exists vs, visited ll fuel x rad = Done vs /\ (forall p, In p vs -> exists y, zget (ll_ps ll) p = Some y) /\
    (forall p y, zget (ll_ps ll) p = Some y -> (forall j, - coord j rad <= coord j (apart (ll_periodic ll) L y x) <= coord j rad)%Q -> In p vs) /\
    (narrow ll rad -> NoDup vs).
Proof.
  intros Hl Hg HL Hf. unfold visited. rewrite (subbox_ok ll x rad Hg). cbn [of_opt rbind]. rewrite (visit_ok ll fuel _ Hl Hg Hf). eexists. split; [reflexivity|]. pose proof (proj1 Hg) as Hd. split; [|split].
  - intros p Hp. apply in_flat_map in Hp as (g & _ & Hp). destruct (linked_chain ll _ Hl (fix3_range ll g Hd)) as (_ & _ & _ & _ & Hin). apply Hin in Hp as (y & Hy & _). eauto.
  - intros p y Hp Hr.
    assert (HA : forall j, exists g, bound1 ll j (coord j x - coord j rad) <= g <= bound1 ll j (coord j x + coord j rad) /\ fix_grid ll g = cell1 ll j (coord j y)).
    { intros j. apply (axis_covers ll j L _ _ _ Hg HL). specialize (Hr j). rewrite apart_coord in Hr. exact Hr. }
    destruct (HA 0%nat) as (i & Hi & Ei). destruct (HA 1%nat) as (j & Hj & Ej). destruct (HA 2%nat) as (k & Hk & Ek).
    apply in_flat_map. exists (i, j, k). split; [apply cells_in; auto|]. destruct (linked_chain ll _ Hl (fix3_range ll (i, j, k) Hd)) as (_ & _ & _ & _ & Hin). apply Hin. exists y. split; [exact Hp|]. cbn [fix3]. rewrite Ei, Ej, Ek. reflexivity.
  - intros Hn. apply NoDup_flat_map; [apply cells_nodup| |].
    + intros g _. destruct (linked_chain ll _ Hl (fix3_range ll g Hd)) as (_ & _ & _ & ND & _). exact ND.
    + intros [[i j] k] [[i' j'] k'] p Hc Hc' Hp Hp'. apply cells_in in Hc as (Hi & Hj & Hk). apply cells_in in Hc' as (Hi' & Hj' & Hk').
      destruct (linked_chain ll _ Hl (fix3_range ll (i, j, k) Hd)) as (_ & _ & _ & _ & Hin). destruct (linked_chain ll _ Hl (fix3_range ll (i', j', k') Hd)) as (_ & _ & _ & _ & Hin').
      apply Hin in Hp as (y & Ey & Ec). apply Hin' in Hp' as (y' & Ey' & Ec'). rewrite Ey in Ey'. injection Ey' as <-. rewrite Ec in Ec'. cbn [fix3] in Ec'. apply sub2ind_inj in Ec' as (E1 & E2 & E3); try (apply fix_range; exact Hd).
      assert (i = i') by (apply (axis_injective ll 0 (coord 0 x) (coord 0 rad)); auto). assert (j = j') by (apply (axis_injective ll 1 (coord 1 x) (coord 1 rad)); auto). assert (k = k') by (apply (axis_injective ll 2 (coord 2 x) (coord 2 rad)); auto). congruence.
Qed.
Lemma examine_ok {A} ll (item : Z -> vec -> list A) ids : (forall p, In p ids -> exists y, zget (ll_ps ll) p = Some y) ->
  examine ll item ids = Some (flat_map (fun p => item p (position (ll_ps ll) p)) ids).
Proof.
  induction ids as [|p r IH]; intros H; [reflexivity|]. cbn [examine flat_map]. destruct (H p (or_introl eq_refl)) as [y Ey]. unfold position at 1. rewrite Ey. rewrite IH by (intros; apply H; right; assumption). reflexivity.
Qed.
Lemma search_ok ll L fuel x rad (item : Z -> vec -> list (Z * Q)) : linked ll -> good ll -> (L == ll_box ll)%Q -> (length (ll_ps ll) <= fuel)%nat ->
  (forall p y, item p y = [] \/ exists v, item p y = [(p, v)] /\ forall j, - coord j rad <= coord j (apart (ll_periodic ll) L y x) <= coord j rad)%Q ->
  exists found, search_with ll fuel x rad item = Done found /\ (narrow ll rad -> NoDup (map fst found)) /\
    forall p v, In (p, v) found <-> exists y, zget (ll_ps ll) p = Some y /\ item p y = [(p, v)].
Proof.
  intros Hl Hg HL Hf Hit. destruct (visited_ok ll L fuel x rad Hl Hg HL Hf) as (vs & Ev & V1 & V2 & V3). unfold search_with. rewrite Ev. cbn [rbind]. rewrite (examine_ok ll item vs V1). eexists. split; [reflexivity|]. split.
  - intros Hn. specialize (V3 Hn). clear - Hit V3. induction vs as [|p r IH]; [constructor|]. apply NoDup_cons_iff in V3 as [Hp ND]. cbn [flat_map]. rewrite map_app. specialize (IH ND).
    destruct (Hit p (position (ll_ps ll) p)) as [->|(v & -> & _)]; [exact IH|]. cbn [map app fst]. constructor; [|exact IH]. intros Hin. apply Hp. apply in_map_iff in Hin as ([p' v'] & E & Hin). cbn [fst] in E. subst p'. apply in_flat_map in Hin as (q & Hq & Hin).
    destruct (Hit q (position (ll_ps ll) q)) as [Eq|(v2 & Eq & _)]; rewrite Eq in Hin; [destruct Hin|]. destruct Hin as [E|[]]. congruence.
  - intros p v. rewrite in_flat_map. split.
    + intros (q & Hq & Hin). destruct (V1 q Hq) as [y Ey]. unfold position in Hin. rewrite Ey in Hin. destruct (Hit q y) as [Eq|(v2 & Eq & _)]; rewrite Eq in Hin; [destruct Hin|]. destruct Hin as [E|[]]. injection E as <- <-. exists y. auto.
    + intros (y & Ey & Ei). exists p. unfold position. rewrite Ey, Ei. split; [|left; reflexivity]. apply (V2 p y Ey). destruct (Hit p y) as [E|(v' & _ & Hr)]; [congruence|exact Hr].
Qed.
