(** The finished gravity and geometric trees: contents, potentials, searches. *)
From Coq Require Import List ZArith QArith Qabs Qfield Bool Lia Lqa Sorting.Permutation.
From Verif.Model Require Import ListMem Run Mymath Tree.
From Verif.Spec Require Import Basic Octree.
From Verif.Proofs Require Import ListMemProofs ListExtra MymathProofs2 OctProofs TreeInsert TreeBuild TreeWalk.
Import ListNotations.
Local Open Scope nat_scope.

(** Subtrees with their boxes. *)
Inductive within (son_box : nat -> vec * Q -> vec * Q) : ot -> vec * Q -> ot -> vec * Q -> Prop :=
| within_refl t b : within son_box t b t b
| within_son id sons b k t' b' : k < 8 -> within son_box (sons k) (son_box k b) t' b' -> within son_box (OCell id sons) b t' b'.
Lemma within_cell sb t : forall b id, In id (cellids t) -> exists sons b', within sb t b (OCell id sons) b'.
Proof.
  induction t as [|i|id0 sons IH]; intros b id Hin; [destruct Hin|destruct Hin|]. destruct Hin as [->|Hin]; [exists sons, b; constructor|].
  apply in_flat_map in Hin as (k & Hk & Hin). apply in8 in Hk. destruct (IH k (sb k b) id Hin) as (s' & b' & Hw). exists s', b'. apply within_son with (k := k); assumption.
Qed.
Lemma within_rep {W} ps (cells : list (cell W)) sb t b t' b' : within sb t b t' b' -> rep ps cells t -> rep ps cells t'.
Proof. induction 1; [auto|]. intros (l & _ & _ & Hs). apply IHwithin, Hs. assumption. Qed.
Lemma within_full sb t b t' b' : within sb t b t' b' -> full t -> full t'.
Proof. induction 1; [auto|]. intros (_ & Hs). apply IHwithin, Hs. assumption. Qed.
Lemma within_leaves sb t b t' b' : within sb t b t' b' -> incl (leaves t') (leaves t).
Proof. induction 1; [apply incl_refl|]. intros x Hx. cbn [leaves]. apply in_flat_map. exists k. split; [apply in8; assumption|auto]. Qed.
Lemma within_fits ps res t b t' b' : within (geo_box res) t b t' b' -> fits ps res b t -> fits ps res b' t'.
Proof. induction 1; [auto|]. intros Hf. apply IHwithin, Hf. assumption. Qed.
Lemma within_thr {A W} ps (acc0 : A) ap (ac : W -> A -> A) fin sb st t b t' b' : within sb t b t' b' -> t' <> OEmpty -> forall next, thr ps acc0 ap ac fin sb st t next b -> exists next', thr ps acc0 ap ac fin sb st t' next' b'.
Proof.
  intros Hw Hne. induction Hw as [t b|id sons b k t' b' Hk Hw IH]; intros next HT; [eauto|]. rewrite thr_cell in HT. destruct HT as [_ HT].
  assert (Hks : sons k <> OEmpty). { intros E. rewrite E in Hw. inversion Hw; subst. congruence. }
  assert (Hin : In k (kids sons)) by (apply kids_in; auto). revert Hin HT. generalize (kids sons). intros ks. induction ks as [|j ks IHk]; [intros []|].
  intros [->|Hin] HT; cbn [thrs] in HT; destruct HT as [T1 T2]; [apply (IH Hne _ T1)|auto].
Qed.
Lemma snd_boxes res k b b' : snd b = snd b' -> snd (grav_box res k b) = snd (geo_box res k b').
Proof. intros E. unfold grav_box, geo_box. cbn [snd]. rewrite E. destruct (Qle_bool res (snd b')); reflexivity. Qed.
Lemma within_grav res t b t' b' : within (grav_box res) t b t' b' -> forall c, snd c = snd b -> exists c', within (geo_box res) t c t' c' /\ snd c' = snd b'.
Proof.
  induction 1 as [t b|id sons b k t' b' Hk Hw IH]; intros c Hc; [exists c; split; [constructor|exact Hc]|].
  destruct (IH (geo_box res k c)) as (c' & Hc1 & Hc2); [symmetry; apply snd_boxes; auto|]. exists c'. split; [apply within_son with (k := k); assumption|exact Hc2].
Qed.
Lemma fits_leaves ps res t : forall b, (0 <= snd b)%Q -> fits ps res b t -> forall i, In i (leaves t) -> exists x, nth_error ps i = Some x /\ inbox b x.
Proof.
  induction t as [|i|id sons IH]; intros b Hb HF i0 Hin; [destruct Hin| |].
  - destruct Hin as [->|[]]. cbn [fits] in HF. destruct (nth_error ps i0); [eauto|destruct HF].
  - cbn [leaves] in Hin. apply in_flat_map in Hin as (k & Hk & Hin). apply in8 in Hk.
    assert (Hb' : (0 <= snd (geo_box res k b))%Q). { unfold geo_box. destruct (Qle_bool res (snd b)); [cbn [snd]; rewrite half_field; lra|exact Hb]. }
    destruct (IH k _ Hb' (HF k Hk) i0 Hin) as (x & Hx & Hbox). exists x. split; [exact Hx|].
    unfold geo_box in Hbox. destruct (Qle_bool res (snd b)); [|exact Hbox]. destruct b as [[[b0 b1] b2] len]. cbn [fst snd] in *.
    intros j. specialize (Hbox j). cbn [fst snd] in *.
    assert (E : (coord j (shift_center (b0, b1, b2) k (len / 4)) == coord j (b0, b1, b2) + len / 4 \/ coord j (shift_center (b0, b1, b2) k (len / 4)) == coord j (b0, b1, b2) - len / 4)%Q).
    { unfold shift_center. destruct j as [|[|j]]; cbn [coord]; match goal with |- context [Nat.testbit ?a ?b] => destruct (Nat.testbit a b) end; [left|right|left|right|left|right]; reflexivity. }
    assert (Hq := quart_field len). set (q := (len / 4)%Q) in *. clearbody q. rewrite !half_field in Hbox. rewrite half_field. destruct E as [E|E]; rewrite E in Hbox; lra.
Qed.

Lemma total_app f a b : (total f (a ++ b) == total f a + total f b)%Q.
Proof. induction a as [|x a IH]; cbn [total app fold_right]; [unfold total; lra|]. fold (total f (a ++ b)). fold (total f a). rewrite IH. ring. Qed.
Lemma total_perm f a b : Permutation a b -> (total f a == total f b)%Q.
Proof. induction 1; cbn [total fold_right]; [reflexivity|fold (total f l); fold (total f l'); rewrite IHPermutation; reflexivity|fold (total f l); ring|lra]. Qed.
Lemma total_pos m l : l <> [] -> (forall i, In i l -> (0 < m i)%Q) -> (0 < total m l)%Q.
Proof.
  intros Hne H. assert (G : forall l, (forall i, In i l -> (0 < m i)%Q) -> (0 <= total m l)%Q).
  { clear. induction l as [|x l IH]; intros H; cbn [total fold_right]; [lra|]. fold (total m l). specialize (IH (fun i Hi => H i (or_intror Hi))). specialize (H x (or_introl eq_refl)). lra. }
  destruct l as [|x l]; [congruence|]. cbn [total fold_right]. fold (total m l). specialize (G l (fun i Hi => H i (or_intror Hi))). specialize (H x (or_introl eq_refl)). lra.
Qed.
Lemma leaves_nonempty t : full t -> t <> OEmpty -> leaves t <> [].
Proof.
  induction t as [|i|id sons IH]; intros HF Hne; [congruence|discriminate|]. destruct HF as [(k & Hk & Hk') Hs]. specialize (IH k (Hs k Hk) Hk'). cbn [leaves]. intros E.
  apply IH. destruct (leaves (sons k)) as [|y l] eqn:El; [reflexivity|]. exfalso. assert (Hin : In y (flat_map (fun k => leaves (sons k)) (seq 0 8))).
  { apply in_flat_map. exists k. split; [apply in8; exact Hk|rewrite El; left; reflexivity]. }
  rewrite E in Hin. destruct Hin.
Qed.

Section Final.
  Variable ps : list vec.
  Local Notation n := (length ps).
  Local Notation N := (Z.of_nat (length ps)).
  Variable res : Q.
  Variable rnd : nat -> nat.
  Hypothesis rnd8 : forall i, rnd i < 8.

  Definition finished {A W} (acc0 : A) ap (ac : W -> A -> A) fin sb (b : vec * Q) (fuel : nat) (st : list (cell W) * list Z) : Prop :=
    exists (cells : list (cell W)) sons, build_cells ps (res * (1 # 2))%Q rnd fuel = Done cells /\ wf ps cells (OCell N sons) /\ full (OCell N sons) /\ fits ps res b (OCell N sons) /\
      Permutation (leaves (OCell N sons)) (seq 0 n) /\ Permutation (cellids (OCell N sons)) (map (fun c => Z.of_nat (n + c)) (seq 0 (length cells))) /\
      thr ps acc0 ap ac fin sb st (OCell N sons) (-1)%Z b /\ length (fst st) = length cells /\ length (snd st) = n.

  Lemma build_built {W} fuel b : cube ps = Some b -> ps <> [] ->
    match build_cells ps (res * (1 # 2))%Q rnd fuel with
    | Crash => False
    | Running => True
    | Done cells => exists sons, wf (W := W) ps cells (OCell N sons) /\ full (OCell N sons) /\ fits ps res b (OCell N sons) /\
      Permutation (leaves (OCell N sons)) (seq 0 n) /\ Permutation (cellids (OCell N sons)) (map (fun c => Z.of_nat (n + c)) (seq 0 (length cells)))
    end.
  Proof.
    intros Hc Hne. destruct b as [c len]. pose proof (build_cells_ok (W := W) ps res rnd rnd8 fuel c len Hc) as HB.
    destruct (build_cells ps (res * (1 # 2)) rnd fuel) as [cells| |]; auto. destruct HB as (sons & HW & HL & HC & _ & HF & HFi & _). exists sons. split; [exact HW|]. split.
    - apply HF. destruct ps as [|x r]; [congruence|]. cbn [length seq rev]. intros E. apply app_eq_nil in E as [_ E]. discriminate.
    - split; [exact HFi|]. split; [rewrite HL; symmetry; apply Permutation_rev|exact HC].
  Qed.

  Lemma build_tree_ok {A W} (acc0 : A) ap (ac : W -> A -> A) fin sb fuel b : cube ps = Some b -> ps <> [] ->
    match build_tree ps res rnd acc0 ap ac fin sb fuel with
    | Crash => False
    | Running => True
    | Done st => finished acc0 ap ac fin sb b fuel st
    end.
  Proof.
    intros Hc Hne. unfold build_tree. pose proof (build_built (W := W) fuel b Hc Hne) as HB.
    destruct (build_cells ps (res * (1 # 2)) rnd fuel) as [cells| |] eqn:E; cbn [rbind]; auto. destruct HB as (sons & HW & HF & HFi & HL & HC). rewrite Hc.
    pose proof (update_ok ps acc0 ap ac fin sb (OCell N sons) fuel (-1)%Z b (cells, repeat 0%Z n)) as HU. cbn [root] in HU.
    assert (Hr : ready ps (cells, repeat 0%Z n) (OCell N sons)).
    { split; [apply HW|]. split; [exact HF|]. split; [apply HW|]. split.
      - apply (Permutation_NoDup (Permutation_sym HL)), seq_NoDup.
      - intros i Hi. cbn [snd]. rewrite repeat_length. apply (Permutation_in _ HL), in_seq in Hi. lia. }
    specialize (HU Hr). destruct (update n acc0 ap ac fin sb fuel N (-1) b (cells, repeat 0%Z n)) as [st| |]; auto.
    destruct HU as (HT & U1 & U2 & _). cbn [fst snd] in *. rewrite repeat_length in U2. exists cells, sons. repeat (split; [assumption|]). assumption.
  Qed.

  Lemma build_tree_stops {A W} (acc0 : A) ap (ac : W -> A -> A) fin sb c len : (0 < res)%Q -> cube ps = Some (c, len) -> ps <> [] -> (forall x, In x ps -> follows_not rnd x c ((1 # 2) * len)%Q) ->
    exists F, forall fuel, F <= fuel -> build_tree ps res rnd acc0 ap ac fin sb fuel <> Running.
  Proof.
    intros Hres Hc Hne Hfn. destruct (build_cells_stops (W := W) ps res rnd rnd8 c len Hres Hc Hfn) as (F & HF).
    pose proof (build_built (W := W) F (c, len) Hc Hne) as HB. pose proof (HF F (Nat.le_refl _)) as HF0.
    destruct (build_cells ps (res * (1 # 2)) rnd F) as [cells| |] eqn:E; [|destruct HB|congruence].
    destruct HB as (sons & HW & HFu & HFi & HL & HC).
    assert (Hmono : forall fuel, F <= fuel -> build_cells (W := W) ps (res * (1 # 2))%Q rnd fuel = Done cells).
    { intros fuel Hf. unfold build_cells in *. rewrite Hc in *. revert E. generalize (seq 0 n) (append_cell (W := W) []). intros l. induction l as [|i l IH]; intros cs E; [exact E|].
      cbn [run_each] in *. destruct (insert ps (res * (1 # 2)) rnd F i N c ((1 # 2) * len) cs) eqn:Ei; cbn [rbind] in E; try discriminate.
      rewrite (insert_mono ps res rnd rnd8 i F _ _ _ _ _ Ei fuel Hf). cbn [rbind]. apply IH. exact E. }
    exists (F + ht (OCell N sons)). intros fuel Hf. unfold build_tree. rewrite Hmono by lia. cbn [rbind]. rewrite Hc.
    pose proof (update_ok ps acc0 ap ac fin sb (OCell N sons) fuel (-1)%Z (c, len) (cells, repeat 0%Z n)) as HU. cbn [root] in HU.
    assert (Hr : ready ps (cells, repeat 0%Z n) (OCell N sons)).
    { split; [apply HW|]. split; [exact HFu|]. split; [apply HW|]. split.
      - apply (Permutation_NoDup (Permutation_sym HL)), seq_NoDup.
      - intros i Hi. cbn [snd]. rewrite repeat_length. apply (Permutation_in _ HL), in_seq in Hi. lia. }
    specialize (HU Hr). destruct (update n acc0 ap ac fin sb fuel N (-1) (c, len) (cells, repeat 0%Z n)) as [st| |]; [discriminate|discriminate|lia].
  Qed.

  (** The walk from the root, for any opening criterion. *)
  Lemma root_walk {A W} (acc0 : A) ap (ac : W -> A -> A) fin sb opens st sons b : thr ps acc0 ap ac fin sb st (OCell N sons) (-1)%Z b -> full (OCell N sons) -> length (snd st) = n ->
    forall fuel, walk n opens fuel st N = if fuel <? visits acc0 ap ac fin sb opens (OCell N sons) b then Running else Done (items acc0 ap ac fin sb opens (OCell N sons) b).
  Proof.
    intros HT HF Hl fuel. pose proof (walk_ok ps acc0 ap ac fin sb opens st Hl (OCell N sons) ltac:(discriminate) HF (-1)%Z b HT fuel) as H. cbn [root] in H. rewrite H. unfold continues.
    destruct (fuel <? visits acc0 ap ac fin sb opens (OCell N sons) b); [reflexivity|].
    match goal with |- rbind (walk _ _ ?f _ _) _ = _ => destruct f end; cbn [walk rbind]; change (-1 <? 0)%Z with true; cbn iota; cbn [rbind]; rewrite app_nil_r; reflexivity.
  Qed.
  Lemma items_hold {A W} (acc0 : A) ap (ac : W -> A -> A) fin sb opens (cells : list (cell W)) t : rep ps cells t -> full t -> forall b,
    exists ls, Forall2 (holds n cells) (items acc0 ap ac fin sb opens t b) ls /\ concat ls = map Z.of_nat (leaves t).
  Proof.
    induction t as [|i|id sons IH]; intros HR HF b; cbn [items leaves].
    - exists []. split; [constructor|reflexivity].
    - exists [[Z.of_nat i]]. split; [|reflexivity]. constructor; [|constructor]. apply holds_part. cbn [rep] in HR. lia.
    - destruct (opens (snd b) (pay acc0 ap ac fin sb (OCell id sons) b)).
      + rewrite <- (flat_kids leaves) by reflexivity. pose proof HR as (l & _ & _ & Hs).
        assert (G : forall ks, (forall k, In k ks -> k < 8) -> exists ls, Forall2 (holds n cells) (flat_map (fun k => items acc0 ap ac fin sb opens (sons k) (sb k b)) ks) ls /\ concat ls = map Z.of_nat (flat_map (fun k => leaves (sons k)) ks)).
        { induction ks as [|k ks IHk]; intros Hks; [exists []; split; [constructor|reflexivity]|].
          assert (Hk : k < 8) by (apply Hks; left; reflexivity). destruct (IH k (proj2 (Hs k Hk)) (proj2 HF k Hk) (sb k b)) as (l1 & A1 & B1).
          destruct (IHk (fun j Hj => Hks j (or_intror Hj))) as (l2 & A2 & B2). exists (l1 ++ l2). cbn [flat_map]. split; [apply Forall2_app; assumption|]. rewrite concat_app, B1, B2, map_app. reflexivity. }
        apply G. intros k Hk. apply kids_in in Hk. apply Hk.
      + exists [map Z.of_nat (leaves (OCell id sons))]. split; [|cbn; rewrite app_nil_r; reflexivity]. constructor; [|constructor].
        apply (holds_rep ps cells (OCell id sons)); auto. discriminate.
  Qed.
  Lemma items_all {A W} (acc0 : A) ap (ac : W -> A -> A) fin sb t : forall b, items acc0 ap ac fin sb (fun _ _ => true) t b = map Z.of_nat (leaves t).
  Proof.
    induction t as [|i|id sons IH]; intros b; cbn [items leaves]; [reflexivity|reflexivity|]. rewrite <- (flat_kids leaves) by reflexivity.
    generalize (kids sons). intros ks. induction ks as [|k ks IHk]; [reflexivity|]. cbn [flat_map]. rewrite IH, IHk, map_app. reflexivity.
  Qed.
  Lemma particles_in i : In i (particles n) <-> (0 <= i < N)%Z.
  Proof. unfold particles. rewrite in_map_iff. split; [intros (k & <- & Hk); apply in_seq in Hk; lia|]. intros H. exists (Z.to_nat i). split; [lia|]. apply in_seq. lia. Qed.
  Lemma leaves_particles sons : Permutation (leaves (OCell N sons)) (seq 0 n) -> Permutation (map Z.of_nat (leaves (OCell N sons))) (particles n).
  Proof. intros H. apply Permutation_map. exact H. Qed.

  Section Gravity.
    Variable pmass : Z -> Q.
    Local Notation gpay := (pay (0%Q, (0, 0, 0)%Q) (grav_part ps pmass) grav_cell grav_finish (grav_box res)).
    Local Notation pos := (position ps).
    Lemma vadd_coord j x y w : (coord j (vadd x y w) == coord j x + coord j y * w)%Q.
    Proof. destruct x as [[x0 x1] x2], y as [[y0 y1] y2]. destruct j as [|[|j]]; reflexivity. Qed.
    Lemma grav_pay_ok t : full t -> t <> OEmpty -> (forall i, In i (leaves t) -> (0 < pmass (Z.of_nat i))%Q) -> forall b, match t with OCell _ _ =>
      (snd (gpay t b) == total pmass (map Z.of_nat (leaves t)))%Q /\ centre_of_mass pos pmass (map Z.of_nat (leaves t)) (fst (gpay t b)) | _ => True end.
    Proof.
      induction t as [|i|id sons IH]; intros HF Hne Hm b; [exact I|exact I|].
      assert (G : forall ks acc, (forall k, In k ks -> k < 8 /\ sons k <> OEmpty) ->
        let acc' := gather (0%Q, (0, 0, 0)%Q) (grav_part ps pmass) grav_cell grav_finish (grav_box res) sons b ks acc in
        (fst acc' == fst acc + total pmass (map Z.of_nat (flat_map (fun k => leaves (sons k)) ks)))%Q /\
        forall j, (coord j (snd acc') == coord j (snd acc) + total (fun i => pmass i * coord j (pos i)) (map Z.of_nat (flat_map (fun k => leaves (sons k)) ks)))%Q).
      { induction ks as [|k ks IHk]; intros acc Hks.
        - cbn. split; intros; ring.
        - destruct (Hks k (or_introl eq_refl)) as [Hk Hkne].
          cbn [flat_map]. rewrite map_app.
          set (acc1 := match sons k with OEmpty => acc | OLeaf i => grav_part ps pmass (Z.of_nat i) acc | OCell _ _ => grav_cell (gpay (sons k) (grav_box res k b)) acc end).
          assert (H1 : (fst acc1 == fst acc + total pmass (map Z.of_nat (leaves (sons k))))%Q /\ forall j, (coord j (snd acc1) == coord j (snd acc) + total (fun i => pmass i * coord j (pos i)) (map Z.of_nat (leaves (sons k))))%Q).
          { unfold acc1. assert (Hmk : forall i, In i (leaves (sons k)) -> (0 < pmass (Z.of_nat i))%Q).
            { intros i Hi. apply Hm. cbn [leaves]. apply in_flat_map. exists k. split; [apply in8; exact Hk|exact Hi]. }
            specialize (IH k (proj2 HF k Hk) Hkne Hmk (grav_box res k b)).
            destruct (sons k) as [|i|id' s'] eqn:Es; [congruence| |].
            - unfold grav_part, total; cbn [leaves map fold_right fst snd]. split; [rewrite Qplus_0_r; reflexivity|]. intros j. rewrite vadd_coord, Qplus_0_r, (Qmult_comm (pmass _)). reflexivity.
            - destruct IH as [I1 I2]. unfold grav_cell. cbn [fst snd]. split; [rewrite I1; reflexivity|]. intros j. rewrite vadd_coord. rewrite <- (I2 j), I1. reflexivity. }
          change (gather (0%Q, (0, 0, 0)%Q) (grav_part ps pmass) grav_cell grav_finish (grav_box res) sons b (k :: ks) acc) with (gather (0%Q, (0, 0, 0)%Q) (grav_part ps pmass) grav_cell grav_finish (grav_box res) sons b ks acc1).
          destruct (IHk acc1 (fun j Hj => Hks j (or_intror Hj))) as [G1 G2]. destruct H1 as [H1 H2]. split.
          + rewrite G1, H1, total_app. ring.
          + intros j. rewrite G2, H2, total_app. ring. }
      specialize (G (kids sons) (0%Q, (0, 0, 0)%Q) (fun k => proj1 (kids_in sons k))). cbn zeta in G. rewrite (flat_kids leaves) in G by reflexivity.
      cbn [pay]. fold (gather (0%Q, (0, 0, 0)%Q) (grav_part ps pmass) grav_cell grav_finish (grav_box res) sons b (kids sons) (0%Q, (0, 0, 0)%Q)).
      destruct (gather (0%Q, (0, 0, 0)%Q) (grav_part ps pmass) grav_cell grav_finish (grav_box res) sons b (kids sons) (0%Q, (0, 0, 0)%Q)) as [M C]. cbn [fst snd] in G. destruct G as [G1 G2].
      unfold grav_finish. cbn [fst snd]. assert (EM : (M == total pmass (map Z.of_nat (leaves (OCell id sons))))%Q) by (rewrite G1; cbn [leaves]; ring).
      split; [exact EM|]. intros j. cbn [leaves] in *. 
      assert (Hpos : (0 < M)%Q).
      { rewrite EM. apply total_pos.
        - intros E. apply map_eq_nil in E. apply (leaves_nonempty (OCell id sons) HF Hne). exact E.
        - intros i Hi. apply in_map_iff in Hi as (i0 & <- & Hi). apply Hm. exact Hi. }
      rewrite <- EM. assert (EC : (coord j (vmap (fun c => (c / M)%Q) C) == coord j C / M)%Q) by (destruct C as [[C0 C1] C2]; destruct j as [|[|j]]; reflexivity).
      rewrite EC. specialize (G2 j). assert (E0 : (coord j (0, 0, 0)%Q == 0)%Q) by (destruct j as [|[|j]]; reflexivity). rewrite E0, Qplus_0_l in G2. rewrite <- G2. field. lra.
    Qed.
  End Gravity.

  Lemma geo_pay_ok t : forall b, match t with OCell _ _ =>
    pay 0%Z (fun _ a => (a + 1)%Z) (fun (w : vec * Z) a => (a + snd w)%Z) (fun a c => (c, a)) (geo_box res) t b = (fst b, Z.of_nat (length (leaves t))) | _ => True end.
  Proof. clear rnd8 rnd.
    induction t as [|i|id sons IH]; intros b; [exact I|exact I|]. cbn [pay]. f_equal. cbn [leaves]. rewrite <- (flat_kids leaves) by reflexivity.
    assert (G : forall ks acc, (forall k, In k ks -> sons k <> OEmpty) -> fold_left (fun acc k => match sons k with OEmpty => acc | OLeaf i => (acc + 1)%Z
      | OCell _ _ => (acc + snd (pay 0%Z (fun _ a => (a + 1)%Z) (fun (w : vec * Z) a => (a + snd w)%Z) (fun a c => (c, a)) (geo_box res) (sons k) (geo_box res k b)))%Z end) ks acc = (acc + Z.of_nat (length (flat_map (fun k => leaves (sons k)) ks)))%Z).
    { induction ks as [|k ks IHk]; intros acc Hks; cbn [fold_left flat_map]; [cbn; lia|]. rewrite app_length. rewrite IHk by (intros j Hj; apply Hks; right; exact Hj).
      specialize (IH k (geo_box res k b)). pose proof (Hks k (or_introl eq_refl)). destruct (sons k) as [|i|id' s']; [congruence|cbn [leaves length]; lia|]. rewrite IH. cbn [snd]. lia. }
    rewrite G; [lia|]. intros k Hk. apply kids_in in Hk. apply Hk.
  Qed.
End Final.
