(** Proofs for [psort]. *)
From Coq Require Import List ZArith Lia Sorting.Permutation Sorting.Sorted.
From Verif.Model Require Import ListMem Run PartitionSort.
From Verif.Spec Require Import PartitionSort.
From Verif.Proofs Require Import ListMemProofs.
Import ListNotations.
Local Open Scope Z_scope.

(** The element at position [p] (from 1). *)
Definition v (arr : list Z) (p : Z) : Z := nth (Z.to_nat (p - 1)) arr 0.
Notation len arr := (Z.of_nat (length arr)).

Lemma get_ok arr p : 1 <= p <= len arr -> get1 arr p = Done (v arr p).
Proof.
  intros Hp. unfold get1, zget, v. destruct (Z.ltb_spec (p - 1) 0); [lia|]. rewrite (nth_error_nth' arr 0) by lia. reflexivity.
Qed.
Lemma put_ok arr p x : 1 <= p <= len arr -> exists arr', put1 arr p x = Done arr' /\ length arr' = length arr /\
  (forall q, 1 <= q <= len arr -> v arr' q = if q =? p then x else v arr q) /\ Permutation (v arr p :: arr') (x :: arr).
Proof.
  intros Hp. unfold put1, zupd. destruct (Z.ltb_spec (p - 1) 0); [lia|]. destruct (upd_some arr (Z.to_nat (p - 1)) x ltac:(lia)) as [arr' E]. rewrite E. exists arr'. split; [reflexivity|]. split; [exact (upd_length _ _ _ _ E)|]. split.
  - intros q Hq. unfold v. destruct (Z.eqb_spec q p) as [->|Hne].
    + apply nth_error_nth. exact (upd_same _ _ _ _ E).
    + pose proof (upd_other _ _ _ (Z.to_nat (q - 1)) _ E ltac:(lia)) as H1. rewrite (nth_error_nth' arr 0) in H1 by lia. exact (nth_error_nth _ _ _ H1).
  - unfold v. revert arr' E. generalize (Z.to_nat (p - 1)). clear. induction arr as [|y arr IH]; intros n arr' E; [destruct n; discriminate|]. destruct n as [|n]; cbn in E.
    + injection E as <-. cbn. apply perm_swap.
    + destruct (upd arr n x) as [r|] eqn:Er; [|discriminate]. injection E as <-. cbn [nth]. rewrite perm_swap, (IH n r Er). apply perm_swap.
Qed.
Lemma swap_ok arr i j : 1 <= i <= len arr -> 1 <= j <= len arr -> exists arr', swap1 arr i j = Done arr' /\ length arr' = length arr /\
  (forall q, 1 <= q <= len arr -> v arr' q = if q =? j then v arr i else if q =? i then v arr j else v arr q) /\ Permutation arr' arr.
Proof.
  intros Hi Hj. unfold swap1. rewrite (get_ok arr i Hi), (get_ok arr j Hj). cbn [rbind]. destruct (put_ok arr i (v arr j) Hi) as (a1 & E1 & L1 & V1 & P1). rewrite E1. cbn [rbind].
  destruct (put_ok a1 j (v arr i) ltac:(rewrite L1; exact Hj)) as (a2 & E2 & L2 & V2 & P2). exists a2. split; [exact E2|]. split; [congruence|]. split.
  - intros q Hq. rewrite V2 by (rewrite L1; exact Hq). destruct (q =? j); [reflexivity|]. apply V1. exact Hq.
  - assert (Ej : v a1 j = v arr j) by (rewrite V1 by exact Hj; destruct (Z.eqb_spec j i) as [->|]; reflexivity). rewrite Ej in P2. apply (Permutation_cons_inv (a := v arr j)). rewrite P2. exact P1.
Qed.
Lemma order_ok arr i j : 1 <= i <= len arr -> 1 <= j <= len arr -> exists arr', order1 arr i j = Done arr' /\ length arr' = length arr /\
  (forall q, 1 <= q <= len arr -> q <> i -> q <> j -> v arr' q = v arr q) /\ v arr' i <= v arr' j /\
  ((v arr' i = v arr i /\ v arr' j = v arr j) \/ (v arr' i = v arr j /\ v arr' j = v arr i)) /\ Permutation arr' arr.
Proof.
  intros Hi Hj. unfold order1. rewrite (get_ok arr i Hi), (get_ok arr j Hj). cbn [rbind]. destruct (Z.ltb_spec (v arr j) (v arr i)) as [H|H].
  - destruct (swap_ok arr i j Hi Hj) as (a & E & L & V & P). exists a. split; [exact E|]. split; [exact L|].
    pose proof (V i Hi) as Vi. pose proof (V j Hj) as Vj. rewrite Z.eqb_refl in Vi, Vj. destruct (Z.eqb_spec i j) as [->|Hne]; [lia|].
    split; [intros q Hq H1 H2; rewrite (V q Hq); destruct (Z.eqb_spec q j), (Z.eqb_spec q i); congruence|]. split; [lia|]. split; [right; lia|exact P].
  - exists arr. split; [reflexivity|]. split; [reflexivity|]. split; [reflexivity|]. split; [exact H|]. split; [left; split; reflexivity|reflexivity].
Qed.

(** The scans: a bound where they stop at the latest is needed. *)
Lemma up_ok arr a j fuel : forall i, 0 <= i < j -> j <= len arr -> a <= v arr j -> j - i <= Z.of_nat fuel -> exists i', scan_up fuel arr a i = Done i' /\ i < i' <= j /\ a <= v arr i' /\ forall q, i < q < i' -> v arr q < a.
Proof.
  induction fuel as [|f IH]; intros i Hi Hj Ha Hf; [lia|]. cbn [scan_up]. rewrite get_ok by lia. cbn [rbind]. destruct (Z.ltb_spec (v arr (i + 1)) a) as [H|H].
  - assert (i + 1 <> j) by (intros <-; lia). destruct (IH (i + 1)) as (i' & E & H1 & H2 & H3); [lia..|]. exists i'. split; [exact E|]. split; [lia|]. split; [exact H2|]. intros q Hq. destruct (Z.eq_dec q (i + 1)) as [->|]; [exact H|apply H3; lia].
  - exists (i + 1). split; [reflexivity|]. split; [lia|]. split; [exact H|]. intros q Hq. lia.
Qed.
Lemma down_ok arr a i fuel : forall j, 1 <= i < j -> j <= len arr + 1 -> v arr i <= a -> j - i <= Z.of_nat fuel -> exists j', scan_down fuel arr a j = Done j' /\ i <= j' < j /\ v arr j' <= a /\ forall q, j' < q < j -> a < v arr q.
Proof.
  induction fuel as [|f IH]; intros j Hi Hj Ha Hf; [lia|]. cbn [scan_down]. rewrite get_ok by lia. cbn [rbind]. destruct (Z.ltb_spec a (v arr (j - 1))) as [H|H].
  - assert (j - 1 <> i) by (intros <-; lia). destruct (IH (j - 1)) as (j' & E & H1 & H2 & H3); [lia..|]. exists j'. split; [exact E|]. split; [lia|]. split; [exact H2|]. intros q Hq. destruct (Z.eq_dec q (j - 1)) as [->|]; [exact H|apply H3; lia].
  - exists (j - 1). split; [reflexivity|]. split; [lia|]. split; [exact H|]. intros q Hq. lia.
Qed.

(** [arr'] differs from [arr] only by a rearrangement of the positions from [l] to [r]. *)
Definition inside (l r : Z) (arr arr' : list Z) : Prop := length arr' = length arr /\ Permutation arr' arr /\
  (forall q, 1 <= q <= len arr -> ~ (l <= q <= r) -> v arr' q = v arr q) /\
  (forall q, 1 <= q <= len arr -> l <= q <= r -> exists p, l <= p <= r /\ 1 <= p <= len arr /\ v arr' q = v arr p).
Lemma inside_refl l r arr : inside l r arr arr.
Proof. split; [reflexivity|]. split; [reflexivity|]. split; [reflexivity|]. intros q Hq Hl. exists q. auto. Qed.
Lemma inside_trans l r a b c : inside l r a b -> inside l r b c -> inside l r a c.
Proof.
  intros (A1 & A2 & A3 & A4) (B1 & B2 & B3 & B4). split; [congruence|]. split; [rewrite B2; exact A2|]. rewrite A1 in *. split.
  - intros q Hq Ho. rewrite B3, A3; auto.
  - intros q Hq Hi. destruct (B4 q Hq Hi) as (p & P1 & P2 & P3). destruct (A4 p P2 P1) as (p' & Q1 & Q2 & Q3). exists p'. split; [exact Q1|]. split; [exact Q2|congruence].
Qed.
Lemma swap_inside l r arr i j arr' : l <= i <= r -> l <= j <= r -> 1 <= i <= len arr -> 1 <= j <= len arr -> length arr' = length arr -> Permutation arr' arr ->
  (forall q, 1 <= q <= len arr -> v arr' q = if q =? j then v arr i else if q =? i then v arr j else v arr q) -> inside l r arr arr'.
Proof.
  intros Hi Hj Bi Bj L P V. split; [exact L|]. split; [exact P|]. split.
  - intros q Hq Ho. rewrite V by exact Hq. destruct (Z.eqb_spec q j); [lia|]. destruct (Z.eqb_spec q i); [lia|reflexivity].
  - intros q Hq Hl. rewrite V by exact Hq. destruct (Z.eqb_spec q j); [exists i; auto|]. destruct (Z.eqb_spec q i); [exists j; auto|]. exists q. auto.
Qed.
Lemma order_inside l r arr i j arr' : l <= i <= r -> l <= j <= r -> 1 <= i <= len arr -> 1 <= j <= len arr -> length arr' = length arr -> Permutation arr' arr ->
  (forall q, 1 <= q <= len arr -> q <> i -> q <> j -> v arr' q = v arr q) -> ((v arr' i = v arr i /\ v arr' j = v arr j) \/ (v arr' i = v arr j /\ v arr' j = v arr i)) -> inside l r arr arr'.
Proof.
  intros Hi Hj Bi Bj L P V D. split; [exact L|]. split; [exact P|]. split.
  - intros q Hq Ho. apply V; [exact Hq|lia|lia].
  - intros q Hq Hl. destruct (Z.eq_dec q i) as [->|N1]; [destruct D as [[D _]|[D _]]; eauto 6|]. destruct (Z.eq_dec q j) as [->|N2]; [destruct D as [[_ D]|[_ D]]; eauto 6|]. exists q. auto.
Qed.

Lemma partition_ok (l ir a : Z) fuel : forall arr i j, 1 <= l -> ir <= len arr -> l + 1 <= i -> j <= ir -> (i < j \/ (l + 1 < i /\ i = j /\ j < ir)) ->
  (forall q, l + 1 <= q <= i -> v arr q <= a) -> (forall q, j <= q <= ir -> a <= v arr q) -> ir - i + 1 <= Z.of_nat fuel ->
  exists arr' i' j', partition1 fuel arr a i j = Done (arr', i', j') /\ inside (l + 1) ir arr arr' /\ l + 1 < i' <= ir /\ l + 1 <= j' < ir /\ j' < i' /\
    (forall q, l + 1 <= q < i' -> v arr' q <= a) /\ (forall q, j' < q <= ir -> a <= v arr' q).
Proof.
  induction fuel as [|f IH]; intros arr i j Hl Hir Hi Hj Hij HA HB Hf; [lia|]. cbn [partition1].
  assert (Hub : exists ub, i < ub /\ j <= ub <= ir /\ ub <= j + 1) by (destruct Hij as [H|H]; [exists j|exists (j + 1)]; lia). destruct Hub as (ub & U1 & U2 & U3).
  assert (Hlb : exists lb, lb < j /\ l + 1 <= lb <= i /\ i - 1 <= lb /\ j - lb <= ir - i + 1) by (destruct Hij as [H|H]; [exists i|exists (i - 1)]; lia). destruct Hlb as (lb & B1 & B2 & B3 & B4).
  destruct (up_ok arr a ub (S f) i) as (i' & E1 & I1 & I2 & I3); [lia|lia|apply HB; lia|lia|]. rewrite E1. cbn [rbind].
  destruct (down_ok arr a lb (S f) j) as (j' & E2 & J1 & J2 & J3); [lia|lia|apply HA; lia|lia|]. rewrite E2. cbn [rbind].
  destruct (Z.ltb_spec j' i') as [Hx|Hx].
  - exists arr, i', j'. split; [reflexivity|]. split; [apply inside_refl|]. split; [lia|]. split; [lia|]. split; [exact Hx|]. split.
    + intros q Hq. destruct (Z_le_gt_dec q i) as [H|H]; [apply HA; lia|]. specialize (I3 q ltac:(lia)). lia.
    + intros q Hq. destruct (Z_le_gt_dec j q) as [H|H]; [apply HB; lia|]. specialize (J3 q ltac:(lia)). lia.
  - destruct (swap_ok arr i' j') as (a1 & E3 & L & V & P); [lia|lia|]. rewrite E3. cbn [rbind].
    destruct (IH a1 i' j') as (a2 & i2 & j2 & E & In & R); [lia|lia|lia|lia|lia| | |lia|].
    + intros q Hq. rewrite V by lia. destruct (Z.eqb_spec q j') as [->|N1]; [replace i' with j' in * by lia; exact J2|]. destruct (Z.eqb_spec q i') as [->|N2]; [exact J2|]. destruct (Z_le_gt_dec q i) as [H|H]; [apply HA; lia|]. specialize (I3 q ltac:(lia)). lia.
    + intros q Hq. rewrite V by lia. destruct (Z.eqb_spec q j') as [->|N1]; [exact I2|]. destruct (Z.eqb_spec q i') as [->|N2]; [lia|]. destruct (Z_le_gt_dec j q) as [H|H]; [apply HB; lia|]. specialize (J3 q ltac:(lia)). lia.
    + exists a2, i2, j2. split; [exact E|]. split; [|exact R]. eapply inside_trans; [|exact In]. eapply (swap_inside _ _ arr i' j'); try eassumption; lia.
Qed.

(** Every element up to [c] is at most every element after it. *)
Definition cut (c : Z) (arr : list Z) : Prop := forall p q, 1 <= p <= c -> c < q <= len arr -> v arr p <= v arr q.
Lemma cut_inside l r arr arr' c : inside l r arr arr' -> cut c arr -> (c < l \/ r <= c) -> cut c arr'.
Proof.
  intros (L & _ & V1 & V2) H Hc p q Hp Hq. rewrite L in Hq.
  assert (Gp : exists p', 1 <= p' <= c /\ v arr' p = v arr p').
  { destruct (Z_le_gt_dec l p) as [A|A], (Z_le_gt_dec p r) as [B|B]; [|exists p; split; [lia|apply V1; lia]..]. destruct (V2 p ltac:(lia) ltac:(lia)) as (p' & P1 & P2 & P3). exists p'. split; [lia|exact P3]. }
  assert (Gq : exists q', c < q' <= len arr /\ v arr' q = v arr q').
  { destruct (Z_le_gt_dec l q) as [A|A], (Z_le_gt_dec q r) as [B|B]; [|exists q; split; [lia|apply V1; lia]..]. destruct (V2 q ltac:(lia) ltac:(lia)) as (q' & P1 & P2 & P3). exists q'. split; [lia|exact P3]. }
  destruct Gp as (p' & Hp' & ->), Gq as (q' & Hq' & ->). apply H; assumption.
Qed.
(** Cuts at both ends of a range and one inside the range make a cut of the array. *)
Lemma cut_within l r arr c : l - 1 <= c <= r -> cut (l - 1) arr -> cut r arr -> (forall p q, l <= p <= c -> c < q <= r -> v arr p <= v arr q) -> cut c arr.
Proof.
  intros Hc H1 H2 H p q Hp Hq. destruct (Z_le_gt_dec l p) as [A|A]; [|apply H1; lia]. destruct (Z_le_gt_dec q r) as [B|B]; [|apply H2; lia]. apply H; lia.
Qed.
Lemma inside_wider l r l' r' a b : l' <= l -> r <= r' -> inside l r a b -> inside l' r' a b.
Proof.
  intros Hl Hr (A1 & A2 & A3 & A4). split; [exact A1|]. split; [exact A2|]. split.
  - intros q Hq Ho. apply A3; [exact Hq|lia].
  - intros q Hq Hi. destruct (Z_le_gt_dec l q) as [A|A], (Z_le_gt_dec q r) as [B|B]; [|exists q; split; [lia|]; split; [exact Hq|apply A3; [exact Hq|lia]]..]. destruct (A4 q Hq ltac:(lia)) as (p & P1 & P2 & P3). exists p. split; [lia|]. split; assumption.
Qed.

(** Where [k] is: in the range still open, or already in its place. *)
Definition place (k l ir : Z) (arr : list Z) : Prop := l <= k <= ir \/ (cut (k - 1) arr /\ cut k arr /\ ~ (l <= k <= ir)).

Lemma loop_ok k fuel : forall arr l ir, 1 <= k <= len arr -> 1 <= l -> ir <= len arr -> cut (l - 1) arr -> cut ir arr -> place k l ir arr ->
  1 <= Z.of_nat fuel -> ir - l + 1 <= Z.of_nat fuel ->
  exists arr', psort_loop fuel k arr l ir = Done (v arr' k, arr') /\ Permutation arr' arr /\ length arr' = length arr /\ cut (k - 1) arr' /\ cut k arr'.
Proof.
  induction fuel as [|f IH]; intros arr l ir Hk Hl Hir C1 C2 Hin Hf Hf2; [lia|]. cbn [psort_loop]. destruct (Z.leb_spec ir (l + 1)) as [He|He].
  - destruct (Z.eqb_spec ir (l + 1)) as [Ee|Ee].
    + rewrite !get_ok by lia. cbn [rbind]. destruct (Z.ltb_spec (v arr ir) (v arr l)) as [Hs|Hs].
      * destruct (swap_ok arr l ir) as (a1 & E & L & V & P); [lia|lia|]. rewrite E. cbn [rbind]. rewrite get_ok by lia. cbn [rbind]. exists a1. split; [reflexivity|]. split; [exact P|]. split; [exact L|].
        assert (In : inside l ir arr a1) by (apply (swap_inside _ _ arr l ir); try assumption; lia).
        pose proof (cut_inside _ _ _ _ _ In C1 ltac:(lia)) as D1. pose proof (cut_inside _ _ _ _ _ In C2 ltac:(lia)) as D2.
        assert (D3 : cut l a1). { apply (cut_within l ir); [lia|exact D1|exact D2|]. intros p q Hp Hq. assert (p = l) as -> by lia. assert (q = ir) as -> by lia. rewrite !V by lia. rewrite Z.eqb_refl. destruct (Z.eqb_spec l ir); [lia|]. rewrite Z.eqb_refl. lia. }
        destruct Hin as [Hin|(K1 & K2 & Hin)].
        -- assert (k = l \/ k = ir) as [->| ->] by lia; [split; assumption|]. split; [replace (ir - 1) with l by lia; exact D3|exact D2].
        -- split; [apply (cut_inside _ _ _ _ _ In K1 ltac:(lia))|apply (cut_inside _ _ _ _ _ In K2 ltac:(lia))].
      * cbn [rbind]. rewrite get_ok by lia. cbn [rbind]. exists arr. split; [reflexivity|]. split; [reflexivity|]. split; [reflexivity|].
        assert (D3 : cut l arr). { apply (cut_within l ir); [lia|exact C1|exact C2|]. intros p q Hp Hq. assert (p = l) as -> by lia. assert (q = ir) as -> by lia. exact Hs. }
        destruct Hin as [Hin|(K1 & K2 & Hin)]; [|split; assumption]. assert (k = l \/ k = ir) as [->| ->] by lia; [split; assumption|]. split; [replace (ir - 1) with l by lia; exact D3|exact C2].
    + cbn [rbind]. rewrite get_ok by lia. cbn [rbind]. exists arr. split; [reflexivity|]. split; [reflexivity|]. split; [reflexivity|].
      destruct Hin as [Hin|(K1 & K2 & Hin)]; [|split; assumption]. assert (k = l) as -> by lia. assert (ir = l) as -> by lia. split; assumption.
  - assert (Hm : l + 1 <= Z.shiftr (l + ir) 1 <= ir) by (rewrite Z.shiftr_div_pow2 by lia; change (2 ^ 1) with 2; pose proof (Z.div_mod (l + ir) 2 ltac:(lia)); pose proof (Z.mod_pos_bound (l + ir) 2 ltac:(lia)); lia).
    set (mid := Z.shiftr (l + ir) 1) in *. clearbody mid.
    destruct (swap_ok arr mid (l + 1)) as (a1 & E1 & L1 & V1 & P1); [lia|lia|]. rewrite E1. cbn [rbind].
    assert (I1 : inside l ir arr a1) by (apply (swap_inside l ir arr mid (l + 1) a1); try assumption; lia). clear E1 V1 P1.
    destruct (order_ok a1 (l + 1) ir) as (a2 & E2 & L2 & V2 & O2 & D2 & P2); [lia|lia|]. rewrite E2. cbn [rbind].
    assert (I2 : inside l ir a1 a2) by (apply (order_inside l ir a1 (l + 1) ir a2); try assumption; lia). clear E2 V2 P2 D2.
    destruct (order_ok a2 l ir) as (a3 & E3 & L3 & V3 & O3 & D3 & P3); [lia|lia|]. rewrite E3. cbn [rbind].
    assert (I3 : inside l ir a2 a3) by (apply (order_inside l ir a2 l ir a3); try assumption; lia).
    assert (M3 : v a3 (l + 1) <= v a3 ir) by (rewrite (V3 (l + 1)) by lia; lia). clear E3 V3 P3 D3 O2.
    destruct (order_ok a3 (l + 1) l) as (a4 & E4 & L4 & V4 & O4 & D4 & P4); [lia|lia|]. rewrite E4. cbn [rbind].
    assert (I4 : inside l ir a3 a4) by (apply (order_inside l ir a3 (l + 1) l a4); try assumption; lia).
    assert (Hmed : v a4 (l + 1) <= v a4 l <= v a4 ir) by (split; [exact O4|]; rewrite (V4 ir) by lia; lia). clear E4 V4 P4 D4 O4 O3 M3.
    rewrite get_ok by lia. cbn [rbind].
    assert (In4 : inside l ir arr a4) by (exact (inside_trans _ _ _ _ _ (inside_trans _ _ _ _ _ (inside_trans _ _ _ _ _ I1 I2) I3) I4)).
    assert (Hn : len a4 = len arr) by lia. clear L1 L2 L3 L4. remember (v a4 l) as a eqn:Ha.
    destruct (partition_ok l ir a (S f) a4 (l + 1) ir) as (a5 & i & j & E5 & In5 & Hi & Hj & Hji & HA & HB); [lia|lia|lia|lia|lia| | |lia|].
    { intros q Hq. assert (q = l + 1) as -> by lia. lia. }
    { intros q Hq. assert (q = ir) as -> by lia. lia. }
    rewrite E5. cbn [rbind]. pose proof (proj1 In5) as L5. rewrite get_ok by lia. cbn [rbind].
    assert (Hal : v a5 l = a) by (rewrite Ha; apply (proj1 (proj2 (proj2 In5))); lia).
    destruct (put_ok a5 l (v a5 j)) as (a6 & E6 & L6 & V6 & P6); [lia|]. rewrite E6. cbn [rbind].
    destruct (put_ok a6 j a) as (a7 & E7 & L7 & V7 & P7); [lia|]. rewrite E7. cbn [rbind].
    assert (W : forall q, 1 <= q <= len a5 -> v a7 q = if q =? j then v a5 l else if q =? l then v a5 j else v a5 q).
    { intros q Hq. rewrite V7, Hal by lia. destruct (q =? j); [reflexivity|]. apply V6. exact Hq. }
    assert (P : Permutation a7 a5).
    { assert (Ej : v a6 j = v a5 j) by (rewrite V6 by lia; destruct (Z.eqb_spec j l); reflexivity). rewrite Ej in P7. rewrite Hal in P6. apply (Permutation_cons_inv (a := v a5 j)). rewrite P7. exact P6. }
    assert (In : inside l ir arr a7).
    { eapply inside_trans; [exact In4|]. eapply inside_trans; [apply (inside_wider (l + 1) ir); [lia|lia|exact In5]|]. apply (swap_inside l ir a5 l j a7); try assumption; try lia. }
    assert (L : length a7 = length arr) by (exact (proj1 In)).
    pose proof (cut_inside _ _ _ _ _ In C1 ltac:(lia)) as F1. pose proof (cut_inside _ _ _ _ _ In C2 ltac:(lia)) as F2.
    clear P6 P7 E5 E6 E7 V6 V7. assert (Hn7 : len a7 = len arr) by lia. assert (Hn5 : len a5 = len arr) by lia. clear L L5 L6 L7 Hn.
    assert (LO : forall q, l <= q < i -> v a7 q <= a).
    { intros q Hq. rewrite W by lia. destruct (Z.eqb_spec q j); [lia|]. destruct (Z.eqb_spec q l); [apply HA; lia|apply HA; lia]. }
    assert (HI : forall q, j <= q <= ir -> a <= v a7 q).
    { intros q Hq. rewrite W by lia. destruct (Z.eqb_spec q j); [lia|]. destruct (Z.eqb_spec q l); [lia|apply HB; lia]. }
    assert (G : forall c, j - 1 <= c <= i - 1 -> cut c a7).
    { intros c Hc. apply (cut_within l ir); [lia|exact F1|exact F2|]. intros p q Hp Hq. transitivity a; [apply LO; lia|apply HI; lia]. }
    destruct (IH a7 (if j <=? k then i else l) (if k <=? j then j - 1 else ir)) as (a8 & E8 & Q1 & Q2 & Q3); [lia|destruct (j <=? k); lia|destruct (k <=? j); lia|destruct (j <=? k); [apply G; lia|exact F1]|destruct (k <=? j); [apply G; lia|exact F2]| |lia|destruct (Z.leb_spec j k), (Z.leb_spec k j); lia|].
    + destruct Hin as [Hin|(K1 & K2 & Hin)].
      * destruct (Z.leb_spec j k) as [A|A], (Z.leb_spec k j) as [B|B]; try lia.
        -- right. split; [apply G; lia|]. split; [apply G; lia|lia].
        -- destruct (Z_le_gt_dec i k) as [H|H]; [left; lia|]. right. split; [apply G; lia|]. split; [apply G; lia|lia].
        -- left. lia.
      * right. split; [apply (cut_inside _ _ _ _ _ In K1 ltac:(lia))|]. split; [apply (cut_inside _ _ _ _ _ In K2 ltac:(lia))|]. destruct (Z.leb_spec j k), (Z.leb_spec k j); lia.
    + exists a8. split; [exact E8|]. split; [rewrite Q1; exact (proj1 (proj2 In))|]. split; [lia|exact Q3].
Qed.

Theorem psort_ok k arr fuel : (1 <= k <= length arr)%nat -> (length arr <= fuel)%nat ->
  exists x arr', psort fuel (Z.of_nat k) (len arr) arr = Done (x, arr') /\ Permutation arr' arr /\ partitioned k x arr'.
Proof.
  intros Hk Hf. unfold psort. destruct (loop_ok (Z.of_nat k) fuel arr 1 (len arr)) as (arr' & E & P & L & K1 & K2); [lia|lia|lia|intros p q; lia|intros p q; lia|left; lia|lia|lia|].
  exists (v arr' (Z.of_nat k)), arr'. split; [exact E|]. split; [exact P|].
  destruct (nth_split arr' 0 (n := (k - 1)%nat) ltac:(lia)) as (pre & post & Es & Ep).
  assert (Ev : v arr' (Z.of_nat k) = nth (k - 1) arr' 0) by (unfold v; f_equal; lia).
  exists pre, post. rewrite Ev. split; [exact Es|]. split; [lia|]. rewrite <- Ev. split; apply Forall_forall; intros x Hx; destruct (In_nth _ _ 0 Hx) as (n & Hn & <-).
  - assert (Ex : nth n pre 0 = v arr' (Z.of_nat n + 1)). { unfold v. rewrite Es, app_nth1 by lia. f_equal. lia. }
    rewrite Ex. apply K1; lia.
  - assert (Lp : length arr' = (length pre + S (length post))%nat) by (rewrite Es at 1; rewrite app_length; reflexivity).
    assert (Ex : nth n post 0 = v arr' (Z.of_nat (k + n) + 1)). { unfold v. rewrite Es, app_nth2 by lia. replace (Z.to_nat (Z.of_nat (k + n) + 1 - 1) - length pre)%nat with (S n) by lia. reflexivity. }
    rewrite Ex. apply K2; lia.
Qed.

(** Two lists in increasing order with the same elements are the same. *)
Lemma increasing_unique l : forall m, Permutation l m -> StronglySorted Z.le l -> StronglySorted Z.le m -> l = m.
Proof.
  induction l as [|x l IH]; intros m P Hl Hm; [symmetry; apply Permutation_nil; exact P|]. destruct m as [|y m]; [symmetry in P; apply Permutation_nil in P; discriminate|].
  apply StronglySorted_inv in Hl as [Hl Fx]. apply StronglySorted_inv in Hm as [Hm Fy]. rewrite Forall_forall in Fx, Fy.
  assert (x = y) as ->.
  { pose proof (Permutation_in _ P (or_introl eq_refl)) as A. pose proof (Permutation_in _ (Permutation_sym P) (or_introl eq_refl)) as B. destruct A as [A|A]; [congruence|]. destruct B as [B|B]; [congruence|]. specialize (Fx _ B). specialize (Fy _ A). lia. }
  f_equal. apply IH; [exact (Permutation_cons_inv P)|exact Hl|exact Hm].
Qed.
Lemma increasing_app l m x : StronglySorted Z.le l -> StronglySorted Z.le m -> Forall (fun y => y <= x) l -> Forall (fun y => x <= y) m -> StronglySorted Z.le (l ++ x :: m).
Proof.
  intros Hl Hm Fl Fm. induction Hl as [|y l Hl IH Hy]; cbn; [constructor; assumption|]. apply Forall_cons_iff in Fl as [Fy Fl]. constructor; [exact (IH Fl)|]. apply Forall_app. split; [exact Hy|]. constructor; [exact Fy|]. rewrite Forall_forall in *. intros z Hz. specialize (Fm z Hz). lia.
Qed.
Lemma increasing_exists (l : list Z) : exists m, Permutation m l /\ StronglySorted Z.le m.
Proof.
  induction l as [|x l (m & P & H)]; [exists []; split; constructor|].
  assert (G : exists pre post, m = pre ++ post /\ Forall (fun y => y <= x) pre /\ Forall (fun y => x <= y) post).
  { clear P. induction H as [|y m H (pre & post & -> & F1 & F2) Hy]; [exists [], []; repeat constructor|]. destruct (Z_le_gt_dec y x) as [A|A].
    - exists (y :: pre), post. split; [reflexivity|]. split; [constructor; assumption|exact F2].
    - exists [], (y :: pre ++ post). split; [reflexivity|]. split; [constructor|]. constructor; [lia|]. eapply Forall_impl; [|exact Hy]. cbn. intros z. lia. }
  destruct G as (pre & post & -> & F1 & F2). exists (pre ++ x :: post). split; [rewrite <- Permutation_middle, P; reflexivity|].
  assert (S1 : StronglySorted Z.le pre /\ StronglySorted Z.le post).
  { clear -H. induction pre as [|y pre IH]; [split; [constructor|exact H]|]. cbn in H. apply StronglySorted_inv in H as [H F]. destruct (IH H) as [A B]. apply Forall_app in F as [F _]. split; [constructor; assumption|exact B]. }
  destruct S1. apply increasing_app; assumption.
Qed.
(** The element at the partition is the k-th smallest. *)
Lemma partitioned_kth k x arr s : partitioned k x arr -> Permutation s arr -> StronglySorted Z.le s -> nth_error s (k - 1) = Some x.
Proof.
  intros (pre & post & -> & <- & F1 & F2) P H. destruct (increasing_exists pre) as (pre' & P1 & S1). destruct (increasing_exists post) as (post' & P2 & S2).
  assert (s = pre' ++ x :: post') as ->.
  { apply increasing_unique; [rewrite P, P1, P2; reflexivity|exact H|]. apply increasing_app; [exact S1|exact S2|rewrite P1; exact F1|rewrite P2; exact F2]. }
  rewrite <- (Permutation_length P1). replace (S (length pre') - 1)%nat with (length pre' + 0)%nat by lia. rewrite nth_error_app2 by lia. replace (length pre' + 0 - length pre')%nat with 0%nat by lia. reflexivity.
Qed.
