(** Termination of the insertions, the enclosing cube and the tree built from all particles. *)
From Coq Require Import List ZArith QArith Qround Qfield Bool Lia Lqa Sorting.Permutation.
From Verif.Model Require Import ListMem Run Mymath Tree.
From Verif.Spec Require Import Basic Octree.
From Verif.Proofs Require Import ListMemProofs ListExtra OctProofs TreeInsert.
Import ListNotations.
Local Open Scope nat_scope.

Lemma dec_gtb {A} (c x : Q) (a b : A) : (if Qlt_le_dec c x then a else b) = if Qgtb x c then a else b.
Proof.
  destruct (Qlt_le_dec c x) as [H|H].
  - apply Qgtb_spec in H. rewrite H. reflexivity.
  - apply Qgtb_false in H. rewrite H. reflexivity.
Qed.
Lemma octant_son c x : octant c x = son_of c x.
Proof. destruct c as [[c0 c1] c2], x as [[x0 x1] x2]. unfold octant. cbn [coord son_of]. rewrite !dec_gtb. reflexivity. Qed.
Lemma subdivide_son c h x : subdivide c h x = son_center (h * (1 # 2)) c x.
Proof. destruct c as [[c0 c1] c2], x as [[x0 x1] x2]. unfold subdivide, son_center, vmap2. cbn [coord]. rewrite !dec_gtb. reflexivity. Qed.
Lemma address_S k c h x : address (S k) c h x = address k (son_center (h * (1 # 2)) c x) (h * (1 # 2))%Q x.
Proof. cbn [address]. rewrite subdivide_son. reflexivity. Qed.
Lemma address_0 c h x : address 0 c h x = son_of c x.
Proof. apply octant_son. Qed.

Section Stops.
  Context {W : Type}.
  Variable ps : list vec.
  Local Notation N := (Z.of_nat (length ps)).
  Variable res : Q.
  Hypothesis res_pos : (0 < res)%Q.
  Variable rnd : nat -> nat.
  Hypothesis rnd8 : forall i, rnd i < 8.
  Implicit Types cells : list (cell W).
  Local Notation res_half := (res * (1 # 2))%Q.
  Local Notation ins := (insert ps res_half rnd).

  Lemma lone_at k s : lone k s k = OLeaf s.
  Proof. unfold lone, set_at. rewrite Nat.eqb_refl. reflexivity. Qed.
  Lemma lone_other k s j : j <> k -> lone k s j = OEmpty.
  Proof. intros H. unfold lone, set_at. destruct (Nat.eqb_spec j k); [congruence|reflexivity]. Qed.

  (** One turn in a cell with a single particle. *)
  Lemma lone_step cells node k s i x c h fuel : wf ps cells (OCell node (lone k s)) -> k < 8 -> nth_error ps i = Some x ->
    (exists cells', ins (S fuel) i node c h cells = Done cells') \/
    (son_of c x = k /\ exists cells2 k', k' < 8 /\ wf ps cells2 (OCell (N + Z.of_nat (length cells)) (lone k' s)) /\ length cells2 = S (length cells) /\
       ((h * (1 # 2) < res_half)%Q -> k' = rnd (S (length cells))) /\
       ins (S fuel) i node c h cells = ins fuel i (N + Z.of_nat (length cells))%Z (son_center (h * (1 # 2)) c x) (h * (1 # 2))%Q cells2).
  Proof.
    intros HW Hk Hx. cbn [insert]. rewrite Hx. set (sub := son_of c x). assert (Hsub : sub < 8) by apply son_of_lt.
    assert (Hi : i < length ps) by (apply nth_error_Some; congruence).
    rewrite (get_son_rep ps cells node _ sub (proj1 HW) Hsub). destruct (Nat.eq_dec sub k) as [->|Hne].
    - right. split; [reflexivity|]. rewrite lone_at. cbn [root].
      assert (Hs : s < length ps). { destruct (proj1 HW) as (l & _ & _ & Hl). pose proof (proj2 (Hl k Hk)) as H. rewrite lone_at in H. exact H. }
      destruct (Z.ltb_spec (Z.of_nat s) 0) as [|_]; [lia|]. destruct (Z.ltb_spec (Z.of_nat s) N) as [_|]; [|lia].
      rewrite zget_nat by lia. rewrite Nat2Z.id. destruct (nth_error ps s) as [xs|] eqn:Exs; [|apply nth_error_None in Exs; lia].
      set (k' := if Qgtb res_half (h * (1 # 2)) then rnd (S (length cells)) else son_of (son_center (h * (1 # 2)) c x) xs).
      assert (Hk' : k' < 8). { unfold k'. destruct (Qgtb res_half (h * (1 # 2))); [apply rnd8|apply son_of_lt]. }
      destruct (split_ok ps rnd rnd8 cells node (lone k s) k s k' HW Hk Hk' (lone_at k s)) as (cells1 & cells2 & E1 & E2 & L2 & W1 & W2 & HF2).
      exists cells2, k'. split; [exact Hk'|]. split; [exact W1|]. split; [exact L2|]. split.
      + intros Hlt. unfold k'. apply Qgtb_spec in Hlt. rewrite Hlt. reflexivity.
      + rewrite E1. cbn [of_opt rbind]. rewrite E2. reflexivity.
    - left. rewrite lone_other by exact Hne. cbn [root]. change ((-1 <? 0)%Z) with true. cbn iota.
      destruct (put_ok ps rnd rnd8 cells node (lone k s) sub i HW Hsub Hi (lone_other _ _ _ Hne)) as (cells' & E & _). rewrite E. eexists. reflexivity.
  Qed.

  Lemma deep_stops i x s : nth_error ps i = Some x -> forall m cells node k c h, wf ps cells (OCell node (lone k s)) -> k < 8 ->
    (0 <= h)%Q -> (h < res_half)%Q -> (exists j, j <= m /\ rnd (S (length cells) + j) <> address (1 + j) c h x) ->
    forall fuel, m + 2 <= fuel -> ins fuel i node c h cells <> Running.
  Proof.
    intros Hx. induction m as [|m IH]; intros cells node k c h HW Hk H0 Hh (j & Hj & Hne) fuel Hf; (destruct fuel as [|fuel]; [lia|]).
    - assert (j = 0) by lia. subst j. rewrite Nat.add_0_r in Hne. cbn [Nat.add] in Hne. rewrite address_S, address_0 in Hne.
      destruct (lone_step cells node k s i x c h fuel HW Hk Hx) as [[cells' E]|(_ & cells2 & k' & Hk' & W2 & L2 & Hr & E)]; rewrite E; [discriminate|].
      destruct fuel as [|fuel]; [lia|].
      assert (h * (1 # 2) < res_half)%Q as Hh2 by lra. specialize (Hr Hh2).
      destruct (lone_step cells2 _ k' s i x (son_center (h * (1 # 2)) c x) (h * (1 # 2))%Q fuel W2 Hk' Hx) as [[cells' E']|(Heq & _)]; [rewrite E'; discriminate|]. congruence.
    - destruct (lone_step cells node k s i x c h fuel HW Hk Hx) as [[cells' E]|(_ & cells2 & k' & Hk' & W2 & L2 & Hr & E)]; rewrite E; [discriminate|].
      assert (h * (1 # 2) < res_half)%Q as Hh2 by lra. specialize (Hr Hh2).
      destruct (Nat.eq_dec (son_of (son_center (h * (1 # 2)) c x) x) k') as [Heq|Hneq].
      + apply (IH cells2 _ k'); auto; [lra| |lia]. destruct j as [|j].
        * exfalso. apply Hne. rewrite Nat.add_0_r, <- Hr. cbn [Nat.add]. rewrite address_S, address_0. congruence.
        * exists j. split; [lia|]. rewrite L2. cbn [Nat.add] in Hne |- *. rewrite address_S in Hne. rewrite <- plus_n_Sm in Hne. exact Hne.
      + destruct fuel as [|fuel]; [lia|].
        destruct (lone_step cells2 _ k' s i x (son_center (h * (1 # 2)) c x) (h * (1 # 2))%Q fuel W2 Hk' Hx) as [[cells' E']|(Heq & _)]; [rewrite E'; discriminate|]. congruence.
  Qed.

  Definition follows_not x c h : Prop := forall d a, exists k, rnd (a + k) <> address (d + k) c h x.
  Lemma follows_not_step x c h : follows_not x c h -> follows_not x (son_center (h * (1 # 2)) c x) (h * (1 # 2))%Q.
  Proof. intros H d a. destruct (H (S d) a) as (k & Hk). exists k. cbn [Nat.add] in Hk. rewrite address_S in Hk. exact Hk. Qed.

  Lemma lone_stops i x s : nth_error ps i = Some x -> forall n cells node k c h, wf ps cells (OCell node (lone k s)) -> k < 8 ->
    (0 <= h)%Q -> (h < inject_Z (Z.of_nat (S n)) * res_half)%Q -> follows_not x c h ->
    exists F, forall fuel, F <= fuel -> ins fuel i node c h cells <> Running.
  Proof.
    intros Hx. induction n as [|n IH]; intros cells node k c h HW Hk H0 Hh Hfn.
    - destruct (Hfn 1 (S (length cells))) as (m & Hm). exists (m + 2). apply (deep_stops i x s Hx m cells node k); auto.
      + change (inject_Z (Z.of_nat 1)) with 1%Q in Hh. lra.
      + exists m. split; [lia|exact Hm].
    - assert (h * (1 # 2) < inject_Z (Z.of_nat (S n)) * res_half)%Q as Hh2.
      { rewrite Nat2Z.inj_succ in Hh. unfold Z.succ in Hh. rewrite inject_Z_plus in Hh. change (inject_Z 1) with 1%Q in Hh.
        assert (1 <= inject_Z (Z.of_nat (S n)))%Q. { change 1%Q with (inject_Z 1). rewrite <- Zle_Qle. lia. }
        generalize dependent (inject_Z (Z.of_nat (S n))). intros q _ Hh H1. nra. }
      destruct (lone_step cells node k s i x c h 0 HW Hk Hx) as [[cells' E]|(Heq & cells2 & k' & Hk' & W2 & L2 & Hr & _)].
      + exists 1. intros fuel Hf. destruct fuel as [|fuel]; [lia|].
        destruct (lone_step cells node k s i x c h fuel HW Hk Hx) as [[cells2 E2]|(Heq & _)]; [rewrite E2; discriminate|].
        cbn [insert] in E. rewrite Hx, (get_son_rep ps cells node _ _ (proj1 HW) (son_of_lt c x)), Heq, lone_at in E. cbn [root] in E.
        assert (Hs : s < length ps). { destruct (proj1 HW) as (l & _ & _ & Hl). pose proof (proj2 (Hl k Hk)) as H. rewrite lone_at in H. exact H. }
        destruct (Z.ltb_spec (Z.of_nat s) 0) as [|_]; [lia|]. destruct (Z.ltb_spec (Z.of_nat s) N) as [_|]; [|lia].
        destruct (zget ps (Z.of_nat s)); [|discriminate].
        match type of E with rbind ?r _ = _ => destruct r; cbn [rbind] in E; try discriminate end.
        match type of E with rbind ?r _ = _ => destruct r; cbn [rbind] in E; discriminate end.
      + assert (Hall : forall cells2 k', k' < 8 -> wf ps cells2 (OCell (N + Z.of_nat (length cells)) (lone k' s)) ->
          exists F, forall fuel, F <= fuel -> ins fuel i (N + Z.of_nat (length cells))%Z (son_center (h * (1 # 2)) c x) (h * (1 # 2))%Q cells2 <> Running).
        { intros cs kk Hkk Hcs. apply (IH cs _ kk); auto; [lra|apply follows_not_step; exact Hfn]. }
        clear cells2 k' Hk' W2 L2 Hr.
        (* the turn is the same for every fuel *)
        assert (Hs : s < length ps). { destruct (proj1 HW) as (l & _ & _ & Hl). pose proof (proj2 (Hl k Hk)) as H. rewrite lone_at in H. exact H. }
        assert (Exs : exists xs, nth_error ps s = Some xs). { destruct (nth_error ps s) eqn:E; [eauto|]. apply nth_error_None in E. lia. }
        destruct Exs as [xs Exs].
        set (k' := if Qgtb res_half (h * (1 # 2)) then rnd (S (length cells)) else son_of (son_center (h * (1 # 2)) c x) xs).
        assert (Hk' : k' < 8). { unfold k'. destruct (Qgtb res_half (h * (1 # 2))); [apply rnd8|apply son_of_lt]. }
        destruct (split_ok ps rnd rnd8 cells node (lone k s) k s k' HW Hk Hk' (lone_at k s)) as (cells1 & cells2 & E1 & E2 & L2 & W1 & W2 & HF2).
        destruct (Hall cells2 k' Hk' W1) as (F & HF). exists (S F). intros fuel Hf. destruct fuel as [|fuel]; [lia|].
        cbn [insert]. rewrite Hx, (get_son_rep ps cells node _ _ (proj1 HW) (son_of_lt c x)), Heq, lone_at. cbn [root].
        destruct (Z.ltb_spec (Z.of_nat s) 0) as [|_]; [lia|]. destruct (Z.ltb_spec (Z.of_nat s) N) as [_|]; [|lia].
        rewrite zget_nat by lia. rewrite Nat2Z.id, Exs. fold k'. rewrite E1. cbn [of_opt rbind]. rewrite E2. cbn [of_opt rbind]. apply HF. lia.
  Qed.

  Lemma archimed h : exists n, (h < inject_Z (Z.of_nat (S n)) * res_half)%Q.
  Proof.
    exists (Z.to_nat (Qceiling (h / res_half))). rewrite Nat2Z.inj_succ. unfold Z.succ. rewrite inject_Z_plus. change (inject_Z 1) with 1%Q.
    assert (Hle := Qle_ceiling (h / res_half)).
    assert (Hle2 : (inject_Z (Qceiling (h / res_half)) <= inject_Z (Z.of_nat (Z.to_nat (Qceiling (h / res_half)))))%Q) by (rewrite <- Zle_Qle; lia).
    assert (Hd : (h == (h / res_half) * res_half)%Q) by (field; lra).
    generalize dependent (inject_Z (Z.of_nat (Z.to_nat (Qceiling (h / res_half))))). intros q Hq. rewrite Hd at 1. assert (h / res_half < q + 1)%Q by lra.
    apply Qmult_lt_r; [lra|exact H].
  Qed.

  Lemma insert_stops i x : nth_error ps i = Some x -> forall t cells node sons c h, t = OCell node sons -> wf ps cells t -> (0 <= h)%Q -> follows_not x c h ->
    exists F, forall fuel, F <= fuel -> ins fuel i node c h cells <> Running.
  Proof.
    intros Hx. induction t as [|j|id sons0 IH]; intros cells node sons c h Et HW Hh Hfn; try discriminate. injection Et as -> ->.
    assert (Hi : i < length ps) by (apply nth_error_Some; congruence).
    set (sub := son_of c x). assert (Hsub : sub < 8) by apply son_of_lt.
    pose proof (get_son_rep ps cells node _ sub (proj1 HW) Hsub) as Hg.
    destruct (sons sub) as [|s|id' sons1] eqn:Es; cbn [root] in Hg.
    - exists 1. intros fuel Hf. destruct fuel as [|fuel]; [lia|]. cbn [insert]. rewrite Hx. fold sub. rewrite Hg. change ((-1 <? 0)%Z) with true. cbn iota.
      destruct (put_ok ps rnd rnd8 cells node sons sub i HW Hsub Hi Es) as (cells' & E & _). rewrite E. discriminate.
    - assert (Hs : s < length ps). { destruct (proj1 HW) as (l & _ & _ & Hl). pose proof (proj2 (Hl sub Hsub)) as H. rewrite Es in H. exact H. }
      assert (Exs : exists xs, nth_error ps s = Some xs). { destruct (nth_error ps s) eqn:E; [eauto|]. apply nth_error_None in E. lia. }
      destruct Exs as [xs Exs].
      set (k' := if Qgtb res_half (h * (1 # 2)) then rnd (S (length cells)) else son_of (son_center (h * (1 # 2)) c x) xs).
      assert (Hk' : k' < 8). { unfold k'. destruct (Qgtb res_half (h * (1 # 2))); [apply rnd8|apply son_of_lt]. }
      destruct (split_ok ps rnd rnd8 cells node sons sub s k' HW Hsub Hk' Es) as (cells1 & cells2 & E1 & E2 & L2 & W1 & W2 & HF2).
      destruct (archimed (h * (1 # 2))%Q) as (n & Hn). destruct (lone_stops i x s Hx n cells2 _ k' (son_center (h * (1 # 2)) c x) (h * (1 # 2))%Q W1 Hk') as (F & HF); [lra|exact Hn|apply follows_not_step; exact Hfn|].
      exists (S F). intros fuel Hf. destruct fuel as [|fuel]; [lia|].
      cbn [insert]. rewrite Hx. fold sub. rewrite Hg.
      destruct (Z.ltb_spec (Z.of_nat s) 0) as [|_]; [lia|]. destruct (Z.ltb_spec (Z.of_nat s) N) as [_|]; [|lia].
      rewrite zget_nat by lia. rewrite Nat2Z.id, Exs. fold k'. rewrite E1. cbn [of_opt rbind]. rewrite E2. cbn [of_opt rbind]. apply HF. lia.
    - destruct HW as [HR ND]. destruct HR as (l & Hl & H8 & Hsons). pose proof (Hsons sub Hsub) as [_ HRs]. rewrite Es in HRs.
      pose proof (rep_bounds ps _ _ id' HRs (or_introl eq_refl)) as Hid.
      pose proof (son_nodup _ _ _ ND Hsub) as NDs. rewrite Es in NDs.
      destruct (IH sub cells id' sons1 (son_center (h * (1 # 2)) c x) (h * (1 # 2))%Q Es) as (F & HF); [rewrite Es; split; assumption|lra|apply follows_not_step; exact Hfn|].
      exists (S F). intros fuel Hf. destruct fuel as [|fuel]; [lia|]. cbn [insert]. rewrite Hx. fold sub. rewrite Hg.
      destruct (Z.ltb_spec id' 0); [lia|]. destruct (Z.ltb_spec id' N); [lia|]. apply HF. lia.
  Qed.
End Stops.

(** The enclosing cube. *)
Definition below (a b : vec) : Prop := forall j, (coord j a <= coord j b)%Q.
Lemma extent_ok x mm x0 : (below (fst mm) x0 /\ below x0 (snd mm)) \/ x0 = x -> below (fst (extent x mm)) x0 /\ below x0 (snd (extent x mm)).
Proof.
  destruct mm as [[[m0 m1] m2] [[M0 M1] M2]], x as [[x0' x1'] x2'], x0 as [[y0 y1] y2]. unfold below, extent, vmap2. cbn [fst snd].
  assert (A : forall a b y : Q, (b <= y)%Q \/ y = a -> ((if Qgtb b a then a else b) <= y)%Q).
  { intros a b y H. destruct (Qgtb b a) eqn:E; [apply Qgtb_spec in E|apply Qgtb_false in E]; destruct H as [H|H]; subst; lra. }
  assert (B : forall a b y : Q, (y <= b)%Q \/ y = a -> (y <= (if Qgtb a b then a else b))%Q).
  { intros a b y H. destruct (Qgtb a b) eqn:E; [apply Qgtb_spec in E|apply Qgtb_false in E]; destruct H as [H|H]; subst; lra. }
  intros H. split; intros j.
  - assert (H' : (coord j (m0, m1, m2) <= coord j (y0, y1, y2))%Q \/ coord j (y0, y1, y2) = coord j (x0', x1', x2')).
    { destruct H as [[H _]|H]; [left; apply H|right; rewrite H; reflexivity]. }
    destruct j as [|[|j]]; cbn [coord] in *; apply A; exact H'.
  - assert (H' : (coord j (y0, y1, y2) <= coord j (M0, M1, M2))%Q \/ coord j (y0, y1, y2) = coord j (x0', x1', x2')).
    { destruct H as [[_ H]|H]; [left; apply H|right; rewrite H; reflexivity]. }
    destruct j as [|[|j]]; cbn [coord] in *; apply B; exact H'.
Qed.
Lemma extents_ok l : forall mm x0, (below (fst mm) x0 /\ below x0 (snd mm)) \/ In x0 l ->
  let mm' := fold_left (fun mm x => extent x mm) l mm in below (fst mm') x0 /\ below x0 (snd mm').
Proof.
  induction l as [|x l IH]; intros mm x0 H; cbn [fold_left]; [destruct H as [H|[]]; exact H|]. apply IH. destruct H as [H|[->|H]].
  - left. apply extent_ok. left. exact H.
  - left. apply extent_ok. right. reflexivity.
  - right. exact H.
Qed.
Lemma max_side_ok mn mx j : (coord j mx - coord j mn <= max_side mn mx)%Q.
Proof.
  destruct mn as [[m0 m1] m2], mx as [[M0 M1] M2]. unfold max_side, vmap2. 
  destruct (Qgtb (M1 - m1) (M0 - m0)) eqn:E1; rewrite ?Qgtb_spec, ?Qgtb_false in E1.
  - destruct (Qgtb (M2 - m2) (M1 - m1)) eqn:E2; rewrite ?Qgtb_spec, ?Qgtb_false in E2; destruct j as [|[|j]]; cbn [coord]; lra.
  - destruct (Qgtb (M2 - m2) (M0 - m0)) eqn:E2; rewrite ?Qgtb_spec, ?Qgtb_false in E2; destruct j as [|[|j]]; cbn [coord]; lra.
Qed.
Lemma cube_ok ps c len : cube ps = Some (c, len) -> (0 <= len)%Q /\ forall x, In x ps -> inbox (c, len) x.
Proof.
  destruct ps as [|x0 r]; [discriminate|]. unfold cube.
  pose proof (fun x => extents_ok r (x0, x0) x) as HE. destruct (fold_left (fun mm x => extent x mm) r (x0, x0)) as [mn mx]. cbn [fst snd] in HE.
  intros H. injection H as <- <-.
  assert (HB : forall x, In x (x0 :: r) -> below mn x /\ below x mx).
  { intros x [<-|Hx]; apply HE; [left; split; intros j; lra|right; exact Hx]. }
  split.
  - pose proof (max_side_ok mn mx 0). destruct (HB x0 (or_introl eq_refl)) as [H0 H1]. specialize (H0 0). specialize (H1 0). lra.
  - intros x Hx j. destruct (HB x Hx) as [H0 H1]. specialize (H0 j). specialize (H1 j). pose proof (max_side_ok mn mx j) as Hm. cbn [fst snd].
    assert (Hc : (coord j (vmap2 (fun a b => (1 # 2) * (a + b))%Q mx mn) == (1 # 2) * (coord j mx + coord j mn))%Q).
    { destruct mn as [[m0 m1] m2], mx as [[M0 M1] M2]. destruct j as [|[|j]]; reflexivity. }
    rewrite Hc, half_field. lra.
Qed.

Section Build.
  Context {W : Type}.
  Variable ps : list vec.
  Local Notation N := (Z.of_nat (length ps)).
  Variable res : Q.
  Variable rnd : nat -> nat.
  Hypothesis rnd8 : forall i, rnd i < 8.
  Implicit Types cells : list (cell W).

  Definition all_ids cells : list Z := map (fun c => Z.of_nat (length ps + c)) (seq 0 (length cells)).
  Definition built (b : vec * Q) (pre : list nat) cells (sons : nat -> ot) : Prop :=
    wf ps cells (OCell N sons) /\ Permutation (leaves (OCell N sons)) pre /\ Permutation (cellids (OCell N sons)) (all_ids cells) /\
    (forall k, k < 8 -> full (sons k)) /\ (pre <> [] -> full (OCell N sons)) /\ fits ps res b (OCell N sons) /\ 1 <= length cells.

  Lemma all_ids_grow cells cells' : length cells <= length cells' -> Permutation (new_ids ps cells cells' ++ all_ids cells) (all_ids cells').
  Proof.
    intros H. unfold new_ids, all_ids. rewrite Permutation_app_comm. rewrite <- map_app. replace (length cells') with (length cells + (length cells' - length cells)) at 2 by lia.
    rewrite seq_app. reflexivity.
  Qed.

  Lemma follows_root b : (0 <= snd b)%Q -> follows res (fst b) ((1 # 2) * snd b)%Q b.
  Proof. intros H. split; [lra|]. left. split; [lra|]. intros j. reflexivity. Qed.

  Lemma run_each_ok fuel b l : forall pre cells sons, (0 <= snd b)%Q -> (forall x, In x ps -> inbox b x) -> (forall i, In i l -> i < length ps) -> built b pre cells sons ->
    match run_each l (fun i => insert ps (res * (1 # 2))%Q rnd fuel i N (fst b) ((1 # 2) * snd b)%Q) cells with
    | Crash => False
    | Running => True
    | Done cells' => exists sons', built b (rev l ++ pre) cells' sons'
    end.
  Proof.
    induction l as [|i l IH]; intros pre cells sons Hlen Hbox Hin HB; cbn [run_each]; [exists sons; exact HB|].
    destruct HB as (HW & HL & HC & HF & HF' & HFi & H1).
    destruct (nth_error ps i) as [x|] eqn:Hx; [|apply nth_error_None in Hx; specialize (Hin i (or_introl eq_refl)); lia].
    pose proof (insert_ok ps res rnd rnd8 fuel i x N (fst b) ((1 # 2) * snd b)%Q cells sons b Hx HW HF HFi (Hbox x (nth_error_In _ _ Hx)) (follows_root b Hlen)) as HI.
    destruct (insert ps (res * (1 # 2)) rnd fuel i N (fst b) ((1 # 2) * snd b) cells) as [cells1| |]; cbn [rbind]; [|exact HI|exact I].
    destruct HI as (sons1 & (HW1 & HL1 & HC1 & Hle1 & _) & Hfull1 & Hfits1).
    assert (HB1 : built b (i :: pre) cells1 sons1).
    { split; [exact HW1|]. split; [rewrite HL1, HL; reflexivity|]. split; [rewrite HC1, HC; apply all_ids_grow; exact Hle1|].
      split; [apply Hfull1|]. split; [intros _; exact Hfull1|]. split; [exact Hfits1|lia]. }
    specialize (IH (i :: pre) cells1 sons1 Hlen Hbox (fun j Hj => Hin j (or_intror Hj)) HB1).
    cbn [rev]. rewrite <- app_assoc. exact IH.
  Qed.

  Lemma insert_mono i : forall fuel node c h cells cells', insert ps (res * (1 # 2))%Q rnd fuel i node c h cells = Done cells' ->
    forall fuel', fuel <= fuel' -> insert ps (res * (1 # 2))%Q rnd fuel' i node c h cells = Done cells'.
  Proof.
    induction fuel as [|fuel IH]; intros node c h cells cells' E fuel' Hf; [discriminate|]. destruct fuel' as [|fuel']; [lia|]. cbn [insert] in *.
    destruct (nth_error ps i); [|discriminate]. destruct (get_son ps cells node (son_of c v)); [|discriminate].
    destruct (z <? 0)%Z; [exact E|]. destruct (z <? N)%Z; [|apply IH; [exact E|lia]]. destruct (zget ps z); [|discriminate].
    match goal with |- rbind ?r _ = _ => destruct r; cbn [rbind] in *; try discriminate end.
    match goal with |- rbind ?r _ = _ => destruct r; cbn [rbind] in *; try discriminate end. apply IH; [exact E|lia].
  Qed.

  Lemma run_each_stops b l : (0 < res)%Q -> (0 <= snd b)%Q -> (forall x, In x ps -> inbox b x) -> (forall x, In x ps -> follows_not rnd x (fst b) ((1 # 2) * snd b)%Q) ->
    forall pre cells sons, (forall i, In i l -> i < length ps) -> built b pre cells sons ->
    exists F, forall fuel, F <= fuel -> run_each l (fun i => insert ps (res * (1 # 2))%Q rnd fuel i N (fst b) ((1 # 2) * snd b)%Q) cells <> Running.
  Proof.
    intros Hres Hlen Hbox Hfn. induction l as [|i l IH]; intros pre cells sons Hin HB; [exists 0; discriminate|].
    destruct HB as (HW & HL & HC & HF & HF' & HFi & H1).
    destruct (nth_error ps i) as [x|] eqn:Hx; [|apply nth_error_None in Hx; specialize (Hin i (or_introl eq_refl)); lia].
    destruct (insert_stops ps res Hres rnd rnd8 i x Hx _ cells N sons (fst b) ((1 # 2) * snd b)%Q eq_refl HW) as (F1 & HF1); [lra|apply Hfn; apply (nth_error_In _ _ Hx)|].
    pose proof (insert_ok ps res rnd rnd8 F1 i x N (fst b) ((1 # 2) * snd b)%Q cells sons b Hx HW HF HFi (Hbox x (nth_error_In _ _ Hx)) (follows_root b Hlen)) as HI.
    specialize (HF1 F1 (Nat.le_refl _)).
    destruct (insert ps (res * (1 # 2)) rnd F1 i N (fst b) ((1 # 2) * snd b) cells) as [cells1| |] eqn:E1; [|destruct HI|congruence].
    destruct HI as (sons1 & (HW1 & HL1 & HC1 & Hle1 & _) & Hfull1 & Hfits1).
    assert (HB1 : built b (i :: pre) cells1 sons1).
    { split; [exact HW1|]. split; [rewrite HL1, HL; reflexivity|]. split; [rewrite HC1, HC; apply all_ids_grow; exact Hle1|].
      split; [apply Hfull1|]. split; [intros _; exact Hfull1|]. split; [exact Hfits1|lia]. }
    destruct (IH (i :: pre) cells1 sons1 (fun j Hj => Hin j (or_intror Hj)) HB1) as (F2 & HF2).
    exists (F1 + F2). intros fuel Hf. cbn [run_each]. rewrite (insert_mono i F1 _ _ _ _ _ E1 fuel) by lia. cbn [rbind]. apply HF2. lia.
  Qed.

  Definition empty_sons : nat -> ot := fun _ => OEmpty.
  Lemma built_empty b : built b [] (append_cell []) empty_sons.
  Proof.
    split; [split|].
    - exists (repeat (-1)%Z 8). rewrite Z.sub_diag. split; [reflexivity|]. split; [reflexivity|]. intros k Hk. split; [|exact I].
      do 8 (destruct k as [|k]; [reflexivity|]). lia.
    - cbn. constructor; [intros []|constructor].
    - split; [reflexivity|]. split; [cbn; rewrite Nat.add_0_r; reflexivity|]. split; [intros; exact I|]. split; [congruence|]. split; [intros k Hk; exact I|cbn; lia].
  Qed.
  Lemma build_cells_ok fuel c len : cube ps = Some (c, len) ->
    match build_cells ps (res * (1 # 2))%Q rnd fuel with
    | Crash => False
    | Running => True
    | Done cells => exists sons, built (c, len) (rev (seq 0 (length ps))) cells sons
    end.
  Proof.
    intros Hc. unfold build_cells. rewrite Hc. destruct (cube_ok _ _ _ Hc) as [H0 Hb].
    pose proof (run_each_ok fuel (c, len) (seq 0 (length ps)) [] (append_cell []) empty_sons H0 Hb) as HR. cbn [fst snd] in HR. rewrite app_nil_r in HR.
    apply HR; [intros i Hi; apply in_seq in Hi; lia|apply built_empty].
  Qed.
  Lemma build_cells_stops c len : (0 < res)%Q -> cube ps = Some (c, len) -> (forall x, In x ps -> follows_not rnd x c ((1 # 2) * len)%Q) ->
    exists F, forall fuel, F <= fuel -> build_cells ps (res * (1 # 2))%Q rnd fuel <> (Running : run (list (cell W))).
  Proof.
    intros Hres Hc Hfn. unfold build_cells. rewrite Hc. destruct (cube_ok _ _ _ Hc) as [H0 Hb].
    apply (run_each_stops (c, len) (seq 0 (length ps)) Hres H0 Hb Hfn [] (append_cell []) empty_sons); [intros i Hi; apply in_seq in Hi; lia|apply built_empty].
  Qed.
End Build.
