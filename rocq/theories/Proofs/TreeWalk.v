(** The threads laid through the tree after building, and the walks along them. *)
From Coq Require Import List ZArith QArith Bool Lia Sorting.Permutation.
From Verif.Model Require Import ListMem Run Mymath Tree.
From Verif.Spec Require Import Basic Octree.
From Verif.Proofs Require Import ListMemProofs ListExtra OctProofs.
Import ListNotations.
Local Open Scope nat_scope.

Definition nonempty (t : ot) : bool := match t with OEmpty => false | _ => true end.
Definition kids (sons : nat -> ot) : list nat := filter (fun k => nonempty (sons k)) (seq 0 8).
Definition slot (t : ot) : list Z := match t with OEmpty => [] | _ => [root t] end.
Lemma kids_in sons k : In k (kids sons) <-> k < 8 /\ sons k <> OEmpty.
Proof.
  unfold kids. rewrite filter_In, <- in8. split; intros [H1 H2]; (split; [exact H1|]); destruct (sons k); try discriminate; try congruence; reflexivity.
Qed.
Lemma kids_nodup sons : NoDup (kids sons).
Proof. apply NoDup_filter, seq_NoDup. Qed.
Lemma flat_kids {B} (f : ot -> list B) sons : f OEmpty = [] -> flat_map (fun k => f (sons k)) (kids sons) = flat_map (fun k => f (sons k)) (seq 0 8).
Proof.
  intros H0. unfold kids. generalize (seq 0 8). intros l. induction l as [|k l IH]; [reflexivity|]. cbn [filter flat_map]. destruct (sons k) eqn:E; cbn [nonempty flat_map]; rewrite IH, ?E, ?H0; reflexivity.
Qed.

Section Holds.
  Context {W : Type}.
  Variable ps : list vec.
  Local Notation N := (Z.of_nat (length ps)).
  Implicit Types cells : list (cell W).
  Lemma root_nonneg cells t : rep ps cells t -> t <> OEmpty -> (0 <= root t)%Z.
  Proof. destruct t as [|i|id sons]; intros HR Hne; [congruence|cbn; lia|]. destruct HR as (l & Hl & _). apply zget_some in Hl. cbn [root]. lia. Qed.
  Lemma sons_list cells id sons l : zget cells (id - N) = Some (Sons l) -> rep ps cells (OCell id sons) ->
    l = map (fun k => root (sons k)) (seq 0 8) /\ forall k, k < 8 -> rep ps cells (sons k).
  Proof.
    intros Hl (l' & Hl' & H8 & Hs). assert (l' = l) by congruence. subst l'. split; [|intros k Hk; apply Hs; exact Hk].
    apply nth_error_ext. intros k. destruct (Nat.lt_ge_cases k 8) as [Hk|Hk].
    - rewrite (proj1 (Hs k Hk)). symmetry. apply (map_nth_error (fun k => root (sons k))). rewrite nth_seq. destruct (Nat.ltb_spec k 8); [reflexivity|lia].
    - rewrite (proj2 (nth_error_None l k)) by lia. symmetry. apply nth_error_None. rewrite map_length, seq_length. exact Hk.
  Qed.
  Lemma used_sons cells id sons l : zget cells (id - N) = Some (Sons l) -> rep ps cells (OCell id sons) ->
    used (W := W) (Sons l) = map (fun k => root (sons k)) (kids sons).
  Proof.
    intros Hl HR. destruct (sons_list _ _ _ _ Hl HR) as [-> Hr]. cbn [used]. unfold kids.
    assert (H : forall k, In k (seq 0 8) -> rep ps cells (sons k)) by (intros k Hk; apply Hr, in8; exact Hk). clear Hr. revert H.
    generalize (seq 0 8). intros ks. induction ks as [|k ks IH]; intros H; [reflexivity|]. cbn [map filter].
    assert (Hk : rep ps cells (sons k)) by (apply H; left; reflexivity). rewrite IH by (intros j Hj; apply H; right; exact Hj).
    destruct (sons k) as [|i|id' s'] eqn:E; cbn [nonempty root]; [reflexivity| |].
    - destruct (Z.leb_spec 0 (Z.of_nat i)); [cbn [map]; rewrite E; reflexivity|lia].
    - pose proof (root_nonneg cells _ Hk) as H0. cbn [root] in H0. destruct (Z.leb_spec 0 id'); [cbn [map]; rewrite E; reflexivity|]. specialize (H0 ltac:(discriminate)). lia.
  Qed.
  Lemma holds_rep cells t : rep ps cells t -> full t -> t <> OEmpty -> holds (length ps) cells (root t) (map Z.of_nat (leaves t)).
  Proof.
    induction t as [|i|id sons IH]; intros HR HF Hne; [congruence| |].
    - apply holds_part. cbn [rep] in HR. cbn [root]. lia.
    - pose proof HR as HR0. destruct HR as (l & Hl & H8 & Hs). cbn [root leaves].
      assert (E : map Z.of_nat (flat_map (fun k => leaves (sons k)) (seq 0 8)) = concat (map (fun k => map Z.of_nat (leaves (sons k))) (kids sons))).
      { rewrite <- flat_kids by reflexivity. rewrite flat_map_concat_map, concat_map, map_map. reflexivity. }
      rewrite E. apply holds_cell with (c := Sons l); [apply zget_some in Hl; lia|exact Hl| |].
      + rewrite (used_sons _ _ _ _ Hl HR0). 
        assert (H : forall ks, (forall k, In k ks -> k < 8 /\ sons k <> OEmpty) -> Forall2 (holds (length ps) cells) (map (fun k => root (sons k)) ks) (map (fun k => map Z.of_nat (leaves (sons k))) ks)).
        { induction ks as [|k ks IHk]; intros H; cbn [map]; constructor.
          - destruct (H k (or_introl eq_refl)) as [Hk Hk']. apply IH; [apply Hs; exact Hk|apply HF; exact Hk|exact Hk'].
          - apply IHk. intros j Hj. apply H. right. exact Hj. }
        apply H. intros k Hk. apply kids_in. exact Hk.
      + destruct (proj1 HF) as (k & Hk & Hne'). assert (Hin : In k (kids sons)) by (apply kids_in; auto). destruct (kids sons); [destruct Hin|discriminate].
  Qed.

  Definition used_at cells (id : Z) : list Z := match zget cells (id - N) with Some c => used c | None => [] end.
  Lemma slots_rep cells t : rep ps cells t -> Permutation (slot t ++ flat_map (used_at cells) (cellids t)) (map Z.of_nat (leaves t) ++ cellids t).
  Proof.
    induction t as [|i|id sons IH]; intros HR; [constructor|reflexivity|].
    pose proof HR as HR0. destruct HR as (l & Hl & H8 & Hs). cbn [slot root cellids leaves app flat_map].
    unfold used_at at 1. rewrite Hl. rewrite (used_sons _ _ _ _ Hl HR0).
    rewrite <- Permutation_middle. constructor.
    assert (E : map (fun k => root (sons k)) (kids sons) = flat_map (fun k => slot (sons k)) (seq 0 8)).
    { rewrite <- (flat_kids slot) by reflexivity. rewrite flat_map_concat_map.
      assert (H : forall ks, (forall k, In k ks -> sons k <> OEmpty) -> map (fun k => root (sons k)) ks = concat (map (fun k => slot (sons k)) ks)).
      { induction ks as [|k ks IHk]; intros H; [reflexivity|]. cbn [map concat]. rewrite IHk by (intros j Hj; apply H; right; exact Hj).
        pose proof (H k (or_introl eq_refl)). destruct (sons k); [congruence|reflexivity|reflexivity]. }
      apply H. intros k Hk. apply kids_in in Hk. apply Hk. }
    rewrite E. clear E.
    assert (H : forall k, In k (seq 0 8) -> Permutation (slot (sons k) ++ flat_map (used_at cells) (cellids (sons k))) (map Z.of_nat (leaves (sons k)) ++ cellids (sons k))).
    { intros k Hk. apply in8 in Hk. apply IH. apply Hs. exact Hk. }
    revert H. generalize (seq 0 8). intros ks. induction ks as [|k ks IHk]; intros H; [constructor|]. cbn [flat_map].
    rewrite flat_map_app, map_app. specialize (IHk (fun j Hj => H j (or_intror Hj))). specialize (H k (or_introl eq_refl)).
    transitivity ((slot (sons k) ++ flat_map (used_at cells) (cellids (sons k))) ++ (flat_map (fun k0 => slot (sons k0)) ks ++ flat_map (used_at cells) (flat_map (fun k0 => cellids (sons k0)) ks))).
    { rewrite <- !app_assoc. apply Permutation_app_head. rewrite !app_assoc. apply Permutation_app_tail. apply Permutation_app_comm. }
    rewrite H, IHk. rewrite <- !app_assoc. apply Permutation_app_head. rewrite !app_assoc. apply Permutation_app_tail. apply Permutation_app_comm.
  Qed.

  Lemma octree_ok cells sons : wf ps cells (OCell N sons) -> full (OCell N sons) -> Permutation (leaves (OCell N sons)) (seq 0 (length ps)) ->
    Permutation (cellids (OCell N sons)) (map (fun c => Z.of_nat (length ps + c)) (seq 0 (length cells))) -> octree (length ps) cells.
  Proof.
    intros [HR ND] HF HL HC. split; [|split].
    - apply Forall_forall. intros c Hc. apply In_nth_error in Hc as (j & Hj).
      assert (Hin : In (Z.of_nat (length ps + j)) (cellids (OCell N sons))).
      { apply (Permutation_in _ (Permutation_sym HC)). apply in_map_iff. exists j. split; [reflexivity|]. apply in_seq. split; [lia|]. apply nth_error_Some. congruence. }
      clear HC HL HF ND. revert HR Hin. generalize (OCell N sons). intros t. induction t as [|i|id sons' IH]; [intros _ []|intros _ []|].
      intros (l & Hl & H8 & Hs) [->|Hin].
      + rewrite zget_nat in Hl by lia. replace (Z.to_nat (Z.of_nat (length ps + j) - N)) with j in Hl by lia. exists l. split; [congruence|exact H8].
      + apply in_flat_map in Hin as (k & Hk & Hin). apply in8 in Hk. apply (IH k); [apply Hs; exact Hk|exact Hin].
    - assert (E : flat_map used cells = flat_map (used_at cells) (map (fun c => Z.of_nat (length ps + c)) (seq 0 (length cells)))).
      { rewrite !flat_map_concat_map, map_map. f_equal.
        assert (E1 : cells = map (fun c => match nth_error cells c with Some x => x | None => Sons [] end) (seq 0 (length cells))).
        { apply nth_error_ext. intros j. destruct (Nat.lt_ge_cases j (length cells)) as [Hj|Hj].
          - symmetry. destruct (nth_error cells j) as [x|] eqn:Ej; [|apply nth_error_None in Ej; lia]. rewrite <- Ej.
            erewrite map_nth_error; [|rewrite nth_seq; destruct (Nat.ltb_spec j (length cells)); [reflexivity|lia]]. rewrite Nat.add_0_l, Ej. reflexivity.
          - rewrite (proj2 (nth_error_None cells j)) by lia. symmetry. apply nth_error_None. rewrite map_length, seq_length. exact Hj. }
        rewrite E1 at 1. rewrite map_map. apply map_ext_in. intros j Hj. apply in_seq in Hj. unfold used_at. rewrite zget_nat by lia.
        replace (Z.to_nat (Z.of_nat (length ps + j) - N)) with j by lia. destruct (nth_error cells j) eqn:Ej; [reflexivity|]. apply nth_error_None in Ej. lia. }
      rewrite E. rewrite <- (Permutation_flat_map (used_at cells) HC). pose proof (slots_rep _ _ HR) as HS. cbn [slot root app] in HS.
      assert (Hlen : exists m, length cells = S m). { destruct HR as (l & Hl & _). apply zget_some in Hl. exists (length cells - 1). lia. }
      destruct Hlen as [m Hlen].
      rewrite HL, HC in HS. rewrite Hlen in HS. cbn [seq map] in HS. rewrite Nat.add_0_r in HS.
      rewrite <- Permutation_middle in HS. apply Permutation_cons_inv in HS. rewrite HC. rewrite Hlen. cbn [seq map]. rewrite Nat.add_0_r. replace (S m - 1) with m by lia. exact HS.
    - exists (map Z.of_nat (leaves (OCell N sons))). split; [apply (holds_rep cells (OCell N sons)); auto; discriminate|]. apply Permutation_map. exact HL.
  Qed.
End Holds.

Section Threads.
  Context {A W : Type}.
  Variable ps : list vec.
  Local Notation n := (length ps).
  Local Notation N := (Z.of_nat (length ps)).
  Variable acc0 : A.
  Variable add_part : Z -> A -> A.
  Variable add_cell : W -> A -> A.
  Variable finish : A -> vec -> W.
  Variable son_box : nat -> vec * Q -> vec * Q.
  Local Notation state := (list (cell W) * list Z)%type.
  Local Notation upd_ := (update n acc0 add_part add_cell finish son_box).

  Fixpoint pay (t : ot) (b : vec * Q) : W :=
    match t with
    | OCell _ sons => finish (fold_left (fun acc k => match sons k with OEmpty => acc | OLeaf i => add_part (Z.of_nat i) acc
                                                      | OCell _ _ => add_cell (pay (sons k) (son_box k b)) acc end) (kids sons) acc0) (fst b)
    | _ => finish acc0 (fst b)
    end.
  Definition gather (sons : nat -> ot) (b : vec * Q) (ks : list nat) (acc : A) : A :=
    fold_left (fun acc k => match sons k with OEmpty => acc | OLeaf i => add_part (Z.of_nat i) acc | OCell _ _ => add_cell (pay (sons k) (son_box k b)) acc end) ks acc.
  Definition first (sons : nat -> ot) (ks : list nat) (next : Z) : Z := match ks with [] => next | k :: _ => root (sons k) end.
  Fixpoint thr (st : state) (t : ot) (next : Z) (b : vec * Q) : Prop :=
    match t with
    | OEmpty => True
    | OLeaf i => zget (snd st) (Z.of_nat i) = Some next
    | OCell id sons => zget (fst st) (id - N) = Some (Way (snd b) (pay t b) next (first sons (kids sons) (-1)%Z)) /\
        (fix go (ks : list nat) : Prop := match ks with [] => True | k :: r => thr st (sons k) (first sons r next) (son_box k b) /\ go r end) (kids sons)
    end.
  Fixpoint thrs (st : state) (sons : nat -> ot) (next : Z) (b : vec * Q) (ks : list nat) : Prop :=
    match ks with [] => True | k :: r => thr st (sons k) (first sons r next) (son_box k b) /\ thrs st sons next b r end.
  Lemma thr_cell st id sons next b : thr st (OCell id sons) next b <->
    zget (fst st) (id - N) = Some (Way (snd b) (pay (OCell id sons) b) next (first sons (kids sons) (-1)%Z)) /\ thrs st sons next b (kids sons).
  Proof.
    cbn [thr]. assert (H : forall ks, (fix go (ks : list nat) : Prop := match ks with [] => True | k :: r => thr st (sons k) (first sons r next) (son_box k b) /\ go r end) ks <-> thrs st sons next b ks).
    { induction ks as [|k ks IH]; cbn [thrs]; [tauto|]. rewrite IH. tauto. }
    rewrite H. tauto.
  Qed.

  Definition agree (st st' : state) (cs : list Z) (ls : list nat) : Prop :=
    (forall id, In id cs -> zget (fst st') (id - N) = zget (fst st) (id - N)) /\ (forall i, In i ls -> zget (snd st') (Z.of_nat i) = zget (snd st) (Z.of_nat i)).
  Lemma thr_frame st st' t : forall next b, agree st st' (cellids t) (leaves t) -> thr st t next b -> thr st' t next b.
  Proof.
    induction t as [|i|id sons IH]; intros next b [HA HB] HT; [exact I| |].
    - cbn [thr] in *. rewrite HB by (left; reflexivity). exact HT.
    - rewrite thr_cell in *. destruct HT as [HT1 HT2]. split; [rewrite HA by (left; reflexivity); exact HT1|].
      assert (Hks : forall k, In k (kids sons) -> k < 8) by (intros k Hk; apply kids_in in Hk; apply Hk).
      revert Hks HT2. generalize (kids sons). intros ks. induction ks as [|k ks IHk]; intros Hks HT; [exact I|]. cbn [thrs] in *. destruct HT as [HT1' HT2]. split.
      + apply IH; [|exact HT1']. assert (Hk : k < 8) by (apply Hks; left; reflexivity). split.
        * intros x Hx. apply HA. cbn [cellids]. right. apply in_flat_map. exists k. split; [apply in8; exact Hk|exact Hx].
        * intros x Hx. apply HB. cbn [leaves]. apply in_flat_map. exists k. split; [apply in8; exact Hk|exact Hx].
      + apply IHk; [intros j Hj; apply Hks; right; exact Hj|exact HT2].
  Qed.

  Section Proc.
    Variable rec : Z -> Z -> vec * Q -> state -> run state.
    Variables (sib : Z) (box : vec * Q).
    Fixpoint proc (sons : list (nat * Z)) (acc : A) (st : state) : run (A * state) :=
      match sons with
      | [] => Done (acc, st)
      | (k, p) :: r =>
          let next := match r with [] => sib | (_, q) :: _ => q end in
          if (p <? N)%Z then
            match zupd (snd st) p next with Some np => proc r (add_part p acc) (fst st, np) | None => Crash end
          else
            rbind (rec p next (son_box k box) st) (fun st1 =>
            match zget (fst st1) (p - N) with Some (Way _ w _ _) => proc r (add_cell w acc) st1 | _ => Crash end)
      end.
  End Proc.
  Lemma update_S f no sib b st : upd_ (S f) no sib b st =
    match zget (fst st) (no - N) with
    | Some (Sons l) =>
        let sons := filter (fun ks => (0 <=? snd ks)%Z) (combine (seq 0 8) l) in
        match sons with
        | [] => Crash
        | (_, first) :: _ =>
            rbind (proc (upd_ f) sib b sons acc0 st)
              (fun r => let '(acc, (cells, np)) := r in
                        match zupd cells (no - N) (Way (snd b) (finish acc (fst b)) sib first) with Some cells' => Done (cells', np) | None => Crash end)
        end
    | _ => Crash
    end.
  Proof. reflexivity. Qed.

  Fixpoint ht (t : ot) : nat := match t with OCell _ sons => S (list_sum (map (fun k => ht (sons k)) (seq 0 8))) | _ => 0 end.
  Lemma ht_son id sons k : k < 8 -> ht (sons k) < ht (OCell id sons).
  Proof.
    intros Hk. cbn [ht]. apply in8 in Hk. revert Hk. generalize (seq 0 8). intros l. induction l as [|a l IH]; [intros []|]. intros [->|Hin]; cbn [map list_sum fold_right]; [unfold list_sum in *; lia|].
    specialize (IH Hin). unfold list_sum in *. lia.
  Qed.

  Definition untouched (st st' : state) (cs : list Z) (ls : list nat) : Prop :=
    length (fst st') = length (fst st) /\ length (snd st') = length (snd st) /\
    (forall id, ~ In id cs -> zget (fst st') (id - N) = zget (fst st) (id - N)) /\
    (forall j, (forall i, In i ls -> Z.of_nat i <> j) -> zget (snd st') j = zget (snd st) j).
  Definition ready (st : state) (t : ot) : Prop :=
    rep ps (fst st) t /\ full t /\ NoDup (cellids t) /\ NoDup (leaves t) /\ (forall i, In i (leaves t) -> i < length (snd st)).
  Definition updates (t : ot) : Prop := forall fuel sib b st, ready st t ->
    match upd_ fuel (root t) sib b st with
    | Crash => False
    | Running => fuel < ht t
    | Done st' => thr st' t sib b /\ untouched st st' (cellids t) (leaves t)
    end.

  Lemma untouched_agree st st' cs ls cs' ls' : untouched st st' cs ls -> (forall x, In x cs' -> ~ In x cs) -> (forall x, In x ls' -> ~ In x ls) -> agree st st' cs' ls'.
  Proof. intros (_ & _ & H1 & H2) D1 D2. split; [intros id Hid; apply H1, D1, Hid|]. intros i Hi. apply H2. intros j Hj E. apply (D2 i Hi). apply Nat2Z.inj in E. subst. exact Hj. Qed.
  Lemma untouched_trans st st1 st2 cs ls cs' ls' : untouched st st1 cs ls -> untouched st1 st2 cs' ls' -> untouched st st2 (cs ++ cs') (ls ++ ls').
  Proof.
    intros (A1 & A2 & A3 & A4) (B1 & B2 & B3 & B4). split; [congruence|]. split; [congruence|]. split.
    - intros id Hid. rewrite B3, A3; [reflexivity| |]; intros H; apply Hid, in_or_app; auto.
    - intros j Hj. rewrite B4, A4; [reflexivity| |]; intros i Hi; apply Hj, in_or_app; auto.
  Qed.
  Lemma untouched_weaken st st' cs ls cs' ls' : untouched st st' cs ls -> incl cs cs' -> incl ls ls' -> untouched st st' cs' ls'.
  Proof. intros (A1 & A2 & A3 & A4) H1 H2. split; [exact A1|]. split; [exact A2|]. split; [intros id Hid; apply A3; intros H; apply Hid, H1, H|]. intros j Hj. apply A4. intros i Hi. apply Hj, H2, Hi. Qed.

  Lemma proc_ok fuel sib b sons ks : (forall k, In k ks -> k < 8 /\ sons k <> OEmpty) -> (forall k, In k ks -> match sons k with OCell _ _ => updates (sons k) | _ => True end) ->
    forall acc st, (forall k, In k ks -> ready st (sons k)) -> NoDup (flat_map (fun k => cellids (sons k)) ks) -> NoDup (flat_map (fun k => leaves (sons k)) ks) ->
    match proc (upd_ fuel) sib b (map (fun k => (k, root (sons k))) ks) acc st with
    | Crash => False
    | Running => exists k, In k ks /\ fuel < ht (sons k)
    | Done (acc', st') => thrs st' sons sib b ks /\ acc' = gather sons b ks acc /\
                          untouched st st' (flat_map (fun k => cellids (sons k)) ks) (flat_map (fun k => leaves (sons k)) ks)
    end.
  Proof.
    induction ks as [|k ks IH]; intros Hks HU acc st HR NDc NDl; cbn [map proc].
    - split; [exact I|]. split; [reflexivity|]. repeat split; auto.
    - cbn [flat_map] in NDc, NDl.
      assert (Hnext : match map (fun k => (k, root (sons k))) ks with [] => sib | (_, q) :: _ => q end = first sons ks sib) by (destruct ks; reflexivity).
      rewrite Hnext. destruct (Hks k (or_introl eq_refl)) as [Hk Hne]. pose proof (HR k (or_introl eq_refl)) as (R1 & R2 & R3 & R4 & R5).
      specialize (IH (fun j Hj => Hks j (or_intror Hj)) (fun j Hj => HU j (or_intror Hj))).
      assert (NDc' := NoDup_app_remove_l _ _ NDc). assert (NDl' := NoDup_app_remove_l _ _ NDl).
      assert (Hready : forall st1, untouched st st1 (cellids (sons k)) (leaves (sons k)) -> forall j, In j ks -> ready st1 (sons j)).
      { intros st1 HU1 j Hj. destruct (HR j (or_intror Hj)) as (S1 & S2 & S3 & S4 & S5). destruct HU1 as (U1 & U2 & U3 & U4). split; [|split; [exact S2|split; [exact S3|split; [exact S4|]]]].
        - apply (rep_frame ps (fst st)); [exact S1|]. intros id Hid. apply U3. intros H. apply (NoDup_app_disj _ _ id NDc H). apply in_flat_map. eauto.
        - intros i Hi. rewrite U2. apply S5. exact Hi. }
      assert (Hagree : forall st1 st2, untouched st1 st2 (flat_map (fun k => cellids (sons k)) ks) (flat_map (fun k => leaves (sons k)) ks) -> agree st1 st2 (cellids (sons k)) (leaves (sons k))).
      { intros st1 st2 HU2. apply (untouched_agree _ _ _ _ _ _ HU2).
        - intros x Hx H. apply (NoDup_app_disj _ _ x NDc Hx H).
        - intros x Hx H. apply (NoDup_app_disj _ _ x NDl Hx H). }
      specialize (HU k (or_introl eq_refl)).
      cbn [gather fold_left]. change (gather sons b (k :: ks) acc) with (gather sons b ks (match sons k with OEmpty => acc | OLeaf i => add_part (Z.of_nat i) acc | OCell _ _ => add_cell (pay (sons k) (son_box k b)) acc end)).
      destruct (sons k) as [|i|id sons1] eqn:Es; [congruence| |].
      + cbn [root]. cbn [rep] in R1. destruct (Z.ltb_spec (Z.of_nat i) N) as [_|]; [|lia].
        assert (Hi : i < length (snd st)) by (apply R5; left; reflexivity).
        destruct (zupd_some (snd st) (Z.of_nat i) (first sons ks sib)) as (np & Enp); [lia|]. rewrite Enp.
        assert (HU1 : untouched st (fst st, np) [] [i]).
        { split; [reflexivity|]. split; [apply (zupd_length _ _ _ _ Enp)|]. split; [reflexivity|]. intros j Hj. cbn [snd]. rewrite (zget_zupd _ _ _ _ _ Enp).
          specialize (Hj i (or_introl eq_refl)). destruct (Z.eqb_spec j (Z.of_nat i)); [congruence|reflexivity]. }
        specialize (IH (add_part (Z.of_nat i) acc) (fst st, np) (Hready _ HU1) NDc' NDl').
        destruct (proc (upd_ fuel) sib b (map (fun k => (k, root (sons k))) ks) (add_part (Z.of_nat i) acc) (fst st, np)) as [[acc' st']| |]; [|exact IH|].
        * destruct IH as (T & G & U). split; [|split; [exact G|]].
          { cbn [thrs]. rewrite Es. split; [|exact T]. apply (thr_frame (fst st, np)); [apply Hagree; exact U|]. cbn [thr snd]. rewrite (zget_zupd _ _ _ _ _ Enp), Z.eqb_refl. reflexivity. }
          { cbn [flat_map]. rewrite Es. apply (untouched_trans _ _ _ _ _ _ _ HU1 U). }
        * destruct IH as (j & Hj & Hlt). exists j. split; [right; exact Hj|exact Hlt].
      + specialize (HU fuel (first sons ks sib) (son_box k b) st (conj R1 (conj R2 (conj R3 (conj R4 R5))))). cbn [root] in *.
        assert (Hid := rep_bounds ps _ _ id R1 (or_introl eq_refl)). destruct (Z.ltb_spec id N); [lia|].
        destruct (upd_ fuel id (first sons ks sib) (son_box k b) st) as [st1| |]; cbn [rbind]; [|exact HU|exists k; split; [left; reflexivity|rewrite Es; exact HU]].
        destruct HU as [HT HU1]. pose proof HT as HT0. rewrite thr_cell in HT. destruct HT as [HT1 _]. rewrite HT1.
        specialize (IH (add_cell (pay (OCell id sons1) (son_box k b)) acc) st1 (Hready _ HU1) NDc' NDl').
        destruct (proc (upd_ fuel) sib b (map (fun k => (k, root (sons k))) ks) (add_cell (pay (OCell id sons1) (son_box k b)) acc) st1) as [[acc' st']| |]; [|exact IH|].
        * destruct IH as (T & G & U). split; [|split; [exact G|]].
          { cbn [thrs]. rewrite Es. split; [|exact T]. apply (thr_frame st1); [apply Hagree; exact U|exact HT0]. }
          { cbn [flat_map]. rewrite Es. apply (untouched_trans _ _ _ _ _ _ _ HU1 U). }
        * destruct IH as (j & Hj & Hlt). exists j. split; [right; exact Hj|exact Hlt].
  Qed.

  Lemma sons_filter (cells : list (cell W)) id sons l : zget cells (id - N) = Some (Sons l) -> rep ps cells (OCell id sons) ->
    filter (fun ks => (0 <=? snd ks)%Z) (combine (seq 0 8) l) = map (fun k => (k, root (sons k))) (kids sons).
  Proof.
    intros Hl HR. destruct (sons_list ps _ _ _ _ Hl HR) as [-> Hr]. unfold kids.
    assert (H : forall k, In k (seq 0 8) -> rep ps cells (sons k)) by (intros k Hk; apply Hr, in8; exact Hk). clear Hr. revert H.
    generalize (seq 0 8). intros ks. induction ks as [|k ks IH]; intros H; [reflexivity|]. cbn [map combine filter snd].
    assert (Hk : rep ps cells (sons k)) by (apply H; left; reflexivity). rewrite IH by (intros j Hj; apply H; right; exact Hj).
    destruct (sons k) as [|i|id' s'] eqn:E; cbn [nonempty root]; [reflexivity| |].
    - destruct (Z.leb_spec 0 (Z.of_nat i)); [cbn [map]; rewrite E; reflexivity|lia].
    - pose proof (root_nonneg ps cells _ Hk) as H0. cbn [root] in H0. destruct (Z.leb_spec 0 id'); [cbn [map]; rewrite E; reflexivity|]. specialize (H0 ltac:(discriminate)). lia.
  Qed.

  Lemma NoDup_flat_map_kids {B} (f : ot -> list B) sons : f OEmpty = [] -> NoDup (flat_map (fun k => f (sons k)) (seq 0 8)) -> NoDup (flat_map (fun k => f (sons k)) (kids sons)).
  Proof. intros H0 H. rewrite flat_kids by exact H0. exact H. Qed.
  Lemma NoDup_flat_part {B} (f : nat -> list B) l k : In k l -> NoDup (flat_map f l) -> NoDup (f k).
  Proof. intros Hk ND. apply in_split in Hk as (a & c & ->). rewrite flat_map_app in ND. apply NoDup_app_remove_l in ND. cbn [flat_map] in ND. apply NoDup_app_remove_r in ND. exact ND. Qed.

  Lemma update_ok t : match t with OCell _ _ => updates t | _ => True end.
  Proof.
    induction t as [|i|id sons IH]; [exact I|exact I|]. intros fuel sib b st (R1 & R2 & R3 & R4 & R5). cbn [root].
    destruct fuel as [|fuel]; [cbn [ht update]; lia|]. rewrite update_S. pose proof R1 as R0. destruct R1 as (l & Hl & H8 & Hs). rewrite Hl.
    rewrite (sons_filter _ _ _ _ Hl R0). cbn zeta.
    assert (Hk : kids sons <> []). { destruct (proj1 R2) as (k & Hk & Hne). assert (Hin : In k (kids sons)) by (apply kids_in; auto). intros E. rewrite E in Hin. destruct Hin. }
    assert (NDc : NoDup (flat_map (fun k => cellids (sons k)) (seq 0 8))) by (cbn [cellids] in R3; apply NoDup_cons_iff in R3; apply R3).
    pose proof (proc_ok fuel sib b sons (kids sons) (fun k => proj1 (kids_in sons k)) (fun k Hk => IH k) acc0 st) as HP.
    assert (Hr : forall k, In k (kids sons) -> ready st (sons k)).
    { intros k Hin. apply kids_in in Hin as [Hk8 Hne]. split; [apply Hs; exact Hk8|]. split; [apply R2; exact Hk8|]. split; [|split].
      - apply (son_nodup id sons k R3 Hk8).
      - apply (NoDup_flat_part (fun k => leaves (sons k)) (seq 0 8)); [apply in8; exact Hk8|exact R4].
      - intros i Hi. apply R5. cbn [leaves]. apply in_flat_map. exists k. split; [apply in8; exact Hk8|exact Hi]. }
    specialize (HP Hr (NoDup_flat_map_kids cellids sons eq_refl NDc) (NoDup_flat_map_kids leaves sons eq_refl R4)).
    destruct (kids sons) as [|k0 ks] eqn:Eks; [congruence|]. cbn [map]. cbn [map] in HP.
    destruct (proc (upd_ fuel) sib b ((k0, root (sons k0)) :: map (fun k => (k, root (sons k))) ks) acc0 st) as [[acc' [cells' np]]| |]; cbn [rbind]; [|exact HP|].
    - destruct HP as (T & G & U). rewrite <- Eks in T, U, G. rewrite (flat_kids cellids) in U by reflexivity. rewrite (flat_kids leaves) in U by reflexivity.
      pose proof U as (U1 & U2 & U3 & U4). cbn [fst snd] in *.
      destruct (zupd_some cells' (id - N)%Z (Way (snd b) (finish acc' (fst b)) sib (root (sons k0)))) as (cells2 & E2). { apply zget_some in Hl. lia. }
      rewrite E2. split.
      + rewrite thr_cell. cbn [fst]. split.
        * rewrite (zget_zupd _ _ _ _ _ E2), Z.eqb_refl. cbn [pay]. fold (gather sons b (kids sons) acc0). rewrite <- G, Eks. reflexivity.
        * assert (HA : forall k, k < 8 -> agree (cells', np) (cells2, np) (cellids (sons k)) (leaves (sons k))).
          { intros k Hk8. split; [|intros; reflexivity]. intros j Hj. cbn [fst]. rewrite (zget_zupd _ _ _ _ _ E2). destruct (Z.eqb_spec (j - N) (id - N)) as [Ej|]; [|reflexivity].
            assert (j = id) by lia. subst j. destruct (son_not_id id sons k R3 Hk8 Hj). }
          assert (Hall : forall k, In k (kids sons) -> k < 8) by (intros k Hin; apply kids_in in Hin; apply Hin).
          revert T Hall. generalize (kids sons). intros kk. clear - HA. induction kk as [|k kk IHk]; intros T Hall; [exact I|]. cbn [thrs] in *. destruct T as [T1 T2]. split; [|apply IHk; [exact T2|intros j Hj; apply Hall; right; exact Hj]].
          apply (thr_frame (cells', np)); [apply HA, Hall; left; reflexivity|exact T1].
      + split; [cbn [fst]; rewrite (zupd_length _ _ _ _ E2); exact U1|]. split; [exact U2|]. split; [|exact U4].
        intros j Hj. cbn [fst]. rewrite (zget_zupd _ _ _ _ _ E2). destruct (Z.eqb_spec (j - N) (id - N)) as [Ej|].
        * assert (j = id) by lia. subst j. destruct Hj. left. reflexivity.
        * apply U3. intros H. apply Hj. cbn [cellids]. right. exact H.
    - destruct HP as (k & Hin & Hlt). rewrite <- Eks in Hin. apply kids_in in Hin as [Hk8 _]. pose proof (ht_son id sons k Hk8). lia.
  Qed.

  (** *** Walking. *)
  Variable opens : Q -> W -> bool.
  Fixpoint items (t : ot) (b : vec * Q) : list Z :=
    match t with
    | OEmpty => []
    | OLeaf i => [Z.of_nat i]
    | OCell id sons => if opens (snd b) (pay t b) then flat_map (fun k => items (sons k) (son_box k b)) (kids sons) else [id]
    end.
  Fixpoint visits (t : ot) (b : vec * Q) : nat :=
    match t with
    | OEmpty => 0
    | OLeaf i => 1
    | OCell id sons => if opens (snd b) (pay t b) then S (list_sum (map (fun k => visits (sons k) (son_box k b)) (kids sons))) else 1
    end.
  Definition continues (fuel v : nat) (rest : nat -> run (list Z)) (l : list Z) : run (list Z) :=
    if fuel <? v then Running else rbind (rest (fuel - v)) (fun r => Done (l ++ r)).
  Lemma walk_step (st : state) fuel no : (0 <= no)%Z -> walk n opens fuel st no =
    match fuel with
    | O => Running
    | S f =>
        if (no <? N)%Z then match zget (snd st) no with Some q => rbind (walk n opens f st q) (fun l => Done (no :: l)) | None => Crash end
        else match zget (fst st) (no - N) with
             | Some (Way len w sib next) => if opens len w then walk n opens f st next else rbind (walk n opens f st sib) (fun l => Done (no :: l))
             | _ => Crash
             end
    end.
  Proof. intros H. destruct fuel; cbn [walk]; (destruct (Z.ltb_spec no 0); [lia|reflexivity]). Qed.

  Lemma walk_ok (st : state) (Hst : length (snd st) = n) t : t <> OEmpty -> full t -> forall next b, thr st t next b ->
    forall fuel, walk n opens fuel st (root t) = continues fuel (visits t b) (fun f => walk n opens f st next) (items t b).
  Proof.
    induction t as [|i|id sons IH]; intros Hne HFull next b HT fuel; [congruence| |].
    - cbn [root visits items thr] in *. rewrite walk_step by lia. unfold continues. destruct fuel as [|fuel]; [reflexivity|].
      destruct (Nat.ltb_spec (S fuel) 1); [lia|]. pose proof (zget_some _ _ _ HT) as Hr. destruct (Z.ltb_spec (Z.of_nat i) N); [|lia]. rewrite HT.
      replace (S fuel - 1) with fuel by lia. reflexivity.
    - rewrite thr_cell in HT. destruct HT as [H1 H2]. pose proof (zget_some _ _ _ H1) as Hr. cbn [root].
      rewrite walk_step by lia. cbn [visits items]. unfold continues. destruct fuel as [|fuel].
      { destruct (opens (snd b) (pay (OCell id sons) b)); reflexivity. }
      destruct (Z.ltb_spec id N); [lia|]. rewrite H1. destruct (opens (snd b) (pay (OCell id sons) b)).
      + assert (Hk : kids sons <> []). { destruct (proj1 HFull) as (k & Hk & Hne'). assert (Hin : In k (kids sons)) by (apply kids_in; auto). intros E. rewrite E in Hin. destruct Hin. }
        assert (G : forall ks, (forall k, In k ks -> k < 8 /\ sons k <> OEmpty) -> thrs st sons next b ks -> forall f,
          walk n opens f st (first sons ks next) = continues f (list_sum (map (fun k => visits (sons k) (son_box k b)) ks)) (fun f => walk n opens f st next) (flat_map (fun k => items (sons k) (son_box k b)) ks)).
        { induction ks as [|k ks IHk]; intros Hks HT f.
          - cbn [first map list_sum fold_right flat_map]. unfold continues. change (f <? list_sum []) with false. cbn iota. change (list_sum []) with 0. rewrite Nat.sub_0_r. destruct (walk n opens f st next); reflexivity.
          - cbn [thrs] in HT. destruct HT as [T1 T2]. destruct (Hks k (or_introl eq_refl)) as [Hk8 Hkne].
            cbn [first]. rewrite (IH k Hkne (proj2 HFull k Hk8) _ _ T1). cbn [map flat_map].
            change (list_sum (visits (sons k) (son_box k b) :: map (fun k => visits (sons k) (son_box k b)) ks)) with (visits (sons k) (son_box k b) + list_sum (map (fun k => visits (sons k) (son_box k b)) ks)).
            unfold continues. destruct (Nat.ltb_spec f (visits (sons k) (son_box k b))) as [Hlt|Hge].
            + destruct (Nat.ltb_spec f (visits (sons k) (son_box k b) + list_sum (map (fun k => visits (sons k) (son_box k b)) ks))); [reflexivity|lia].
            + rewrite (IHk (fun j Hj => Hks j (or_intror Hj)) T2). unfold continues.
              destruct (Nat.ltb_spec (f - visits (sons k) (son_box k b)) (list_sum (map (fun k => visits (sons k) (son_box k b)) ks)));
                destruct (Nat.ltb_spec f (visits (sons k) (son_box k b) + list_sum (map (fun k => visits (sons k) (son_box k b)) ks))); try lia; [reflexivity|].
              rewrite Nat.sub_add_distr. destruct (walk n opens (f - visits (sons k) (son_box k b) - list_sum (map (fun k => visits (sons k) (son_box k b)) ks)) st next); cbn [rbind]; [rewrite <- app_assoc; reflexivity|reflexivity|reflexivity]. }
        assert (Ef : first sons (kids sons) (-1)%Z = first sons (kids sons) next) by (destruct (kids sons); [congruence|reflexivity]). rewrite Ef.
        rewrite (G (kids sons) (fun k => proj1 (kids_in sons k)) H2). unfold continues.
        destruct (Nat.ltb_spec fuel (list_sum (map (fun k => visits (sons k) (son_box k b)) (kids sons)))); destruct (Nat.ltb_spec (S fuel) (S (list_sum (map (fun k => visits (sons k) (son_box k b)) (kids sons))))); try lia; [reflexivity|].
        reflexivity.
      + destruct (Nat.ltb_spec (S fuel) 1); [lia|]. replace (S fuel - 1) with fuel by lia. reflexivity.
  Qed.
End Threads.
