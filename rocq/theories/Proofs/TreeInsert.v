(** Insertion of particles into the octree: what is built, where the particles lie, and termination. *)
From Coq Require Import List ZArith QArith Qfield Bool Lia Lqa Sorting.Permutation.
From Verif.Model Require Import ListMem Run Mymath Tree.
From Verif.Spec Require Import Basic Octree.
From Verif.Proofs Require Import ListMemProofs ListExtra OctProofs.
Import ListNotations.
Local Open Scope nat_scope.

Lemma Qgtb_spec a b : Qgtb a b = true <-> (b < a)%Q.
Proof. unfold Qgtb. rewrite negb_true_iff. destruct (Qle_bool a b) eqn:E; split; try congruence; intros H. - apply Qle_bool_iff in E. lra. - apply Qnot_le_lt. intros H'. apply Qle_bool_iff in H'. congruence. Qed.
Lemma Qgtb_false a b : Qgtb a b = false <-> (a <= b)%Q.
Proof. unfold Qgtb. rewrite negb_false_iff. apply Qle_bool_iff. Qed.
Lemma son_of_lt c x : son_of c x < 8.
Proof. destruct c as [[c0 c1] c2], x as [[x0 x1] x2]. cbn [son_of]. destruct (Qgtb x0 c0), (Qgtb x1 c1), (Qgtb x2 c2); lia. Qed.

Definition inbox (b : vec * Q) (x : vec) : Prop := forall j, (- (snd b / 2) <= coord j x - coord j (fst b) <= snd b / 2)%Q.
(** The box followed during insertion against the box used in the update. *)
Definition follows (res : Q) (c : vec) (h : Q) (b : vec * Q) : Prop :=
  (0 <= h)%Q /\ ((2 * h == snd b /\ forall j, coord j c == coord j (fst b)) \/ (snd b < res /\ 2 * h < res))%Q.

Lemma inbox3 b x : inbox b x <-> (- (snd b / 2) <= coord 0 x - coord 0 (fst b) <= snd b / 2)%Q /\ (- (snd b / 2) <= coord 1 x - coord 1 (fst b) <= snd b / 2)%Q /\ (- (snd b / 2) <= coord 2 x - coord 2 (fst b) <= snd b / 2)%Q.
Proof.
  split; [intros H; repeat split; apply H|]. intros (H0 & H1 & H2) j. destruct j as [|[|j]]; [exact H0|exact H1|].
  replace (coord (S (S j)) x) with (coord 2 x) by (destruct x as [[? ?] ?]; reflexivity).
  replace (coord (S (S j)) (fst b)) with (coord 2 (fst b)) by (destruct (fst b) as [[? ?] ?]; reflexivity). exact H2.
Qed.
Lemma half_field (l : Q) : (l / 2 == l * (1 # 2))%Q. Proof. field. Qed.
Lemma quart_field (l : Q) : (l / 4 == l * (1 # 4))%Q. Proof. field. Qed.
Lemma all3 (P : nat -> Q -> Q -> Prop) (x y : vec) : P 0 (coord 0 x) (coord 0 y) -> P 1 (coord 1 x) (coord 1 y) -> (forall j, P (S (S j)) (coord 2 x) (coord 2 y)) -> forall j, P j (coord j x) (coord j y).
Proof. intros. destruct x as [[? ?] ?], y as [[? ?] ?]. destruct j as [|[|j]]; cbn in *; auto. Qed.

Lemma geo_box_deep res k b : (snd b < res)%Q -> geo_box res k b = b.
Proof. intros H. unfold geo_box. destruct (Qle_bool res (snd b)) eqn:E; [apply Qle_bool_iff in E; lra|reflexivity]. Qed.

Lemma step_box res c h b x : follows res c h b -> inbox b x ->
  inbox (geo_box res (son_of c x) b) x /\ follows res (son_center (h * (1 # 2)) c x) (h * (1 # 2))%Q (geo_box res (son_of c x) b).
Proof.
  intros [Hh Hf] Hb. destruct (Qlt_le_dec (snd b) res) as [Hlt|Hle].
  - rewrite geo_box_deep by exact Hlt. split; [exact Hb|]. split; [lra|]. right. split; [exact Hlt|]. destruct Hf as [[Hf _]|[_ Hf]]; lra.
  - destruct Hf as [[Hl Hc]|[Hf _]]; [|exfalso; lra].
    assert (E : Qle_bool res (snd b) = true) by (apply Qle_bool_iff; exact Hle).
    unfold geo_box. rewrite E. apply inbox3 in Hb. unfold follows. pose proof (Hc 0) as C0. pose proof (Hc 1) as C1. pose proof (Hc 2) as C2. clear Hc. destruct b as [[[b0 b1] b2] len], c as [[c0 c1] c2], x as [[x0 x1] x2].
    cbn [fst snd coord] in *. unfold Qdiv in Hb; change (/ 2)%Q with (1 # 2)%Q in Hb. destruct Hb as ([B0 B0'] & [B1 B1'] & [B2 B2']). clear E. rewrite inbox3. cbn [fst snd].
    cbn [son_of]. unfold son_center, vmap2.
    destruct (Qgtb x0 c0) eqn:E0, (Qgtb x1 c1) eqn:E1, (Qgtb x2 c2) eqn:E2;
      rewrite ?Qgtb_spec, ?Qgtb_false in E0; rewrite ?Qgtb_spec, ?Qgtb_false in E1; rewrite ?Qgtb_spec, ?Qgtb_false in E2; cbn [Nat.add]; unfold shift_center; 
      
      repeat match goal with |- context [Nat.testbit ?a ?b] => let v := eval vm_compute in (Nat.testbit a b) in change (Nat.testbit a b) with v end;
      cbn [coord]; unfold Qdiv; change (/ 2)%Q with (1 # 2)%Q; change (/ 4)%Q with (1 # 4)%Q;
      (split; [repeat split; lra|split; [lra|left; split; [lra|]]]);
      (intros [|[|j]]; lra).
Qed.

Section Insert.
  Context {W : Type}.
  Variable ps : list vec.
  Local Notation N := (Z.of_nat (length ps)).
  Variable res : Q.
  Variable rnd : nat -> nat.
  Hypothesis rnd8 : forall i, rnd i < 8.
  Implicit Types cells : list (cell W).
  Local Notation res_half := (res * (1 # 2))%Q.

  Fixpoint fits (b : vec * Q) (t : ot) : Prop :=
    match t with
    | OEmpty => True
    | OLeaf i => match nth_error ps i with Some x => inbox b x | None => False end
    | OCell _ sons => forall k, k < 8 -> fits (geo_box res k b) (sons k)
    end.

  Lemma place_box c h b s xs : follows res c h b -> inbox b xs -> exists k, k < 8 /\ k = (if Qgtb res_half h then rnd s else son_of c xs) /\ inbox (geo_box res k b) xs.
  Proof.
    intros Hf Hb. destruct (Qgtb res_half h) eqn:E.
    - exists (rnd s). split; [apply rnd8|]. split; [reflexivity|]. apply Qgtb_spec in E. rewrite geo_box_deep; [exact Hb|]. destruct Hf as [_ [[Hf _]|[Hf _]]]; lra.
    - exists (son_of c xs). split; [apply son_of_lt|]. split; [reflexivity|]. apply (step_box _ _ _ _ _ Hf Hb).
  Qed.

  Definition lone (k s : nat) : nat -> ot := set_at (fun _ => OEmpty) k (OLeaf s).
  (** The step that replaces a particle by a cell. *)
  Lemma split_ok cells node sons sub s k : wf ps cells (OCell node sons) -> sub < 8 -> k < 8 -> sons sub = OLeaf s ->
    let new := (N + Z.of_nat (length cells))%Z in
    exists cells1 cells2, set_son ps (append_cell cells) node sub new = Some cells1 /\ set_son ps cells1 new k (Z.of_nat s) = Some cells2 /\
      length cells2 = S (length cells) /\ wf ps cells2 (OCell new (lone k s)) /\
      wf ps cells2 (OCell node (set_at sons sub (OCell new (lone k s)))) /\
      (forall id, id <> node -> (id - N < Z.of_nat (length cells))%Z -> zget cells2 (id - N) = zget cells (id - N)).
  Proof.
    intros [HR ND] Hsub Hk Hs new. pose proof HR as HR0. destruct HR as (l & Hl & H8 & Hsons).
    assert (Hb := zget_some _ _ _ Hl).
    assert (Hl1 : zget (append_cell cells) (node - N) = Some (Sons l)) by (rewrite zget_append by lia; exact Hl).
    destruct (set_son_ok ps (append_cell cells) node l sub new Hl1) as (cells1 & l1 & E1 & U1 & L1 & G1 & F1); [lia|].
    assert (Hnew : zget cells1 (new - N) = Some (Sons (repeat (-1)%Z 8))).
    { rewrite F1 by (unfold new; lia). replace (new - N)%Z with (Z.of_nat (length cells)) by (unfold new; lia). apply zget_appended. }
    destruct (set_son_ok ps cells1 new _ k (Z.of_nat s) Hnew) as (cells2 & l2 & E2 & U2 & L2 & G2 & F2); [exact Hk|].
    assert (Hsn : s < length ps). { pose proof (proj2 (Hsons sub Hsub)) as H. rewrite Hs in H. exact H. }
    assert (Rnew : rep ps cells2 (OCell new (lone k s))).
    { apply (reassemble ps cells2 new l2); auto.
      - rewrite (upd_length _ _ _ _ U2). reflexivity.
      - intros j Hj. apply (upd_sons (fun _ => OEmpty) (repeat (-1)%Z 8) l2 k (OLeaf s)); [|exact U2|exact Hj].
        intros j' Hj'. cbn [root]. do 8 (destruct j' as [|j']; [reflexivity|]). lia.
      - intros; exact I. }
    assert (Cnew : cellids (OCell new (lone k s)) = [new]).
    { cbn [cellids]. f_equal. unfold lone, set_at. do 8 (destruct k as [|k]; [reflexivity|]). lia. }
    assert (HF : forall id, id <> node -> (id - N < Z.of_nat (length cells))%Z -> zget cells2 (id - N) = zget cells (id - N)).
    { intros id Hid Hlt. rewrite F2 by (unfold new; lia). rewrite F1 by lia. apply zget_append. lia. }
    exists cells1, cells2. split; [exact E1|]. split; [exact E2|]. split; [rewrite L2, L1, length_append; reflexivity|]. split; [|split; [split|exact HF]].
    - split; [exact Rnew|]. rewrite Cnew. constructor; [intros []|constructor].
    - apply (reassemble ps cells2 node l1); auto.
      + rewrite F2 by (unfold new; lia). exact G1.
      + rewrite (upd_length _ _ _ _ U1). exact H8.
      + apply (upd_sons sons l l1 sub (OCell new (lone k s))); [|exact U1]. intros j Hj. apply Hsons. exact Hj.
      + intros j Hj Hne. apply (rep_frame ps cells); [apply Hsons; exact Hj|]. intros id Hid. apply HF.
        * intros ->. apply (son_not_id _ _ j ND Hj Hid).
        * pose proof (rep_bounds ps _ _ _ (proj2 (Hsons j Hj)) Hid). lia.
    - apply (Permutation_NoDup (l := new :: cellids (OCell node sons))).
      + apply Permutation_sym. apply (cellids_set node sons sub (OCell new (lone k s)) [new] Hsub). rewrite Cnew, Hs. reflexivity.
      + constructor; [|exact ND]. intros Hin. pose proof (rep_bounds ps _ _ _ HR0 Hin). unfold new in *. lia.
  Qed.

  (** The empty slot. *)
  Lemma put_ok cells node sons sub i : wf ps cells (OCell node sons) -> sub < 8 -> i < length ps -> sons sub = OEmpty ->
    exists cells', set_son ps cells node sub (Z.of_nat i) = Some cells' /\ length cells' = length cells /\
      grown ps cells cells' i (OCell node sons) (OCell node (set_at sons sub (OLeaf i))).
  Proof.
    intros [HR ND] Hsub Hi Hs. pose proof HR as HR0. destruct HR as (l & Hl & H8 & Hsons).
    destruct (set_son_ok ps cells node l sub (Z.of_nat i) Hl) as (cells' & l' & E & U & L & G & F); [lia|].
    exists cells'. split; [exact E|]. split; [exact L|].
    assert (HC : Permutation (cellids (OCell node (set_at sons sub (OLeaf i)))) (cellids (OCell node sons))).
    { apply (cellids_set node sons sub (OLeaf i) []); [exact Hsub|]. rewrite Hs. reflexivity. }
    split; [split|split; [|split; [|split]]].
    - apply (reassemble ps cells' node l'); auto.
      + rewrite (upd_length _ _ _ _ U). exact H8.
      + apply (upd_sons sons l l' sub (OLeaf i)); [|exact U]. intros j Hj. apply Hsons. exact Hj.
      + intros j Hj Hne. apply (rep_frame ps cells); [apply Hsons; exact Hj|]. intros id Hid. apply F.
        intros Heq. assert (id = node) by lia. subst id. apply (son_not_id _ _ j ND Hj Hid).
    - apply (Permutation_NoDup (Permutation_sym HC) ND).
    - apply (leaves_set node sons sub (OLeaf i) [i]); [exact Hsub|]. rewrite Hs. reflexivity.
    - unfold new_ids. rewrite L, Nat.sub_diag. cbn [seq map app]. exact HC.
    - lia.
    - intros id Hid Hlt. apply F. intros Heq. assert (id = node) by lia. subst id. apply Hid. left. reflexivity.
  Qed.

  Lemma full_set node sons k t : k < 8 -> t <> OEmpty -> full t -> (forall j, j < 8 -> full (sons j)) -> full (OCell node (set_at sons k t)).
  Proof.
    intros Hk Hne Ht Ho. cbn [full]. split.
    - exists k. split; [exact Hk|]. unfold set_at. rewrite Nat.eqb_refl. exact Hne.
    - intros j Hj. unfold set_at. destruct (j =? k); [exact Ht|apply Ho; exact Hj].
  Qed.
  Lemma fits_set b node sons k t : k < 8 -> fits (geo_box res k b) t -> fits b (OCell node sons) -> fits b (OCell node (set_at sons k t)).
  Proof. intros Hk Ht Hf j Hj. unfold set_at. destruct (Nat.eqb_spec j k) as [->|]; [exact Ht|apply Hf; exact Hj]. Qed.

  Lemma new_ids_S cells cells2 cells' : length cells2 = S (length cells) -> length cells2 <= length cells' ->
    new_ids ps cells cells' = (N + Z.of_nat (length cells))%Z :: new_ids ps cells2 cells'.
  Proof.
    intros HL Hle. unfold new_ids. rewrite HL. replace (length cells' - length cells) with (S (length cells' - S (length cells))) by lia.
    cbn [seq map]. f_equal. lia.
  Qed.

  Lemma insert_ok : forall fuel i x node c h cells sons b, nth_error ps i = Some x -> wf ps cells (OCell node sons) ->
    (forall k, k < 8 -> full (sons k)) -> fits b (OCell node sons) -> inbox b x -> follows res c h b ->
    match insert ps res_half rnd fuel i node c h cells with
    | Crash => False
    | Running => True
    | Done cells' => exists sons', grown ps cells cells' i (OCell node sons) (OCell node sons') /\ full (OCell node sons') /\ fits b (OCell node sons')
    end.
  Proof.
    induction fuel as [|fuel IH]; intros i x node c h cells sons b Hx HW HFu HFi Hb Hf; cbn [insert]; [exact I|].
    rewrite Hx. set (sub := son_of c x). assert (Hsub : sub < 8) by apply son_of_lt.
    assert (Hi : i < length ps) by (apply nth_error_Some; congruence).
    destruct (step_box _ _ _ _ _ Hf Hb) as [Hb1 Hf1]. fold sub in Hb1, Hf1.
    rewrite (get_son_rep ps cells node sons sub (proj1 HW) Hsub).
    destruct (sons sub) as [|s|id sons1] eqn:Es.
    - cbn [root]. change ((-1 <? 0)%Z) with true. cbn iota.
      destruct (put_ok cells node sons sub i HW Hsub Hi Es) as (cells' & E & L & G). rewrite E. cbn [of_opt].
      exists (set_at sons sub (OLeaf i)). split; [exact G|]. split.
      + apply full_set; auto; [discriminate|exact I].
      + apply fits_set; auto. cbn [fits]. rewrite Hx. exact Hb1.
    - cbn [root]. destruct (Z.ltb_spec (Z.of_nat s) 0) as [|_]; [lia|].
      assert (Hs : s < length ps). { destruct (proj1 HW) as (l & _ & _ & Hl). pose proof (proj2 (Hl sub Hsub)) as H. rewrite Es in H. exact H. }
      destruct (Z.ltb_spec (Z.of_nat s) N) as [_|]; [|lia].
      rewrite zget_nat by lia. rewrite Nat2Z.id. pose proof (HFi sub Hsub) as Hfs. rewrite Es in Hfs. cbn [fits] in Hfs.
      destruct (nth_error ps s) as [xs|] eqn:Exs; [|destruct Hfs].
      destruct (place_box _ _ _ (S (length cells)) xs Hf1 Hfs) as (k & Hk & <- & Hbk).
      destruct (split_ok cells node sons sub s k HW Hsub Hk Es) as (cells1 & cells2 & E1 & E2 & L2 & W1 & W2 & HF2).
      rewrite E1. cbn [of_opt rbind]. rewrite E2. cbn [of_opt rbind].
      set (new := (N + Z.of_nat (length cells))%Z) in *.
      assert (Fl : fits (geo_box res sub b) (OCell new (lone k s))).
      { apply fits_set; [exact Hk| |intros j Hj; exact I]. cbn [fits]. rewrite Exs. exact Hbk. }
      specialize (IH i x new (son_center (h * (1 # 2)) c x) (h * (1 # 2))%Q cells2 (lone k s) (geo_box res sub b) Hx W1).
      assert (Hful : forall j, j < 8 -> full (lone k s j)). { intros j _. unfold lone, set_at. destruct (j =? k); exact I. }
      specialize (IH Hful Fl Hb1 Hf1).
      destruct (insert ps res_half rnd fuel i new (son_center (h * (1 # 2)) c x) (h * (1 # 2)) cells2) as [cells'| |]; [|exact IH|exact I].
      destruct IH as (sons' & G & Hfull & Hfits).
      pose proof (grown_son ps cells2 cells' node (set_at sons sub (OCell new (lone k s))) sub i (OCell new sons') W2 Hsub) as HG.
      assert (Eat : set_at sons sub (OCell new (lone k s)) sub = OCell new (lone k s)) by (unfold set_at; rewrite Nat.eqb_refl; reflexivity).
      rewrite Eat in HG. specialize (HG G eq_refl). destruct HG as ([HR' ND'] & HL' & HC' & Hlen & HF').
      exists (set_at sons sub (OCell new sons')).
      assert (Hrep : rep ps cells' (OCell node (set_at sons sub (OCell new sons')))).
      { destruct HR' as (l & Hl & H8 & Hl'). exists l. split; [exact Hl|]. split; [exact H8|]. intros j Hj. specialize (Hl' j Hj). unfold set_at in *. destruct (j =? sub); exact Hl'. }
      assert (Heq : cellids (OCell node (set_at sons sub (OCell new sons'))) = cellids (OCell node (set_at (set_at sons sub (OCell new (lone k s))) sub (OCell new sons')))).
      { cbn [cellids]. f_equal. rewrite !flat_map_concat_map. f_equal. apply map_ext. intros j. unfold set_at. destruct (j =? sub); reflexivity. }
      assert (Heq' : leaves (OCell node (set_at sons sub (OCell new sons'))) = leaves (OCell node (set_at (set_at sons sub (OCell new (lone k s))) sub (OCell new sons')))).
      { cbn [leaves]. rewrite !flat_map_concat_map. f_equal. apply map_ext. intros j. unfold set_at. destruct (j =? sub); reflexivity. }
      assert (Ca : Permutation (cellids (OCell node (set_at sons sub (OCell new (lone k s))))) (new :: cellids (OCell node sons))).
      { apply (cellids_set node sons sub (OCell new (lone k s)) [new] Hsub). rewrite Es. cbn [cellids app]. constructor. unfold lone, set_at.
        clear - Hk. do 8 (destruct k as [|k]; [reflexivity|]). lia. }
      assert (La : Permutation (leaves (OCell node (set_at sons sub (OCell new (lone k s))))) (leaves (OCell node sons))).
      { apply (leaves_set node sons sub (OCell new (lone k s)) [] Hsub). rewrite Es. cbn [leaves app]. unfold lone, set_at.
        clear - Hk. do 8 (destruct k as [|k]; [reflexivity|]). lia. }
      split; [|split].
      + split; [split; [exact Hrep|rewrite Heq; exact ND']|]. rewrite Heq, Heq'. split; [rewrite HL'; constructor; exact La|]. split; [|split].
        * rewrite HC'. rewrite Ca. rewrite (new_ids_S cells cells2 cells' L2 Hlen). cbn [app]. symmetry. apply Permutation_middle.
        * lia.
        * intros id Hid Hlt. rewrite HF'; [apply HF2; [|exact Hlt]|intros Hin|lia].
          { intros ->. apply Hid. left. reflexivity. }
          { apply (Permutation_in _ Ca) in Hin as [<-|Hin]; [unfold new in Hlt; lia|]. contradiction. }
      + apply full_set; auto. discriminate.
      + apply fits_set; auto.
    - destruct HW as [HR ND]. pose proof HR as HR0. destruct HR as (l & Hl & H8 & Hsons). pose proof (Hsons sub Hsub) as [_ HRs]. rewrite Es in HRs.
      pose proof (rep_bounds ps _ _ id HRs (or_introl eq_refl)) as Hid. cbn [root].
      destruct (Z.ltb_spec id 0); [lia|]. destruct (Z.ltb_spec id N); [lia|].
      pose proof (HFu sub Hsub) as Hfus. rewrite Es in Hfus. pose proof (HFi sub Hsub) as Hfis. rewrite Es in Hfis.
      pose proof (son_nodup _ _ _ ND Hsub) as NDs. rewrite Es in NDs.
      specialize (IH i x id (son_center (h * (1 # 2)) c x) (h * (1 # 2))%Q cells sons1 _ Hx (conj HRs NDs) (proj2 Hfus) Hfis Hb1 Hf1).
      destruct (insert ps res_half rnd fuel i id (son_center (h * (1 # 2)) c x) (h * (1 # 2)) cells) as [cells'| |]; [|exact IH|exact I].
      destruct IH as (sons' & G & Hfull & Hfits). exists (set_at sons sub (OCell id sons')). split; [|split].
      + apply grown_son; [split; assumption|exact Hsub|rewrite Es; exact G|rewrite Es; reflexivity].
      + apply full_set; auto. discriminate.
      + apply fits_set; auto.
  Qed.
End Insert.
