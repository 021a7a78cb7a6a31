(** Communication with machine integers (Model/IntCounts.v). *)
From Coq Require Import List ZArith Bool Lia Sorting.Sorted Sorting.Permutation.
From Verif.Model Require Import ListMem Run Mpi Exchange IntCounts.
From Verif.Spec Require Import Comm Exchange.
From Verif.Proofs Require Import ListMemProofs ListExtra MpiProofs ExchangeProofs ExchangeProofs2 ExchangeProofs3.
Import ListNotations.
Local Open Scope nat_scope.

Lemma fits_iff max n : fits max n = true <-> n <= max.
Proof. unfold fits. apply Nat.leb_le. Qed.
Lemma in_nsum x l : In x l -> x <= nsum l.
Proof. induction l; simpl; [tauto|]. intros [->|H]; [lia|]. specialize (IHl H). lia. Qed.
Lemma all_fit max l : nsum l <= max -> forallb (fits max) l = true.
Proof. intros H. apply forallb_forall. intros x Hx. apply fits_iff. pose proof (in_nsum _ _ Hx). lia. Qed.
Lemma offs_le o c x : In x (offs_from o c) -> x <= o + nsum c.
Proof. revert o; induction c as [|a c IH]; intros o; cbn; [tauto|]. intros [<-|H]; [lia|]. specialize (IH _ H). lia. Qed.
Lemma disps_fit max l : nsum l <= max -> forallb (fits max) (displacements l) = true.
Proof. intros H. rewrite displacements_eq. apply forallb_forall. intros x Hx. apply fits_iff. pose proof (offs_le _ _ _ Hx). lia. Qed.
Lemma mapM_ext_in {A B} (f g : A -> option B) l : (forall x, In x l -> f x = g x) -> mapM f l = mapM g l.
Proof. induction l as [|x l IH]; intros H; cbn; [reflexivity|]. rewrite (H x) by (left; reflexivity). rewrite IH; [reflexivity|]. intros y Hy. apply H. right; exact Hy. Qed.
Lemma Forall2_in_r {A B} (P : A -> B -> Prop) l l' y : Forall2 P l l' -> In y l' -> exists x, In x l /\ P x y.
Proof. induction 1 as [|x z l l' H HF IH]; cbn; [tauto|]. intros [->|Hy]; [eauto|]. destruct (IH Hy) as (w & ? & ?). eauto. Qed.

Lemma Forall2_in_l {A B} (P : A -> B -> Prop) l l' x : Forall2 P l l' -> In x l -> exists y, In y l' /\ P x y.
Proof. induction 1 as [|z y l l' H HF IH]; cbn; [tauto|]. intros [->|Hy]; [eauto|]. destruct (IH Hy) as (w & ? & ?). eauto. Qed.
Lemma mapM_F2' {A B} (f : A -> option B) l l' : mapM f l = Some l' -> Forall2 (fun x y => f x = Some y) l l'.
Proof.
  revert l'. induction l as [|x l IH]; intros l' E; cbn in E; [injection E as <-; constructor|].
  destruct (f x) eqn:Ex; [|discriminate]. destruct (mapM f l); [|discriminate]. injection E as <-. constructor; auto.
Qed.

(** ** One pass *)
Section Rounds.
  Context {A : Type}.
  Variable max N chunk W : nat.
  Variable rows : list (list (list A) * list nat).
  Hypothesis HN : 1 <= N.
  Hypothesis HW : length rows = W.
  Hypothesis Hshape : Forall (fun row => length (fst row) = W /\ Forall2 (fun s c => c <= length s) (fst row) (snd row)) rows.
  Hypothesis Hsum : Forall (fun row => nsum (snd row) <= N * chunk) rows.
  Hypothesis Hsend : chunk + W <= max.
  Hypothesis Hrecv : forall k i, i < W -> nsum (map (fun row => cnt_at N k (nth i (snd row) 0)) rows) <= max.

  Lemma switched k (cs : list nat) :
    map (fun cr => if k =? snd cr then fst cr - 1 else fst cr) (combine (map (cnt_before N k) cs) (map (fun c => c mod N) cs)) = map (cnt_at N k) cs.
  Proof. induction cs as [|c cs IH]; cbn [map combine fst snd]; [reflexivity|]. rewrite IH. f_equal. apply switch_one. Qed.

  Lemma round_int k sts : k < N -> inv N chunk W rows k sts -> a2a_round_int max k sts = a2a_round k sts.
  Proof using All.
    intros Hk Hinv. unfold a2a_round_int, a2a_round.
    assert (E : forallb (sends_fit max) (map (switch_counts k) sts) = true).
    { apply forallb_forall. intros st0 Hin. apply in_map_iff in Hin as (st & <- & Hin).
      destruct (Forall2_in_r _ _ _ _ Hinv Hin) as ([i row] & Hir & _ & H2 & H3 & _). cbn [fst snd] in *.
      apply in_combine_r in Hir. unfold sends_fit, switch_counts. cbn [a_cnt].
      rewrite H2, H3, switched. pose proof (round_fits N chunk W rows HN HW Hshape Hsum k row Hir) as Hf.
      rewrite all_fit, disps_fit by lia. reflexivity. }
    rewrite E. destruct (pack_round N chunk W rows HN HW Hshape Hsum k sts Hk Hinv) as (sts1 & E1 & H1). rewrite E1.
    apply mapM_ext_in. intros [r st] Hin. cbn [fst snd]. apply in_combine_l in Hin. apply in_seq in Hin.
    assert (Hl : length sts1 = length rows).
    { rewrite <- (Forall2_length_eq _ _ _ H1), combine_length, seq_length. lia. }
    unfold receive_rank_int.
    assert (Ec : mapM (fun s => nth_error (a_cnt s) r) sts1 = Some (map (fun row => cnt_at N k (nth r (snd row) 0)) rows)).
    { apply mapM_eq. eapply (Forall2_rows W rows HW Hshape); [|exact H1]. intros [j row'] s Hin' (Q1 & Q2 & _). cbn [fst snd] in *.
      rewrite Q2, nth_error_map. destruct (row_facts N chunk W rows Hshape Hsum _ Hin') as (_ & R2 & _).
      destruct (nth_error_in_range (snd row') r) as [c Hc]; [lia|]. rewrite Hc, (nth_error_nth _ _ 0 Hc). reflexivity. }
    rewrite Ec. pose proof (Hrecv k r ltac:(lia)) as Hr.
    rewrite all_fit, disps_fit by exact Hr. cbn [andb]. rewrite total_eq.
    replace (fits max _) with true; [reflexivity|]. symmetry. apply fits_iff. exact Hr.
  Qed.

  Lemma rounds_int : forall n k sts, k + n = N -> inv N chunk W rows k sts -> for_range k n (a2a_round_int max) sts = for_range k n a2a_round sts.
  Proof using All.
    induction n as [|n IH]; intros k sts Hk Hi; cbn [for_range]; [reflexivity|].
    rewrite round_int by (auto; lia).
    destruct (round_inv N chunk W rows HN HW Hshape Hsum k sts ltac:(lia) Hi) as (sts' & E & Hi'). rewrite E.
    apply IH; [lia|exact Hi'].
  Qed.
End Rounds.

(** ** The whole exchange *)
Lemma nsum_list_sum l : nsum l = list_sum l.
Proof. induction l as [|x l IH]; cbn; [reflexivity|]. rewrite IH. reflexivity. Qed.
Lemma cnt_at_le_chunk N chunk k c : 1 <= N -> c <= N * chunk -> cnt_at N k c <= chunk.
Proof.
  intros HN Hc. unfold cnt_at. pose proof (Nat.div_mod c N ltac:(lia)) as E. pose proof (Nat.mod_upper_bound c N ltac:(lia)).
  destruct (Nat.ltb_spec k (c mod N)); [|nia]. assert (N * (c / N) < N * chunk) by lia. assert (c / N < chunk) by nia. lia.
Qed.
Lemma cnt_at_le N k c : 1 <= N -> cnt_at N k c <= c.
Proof.
  intros HN. unfold cnt_at. pose proof (Nat.div_mod c N ltac:(lia)) as E. 
  destruct (Nat.ltb_spec k (c mod N)); nia.
Qed.
Lemma nsum_map_le {X} (f g : X -> nat) l : (forall x, In x l -> f x <= g x) -> nsum (map f l) <= nsum (map g l).
Proof. induction l as [|x l IH]; intros H; cbn; [lia|]. pose proof (H x (or_introl eq_refl)). specialize (IH (fun y Hy => H y (or_intror Hy))). lia. Qed.
Lemma nsum_const {X} (l : list X) c : nsum (map (fun _ => c) l) = length l * c.
Proof. induction l as [|x l IH]; cbn; [reflexivity|]. rewrite IH. reflexivity. Qed.
Lemma map_snd_combine {X Y} (l : list X) (m : list Y) : length l = length m -> map snd (combine l m) = m.
Proof. revert m; induction l as [|x l IH]; intros [|y m] H; cbn in *; try lia; [reflexivity|]. f_equal. apply IH. lia. Qed.

Lemma all_to_all_int_eq {A} max hmax chunk W (data : list (list (list A))) counts :
  1 <= chunk -> well_formed W data counts ->
  Forall (fun cs => list_sum cs <= hmax) counts -> chunk + W <= max ->
  (W * chunk <= max \/ forall r, r < W -> list_sum (map (fun cs => nth r cs 0) counts) <= max) ->
  my_all_to_all_int max hmax chunk data counts = my_all_to_all chunk data counts.
Proof.
  intros Hc Hwf Hh Hs Hr. destruct (a2a_setup chunk W data counts Hc Hwf) as (HW & Hshape & Hsum & Hinit).
  destruct Hwf as ((Hd1 & Hd2) & (Hn1 & Hn2) & Hle).
  unfold my_all_to_all_int, my_all_to_all.
  assert (E : forallb (fun cs => fits hmax (nsum cs)) counts = true).
  { apply forallb_forall. intros cs Hin. apply fits_iff. rewrite nsum_list_sum. rewrite Forall_forall in Hh. apply Hh. exact Hin. }
  rewrite E. cbv zeta. set (N := nmax (map (loops_of chunk) counts)) in *. destruct (Nat.eqb_spec N 0) as [H0|H0]; [reflexivity|].
  set (rows := combine data counts) in *. set (init := map _ rows) in *.
  assert (E2 : forallb (fun st => forallb (fits max) (a_cnt st)) init = true).
  { apply forallb_forall. intros st Hin. apply in_map_iff in Hin as (row & <- & Hin). cbn [a_cnt].
    apply forallb_forall. intros x Hx. apply in_map_iff in Hx as (c & <- & Hx). apply fits_iff.
    rewrite Forall_forall in Hsum. specialize (Hsum row Hin). pose proof (in_nsum _ _ Hx).
    assert (c / N <= chunk). { apply Nat.div_le_upper_bound; [exact H0|]. lia. }
    assert (1 <= W). { rewrite <- HW. destruct rows; [destruct Hin|cbn; lia]. } lia. }
  rewrite E2. rewrite (rounds_int max N chunk W rows); try assumption; try lia; [reflexivity|].
  intros k i Hi. destruct Hr as [Hr|Hr].
  - eapply Nat.le_trans; [|exact Hr]. rewrite <- HW, <- nsum_const. apply nsum_map_le. intros row Hin.
    apply cnt_at_le_chunk; [lia|]. rewrite Forall_forall in Hsum. specialize (Hsum row Hin).
    destruct (nth_in_or_default i (snd row) 0) as [Hx| ->]; [pose proof (in_nsum _ _ Hx); lia|lia].
  - eapply Nat.le_trans; [|apply (Hr i Hi)]. rewrite <- (nsum_list_sum (map _ counts)).
    replace (map (fun cs => nth i cs 0) counts) with (map (fun row : list (list A) * list nat => nth i (snd row) 0) rows)
      by (rewrite <- (map_map snd (fun cs => nth i cs 0)); unfold rows; rewrite map_snd_combine by lia; reflexivity).
    apply nsum_map_le. intros row Hin. apply cnt_at_le. lia.
Qed.

(** Too many processes sending a full chunk to the same one. *)
Lemma mapM_none {A B} (f : A -> option B) l x : In x l -> f x = None -> mapM f l = None.
Proof.
  induction l as [|y l IH]; cbn; [tauto|]. intros [->|H] E; [rewrite E; reflexivity|]. rewrite (IH H E). destruct (f y); reflexivity.
Qed.
Lemma mapM_repeat {A B} (f : A -> option B) n l x y : Forall (fun a => f a = Some y) l -> length l = n -> x = y -> mapM f l = Some (repeat x n).
Proof. intros HF <- ->. induction HF as [|a l H HF IH]; cbn; [reflexivity|]. rewrite H, IH. reflexivity. Qed.
Lemma nsum_repeat n x : nsum (repeat x n) = n * x.
Proof. induction n as [|n IH]; cbn; [reflexivity|]. rewrite IH. reflexivity. Qed.
Lemma nmax_repeat n x : 1 <= n -> nmax (repeat x n) = x.
Proof. intros Hn. destruct n as [|n]; [lia|]. clear Hn. induction n as [|n IH]; [cbn; lia|]. change (Nat.max x (nmax (repeat x (S n))) = x). rewrite IH. lia. Qed.
Lemma map_repeat' {A B} (f : A -> B) n x : map f (repeat x n) = repeat (f x) n.
Proof. induction n as [|n IH]; cbn; [reflexivity|]. rewrite IH. reflexivity. Qed.
Lemma combine_repeat {A B} n (x : A) (y : B) : combine (repeat x n) (repeat y n) = repeat (x, y) n.
Proof. induction n as [|n IH]; cbn; [reflexivity|]. rewrite IH. reflexivity. Qed.

Lemma all_to_all_overflow {A} max hmax chunk W (x : A) : 1 <= chunk -> 1 <= W -> max < W * chunk ->
  my_all_to_all_int max hmax chunk (repeat (repeat x chunk :: repeat [] (W - 1)) W) (repeat (chunk :: repeat 0 (W - 1)) W) = None.
Proof.
  intros Hc HW Hover. unfold my_all_to_all_int. destruct (forallb _ _); [|reflexivity]. cbv zeta.
  rewrite map_repeat', nmax_repeat by exact HW.
  assert (EL : loops_of chunk (chunk :: repeat 0 (W - 1)) = 1).
  { unfold loops_of. cbn [nsum]. rewrite nsum_repeat. symmetry. apply (Nat.div_unique _ _ 1 (chunk - 1)); lia. }
  rewrite EL. cbn [Nat.eqb]. rewrite repeat_length, combine_repeat, map_repeat'. cbn [fst snd].
  set (st := mka2a _ _ _ _ _). destruct (forallb _ _); [|reflexivity].
  cbn [for_range]. unfold a2a_round_int at 1. rewrite map_repeat'. destruct (forallb _ _); [|reflexivity].
  destruct (mapM pack_rank (repeat (switch_counts 0 st) W)) as [sts1|] eqn:E; [|reflexivity].
  rewrite (mapM_none _ _ (0, nth 0 sts1 st)); [reflexivity| |].
  - pose proof (mapM_length _ _ _ E) as Hl. rewrite repeat_length in Hl. destruct sts1 as [|s1 r1]; [cbn in Hl; lia|]. left. reflexivity.
  - cbn [fst snd]. unfold receive_rank_int.
    assert (Hcol : mapM (fun s => nth_error (a_cnt s) 0) sts1 = Some (repeat chunk W)).
    { apply (mapM_repeat _ _ _ _ chunk); [|rewrite (mapM_length _ _ _ E); apply repeat_length|reflexivity].
      apply Forall_forall. intros s Hs. destruct (Forall2_in_r _ _ _ _ (mapM_F2' _ _ _ E) Hs) as (s0 & H0 & Ep). apply repeat_spec in H0. subst s0.
      unfold pack_rank in Ep. destruct (pack _ _ _ _) as [[b its]|]; [|discriminate]. injection Ep as <-. cbn [a_cnt].
      unfold st, switch_counts. cbn [a_cnt a_rem map combine fst snd nth_error]. change (Some (chunk / 1 + 1 - 1) = Some chunk). rewrite Nat.div_1_r. f_equal. lia. }
    rewrite Hcol. rewrite total_eq, nsum_repeat. replace (fits max (W * chunk)) with false; [rewrite andb_false_r; reflexivity|].
    symmetry. unfold fits. apply Nat.leb_gt. exact Hover.
Qed.

(** ** Broadcast *)
Lemma bcast_int_eq {A} max chunk W (input : list A) count : 1 <= chunk -> chunk < max -> count <= chunk * max ->
  my_bcast_int max chunk W input count = my_bcast chunk W input count.
Proof.
  intros Hc Hm Hn. unfold my_bcast_int. set (N := (count + chunk - 1) / chunk). destruct (Nat.eqb_spec N 0) as [H0|H0].
  - unfold my_bcast. fold N. rewrite (proj2 (Nat.eqb_eq N 0) H0). reflexivity.
  - assert (Hb : count <= N * chunk).
    { unfold N. pose proof (Nat.div_mod (count + chunk - 1) chunk ltac:(lia)). pose proof (Nat.mod_upper_bound (count + chunk - 1) chunk ltac:(lia)). nia. }
    assert (HN : N <= max).
    { unfold N. assert (N < S max); [|unfold N in *; lia]. apply Nat.div_lt_upper_bound; [lia|]. nia. }
    assert (E1 : fits max (count / N + 1) = true).
    { apply fits_iff. assert (count / N <= chunk) by (apply Nat.div_le_upper_bound; lia). lia. }
    assert (E2 : fits max (count mod N) = true).
    { apply fits_iff. pose proof (Nat.mod_upper_bound count N H0). lia. }
    rewrite E1, E2. reflexivity.
Qed.

(** ** Sharing the particles out *)
Section Exchange.
  Context {P : Type}.
  Variable pid : P -> Z.
  Variable sort : list P -> list P.
  Hypothesis sort_perm : forall l, Permutation (sort l) l.
  Variable max hmax : nat.

  Lemma slices_bound (o : list nat) (l : list P) out : slices o l = Some out -> 2 <= length o ->
    (forall x, In x o -> x <= length l) /\ (forall s, In s out -> length s <= length l).
  Proof.
    revert out. induction o as [|a [|b o] IH]; intros out E Hl; [cbn in Hl; lia..|].
    rewrite slices_eq in E. destruct (Nat.leb_spec a b); [|discriminate]. destruct (Nat.leb_spec b (length l)); [|discriminate]. cbn [andb] in E.
    destruct (slices (b :: o) l) as [r|] eqn:Er; [|discriminate]. injection E as <-.
    destruct o as [|c o].
    - cbn in Er. injection Er as <-. split.
      + intros x [<-|[<-|[]]]; lia.
      + intros s [<-|[]]. rewrite firstn_length, skipn_length. lia.
    - destruct (IH r eq_refl ltac:(cbn; lia)) as [I1 I2]. split.
      + intros x [<-|Hx]; [lia|auto].
      + intros s [<-|Hs]; [rewrite firstn_length, skipn_length; lia|auto].
  Qed.

  Lemma exchange_int_of fuel (parts : list (list P)) new ranges :
    exchange_particles pid sort fuel parts = Done (new, ranges) ->
    length (concat parts) <= hmax -> Forall (fun l => length l <= max) parts -> length parts <= max -> 1 <= length parts ->
    Forall (fun l => length l <= max) new ->
    (forall offs, partition fuel (map (map pid) (map sort parts)) = Done offs -> Forall (fun o => 2 <= length o) offs) ->
    exchange_particles_int pid sort max hmax fuel parts = Done (new, ranges).
  Proof using sort_perm.
    intros E Hh Hp HW H1 Hnew Hoffs. unfold exchange_particles in E. unfold exchange_particles_int.
    assert (E0 : fits hmax (length (concat parts)) && forallb (fun l => fits max (length l)) (map sort parts) &&
      fits max (length (concat parts) mod length parts) = true).
    { rewrite !andb_true_iff. repeat split.
      - apply fits_iff. exact Hh.
      - apply forallb_forall. intros l Hl. apply in_map_iff in Hl as (l0 & <- & Hl). apply fits_iff. rewrite (Permutation_length (sort_perm l0)).
        rewrite Forall_forall in Hp. apply Hp. exact Hl.
      - apply fits_iff. pose proof (Nat.mod_upper_bound (length (concat parts)) (length parts) ltac:(lia)). lia. }
    rewrite E0. destruct (partition fuel (map (map pid) (map sort parts))) as [offs| |]; [|discriminate..].
    specialize (Hoffs offs eq_refl).
    destruct (mapM (fun ol => send_slices (fst ol) (snd ol)) (combine offs (map sort parts))) as [sent|] eqn:Es; [|discriminate].
    assert (Hrow : forall ol, In ol (combine offs (map sort parts)) -> length (snd ol) <= max /\ 2 <= length (fst ol)).
    { intros [o l] Hin. cbn [fst snd]. pose proof (in_combine_l _ _ _ _ Hin) as Ho. apply in_combine_r in Hin. split.
      - apply in_map_iff in Hin as (l0 & <- & Hl). rewrite (Permutation_length (sort_perm l0)). rewrite Forall_forall in Hp. apply Hp. exact Hl.
      - rewrite Forall_forall in Hoffs. apply Hoffs. exact Ho. }
    pose proof (mapM_F2' _ _ _ Es) as HF.
    assert (E1 : forallb (offsets_fit max) (combine offs (map sort parts)) = true).
    { apply forallb_forall. intros ol Hin. destruct (Forall2_in_l _ _ _ _ HF Hin) as (out & _ & Eo). destruct (Hrow ol Hin) as [R1 R2].
      unfold send_slices in Eo. unfold offsets_fit. destruct (upd (fst ol) (length (fst ol) - 1) (length (snd ol))) as [o|] eqn:Eu; [|discriminate].
      assert (Hlo : length o = length (fst ol)) by (eapply upd_length; exact Eu).
      destruct (slices_bound o (snd ol) out Eo ltac:(lia)) as [B1 _]. apply forallb_forall. intros x Hx. apply fits_iff. specialize (B1 x Hx). lia. }
    rewrite E1.
    destruct (mapM (receive sent) (seq 0 (length parts))) as [recvd|] eqn:Er; [|discriminate].
    assert (E2 : forallb (forallb (fun s => fits max (length s))) sent = true).
    { apply forallb_forall. intros out Hout. destruct (Forall2_in_r _ _ _ _ HF Hout) as (ol & Hin & Eo). destruct (Hrow ol Hin) as [R1 R2].
      unfold send_slices in Eo. destruct (upd (fst ol) (length (fst ol) - 1) (length (snd ol))) as [o|] eqn:Eu; [|discriminate].
      assert (Hlo : length o = length (fst ol)) by (eapply upd_length; exact Eu).
      destruct (slices_bound o (snd ol) out Eo ltac:(lia)) as [_ B2]. apply forallb_forall. intros s Hs. apply fits_iff. specialize (B2 s Hs). lia. }
    assert (Hrecvd : forall l, In l recvd -> length l <= max).
    { intros l Hl. cbv zeta in E. destruct (mapM _ (map sort recvd)) as [fs|]; [|discriminate]. destruct (mapM _ (map sort recvd)) as [ls|]; [|discriminate].
      destruct (nth_error ls _); [|discriminate]. injection E as <- _. rewrite <- (Permutation_length (sort_perm l)).
      rewrite Forall_forall in Hnew. apply Hnew. apply in_map. exact Hl. }
    assert (E3 : forallb (receive_fit max sent) (seq 0 (length parts)) = true).
    { apply forallb_forall. intros r Hr. pose proof (mapM_F2' _ _ _ Er) as HR. destruct (Forall2_in_l _ _ _ _ HR Hr) as (l & Hl & El).
      unfold receive in El. unfold receive_fit. destruct (mapM (fun row => nth_error row r) sent) as [segs|]; [|discriminate].
      injection El as <-. apply disps_fit. rewrite <- concat_length_nsum. apply Hrecvd. exact Hl. }
    rewrite E2, E3. exact E.
  Qed.
End Exchange.

Lemma concat_length_le {P} max (parts : list (list P)) : Forall (fun l => length l <= max) parts -> length (concat parts) <= length parts * max.
Proof. induction 1 as [|l parts H HF IH]; cbn; [lia|]. rewrite app_length. lia. Qed.
Lemma share_le n W i max : 1 <= W -> n <= W * max -> share n W i <= max.
Proof. intros HW Hn. apply (cnt_at_le_chunk W max i n HW Hn). Qed.

Lemma exchange_int_correct {P} (pid : P -> Z) (sort : list P -> list P) max hmax :
  (forall l, Permutation (sort l) l) -> (forall l, StronglySorted Z.le (map pid (sort l))) ->
  forall parts, NoDup (map pid (concat parts)) -> 1 <= length parts -> length parts <= length (concat parts) ->
  length (concat parts) <= hmax -> length parts <= max -> Forall (fun l => length l <= max) parts ->
  forall fuel, length (concat parts) + length parts < fuel ->
  exists new ranges, exchange_particles_int pid sort max hmax fuel parts = Done (new, ranges) /\ redistributed pid parts new ranges.
Proof.
  intros Hperm Hsort parts Hnd HW HnW Hh Hm Hp fuel Hf.
  destruct (exchange_correct pid sort Hperm Hsort parts Hnd HW HnW fuel Hf) as (new & ranges & E & R).
  exists new, ranges. split; [|exact R]. apply exchange_int_of; try assumption.
  - destruct R as (R1 & R2 & R3 & _). apply Forall_forall. intros l Hl. apply In_nth_error in Hl as [i Hi]. rewrite (R3 i l Hi).
    apply share_le; [exact HW|]. apply concat_length_le. exact Hp.
  - intros offs Eo. destruct (partition_spec fuel (map (map pid) (map sort parts))) as (offs' & Eo' & Hok).
    + apply lists_fine; assumption.
    + rewrite !map_length. exact HW.
    + rewrite !map_length. rewrite concat_map_map, map_length, (Permutation_length (concat_map_perm sort parts Hperm)). exact Hf.
    + rewrite Eo in Eo'. injection Eo' as <-. destruct Hok as (_ & O2 & _). rewrite !map_length in O2.
      rewrite Forall_forall in O2 |- *. intros o Ho. specialize (O2 o Ho). lia.
Qed.

Lemma exchange_int_overflow {P} (pid : P -> Z) (sort : list P -> list P) max hmax fuel parts l :
  (forall l, Permutation (sort l) l) -> In l parts -> max < length l -> exchange_particles_int pid sort max hmax fuel parts = Crash.
Proof.
  intros Hperm Hin Hl. unfold exchange_particles_int.
  replace (forallb (fun l0 => fits max (length l0)) (map sort parts)) with false; [rewrite andb_false_r; reflexivity|].
  symmetry. apply not_true_is_false. intros H. rewrite forallb_forall in H. specialize (H (sort l) (in_map sort _ _ Hin)).
  apply fits_iff in H. rewrite (Permutation_length (Hperm l)) in H. lia.
Qed.

(** ** [SyncContainer] *)
Lemma to_int_small n : (0 <= n < 2 ^ 31)%Z -> to_int n = n.
Proof. intros H. unfold to_int. rewrite Z.mod_small; lia. Qed.
Lemma to_int_wrap k n : (0 <= n < 2 ^ 31)%Z -> to_int (k * 2 ^ 32 + n) = n.
Proof.
  intros H. unfold to_int. replace (k * 2 ^ 32 + n + 2 ^ 31)%Z with (n + 2 ^ 31 + k * 2 ^ 32)%Z by lia.
  rewrite Z_mod_plus_full, Z.mod_small; lia.
Qed.
Lemma to_int_negative k n : (2 ^ 31 <= n < 2 ^ 32)%Z -> to_int (k * 2 ^ 32 + n) = (n - 2 ^ 32)%Z.
Proof.
  intros H. unfold to_int. replace (k * 2 ^ 32 + n + 2 ^ 31)%Z with (n - 2 ^ 31 + (k + 1) * 2 ^ 32)%Z by lia.
  rewrite Z_mod_plus_full, Z.mod_small; lia.
Qed.
