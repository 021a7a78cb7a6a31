From Coq Require Import List ZArith NArith Bool Lia Arith.
From Coq Require Import ZifyBool ZifyNat ZifyN.
From Verif.Model Require Import Mymath Mpi Gadget.
From Verif.Spec Require Import Basic Gadget.
From Verif.Proofs Require Import MymathProofs MymathProofs2 GadgetProofs GadgetFile.
From Verif.Proofs Require HostProofs CatalogueProofs.
Import ListNotations.
Local Open Scope Z_scope.
Ltac Zify.zify_post_hook ::= idtac.

Section Load.
  Context {R : Type}.
  Variable real : list N -> R.
  Variable is_zero box_matches : list N -> bool.
  Variable wrap : R -> R.
  Variable speed : list N -> R -> R.
  Variables periodic has_id rank_style id_unsigned dm_only thermal : bool.
  Variable hbtint_size : Z.
  Variable disk : name -> option (list N).
  Variables (sw : bool) (w wi : nat) (cs : list content).
  Notation valid := (valid_content has_id id_unsigned w wi).
  Notation encoded := (encode is_zero has_id thermal sw wi).
  Notation files := (map encoded cs).
  Hypothesis HL : laid_out disk files.
  Hypothesis HV : Forall valid cs.
  Lemma valid_nth k c : nth_error cs k = Some c -> valid c.
  Proof using HV. intros E. rewrite Forall_forall in HV. apply HV, (nth_error_In _ _ E). Qed.
  Lemma file_nth k c : nth_error cs k = Some c -> nth_error files k = Some (encoded c).
  Proof using. intros E. rewrite nth_error_map, E. reflexivity. Qed.
  Lemma number_ok k c : nth_error cs k = Some c -> number_of_particles dm_only disk (Z.of_nat k) = Some (Z.of_nat (length (selected dm_only c))).
  Proof using HL HV box_matches speed.
    intros E. destruct (open_header is_zero has_id id_unsigned thermal disk sw w wi c _ _ HL (file_nth _ _ E) (valid_nth _ _ E)) as [O1 O2]. unfold number_of_particles. rewrite O1, O2.
    destruct (entries_part box_matches speed has_id id_unsigned dm_only w wi c 0 (valid_nth _ _ E)) as (_ & _ & _ & _ & n & En & Hn). unfold entries in Hn. rewrite combine_length, seq_length, Nat.min_id in Hn.
    assert (Hnn : forall z, In z (h_npart (header_of c)) -> 0 <= z) by (cbn [header_of h_npart]; intros z Hz; apply in_map_iff in Hz as (l & <- & _); lia).
    destruct dm_only.
    - rewrite En. f_equal. specialize (Hnn _ (nth_error_In _ _ En)). lia.
    - f_equal. cbn [header_of h_npart] in *. rewrite sum_counts in *. lia.
  Qed.
  Definition before_file (k : nat) : nat := length (flat_map (selected dm_only) (firstn k cs)).
  Lemma range_seq n : range 0 (Z.of_nat n) = map Z.of_nat (seq 0 n).
  Proof using. unfold range. rewrite Z.sub_0_r, Nat2Z.id. apply map_ext. intros k. lia. Qed.
  Lemma numbers_ok : mapM (number_of_particles dm_only disk) (range 0 (Z.of_nat (length cs))) = Some (map (fun c => Z.of_nat (length (selected dm_only c))) cs).
  Proof using HL HV box_matches speed.
    rewrite range_seq. assert (G : forall l k, (forall i c, nth_error l i = Some c -> nth_error cs (k + i) = Some c) -> mapM (number_of_particles dm_only disk) (map Z.of_nat (seq k (length l))) = Some (map (fun c => Z.of_nat (length (selected dm_only c))) l)).
    { induction l as [|c l IH]; intros k H; [reflexivity|]. cbn [length seq map mapM]. rewrite (number_ok k c) by (rewrite <- (Nat.add_0_r k); apply H; reflexivity). rewrite IH; [reflexivity|]. intros i x Hi. replace (S k + i)%nat with (k + S i)%nat by lia. apply H. exact Hi. }
    apply G. intros i c Hi. exact Hi.
  Qed.
  Lemma offset_ok k c : nth_error cs k = Some c -> nth_error (fst (compile_offsets (map (fun c => Z.of_nat (length (selected dm_only c))) cs))) k = Some (Z.of_nat (before_file k)).
  Proof using.
    intros E. pose proof (compile_offsets_correct (map (fun c => Z.of_nat (length (selected dm_only c))) cs)) as HC. destruct (compile_offsets _) as [offs tot]. destruct HC as (_ & H2 & H3 & _).
    { apply Forall_forall. intros z Hz. apply in_map_iff in Hz as (x & <- & _). lia. }
    cbn [fst]. rewrite map_length in H2. assert (k < length offs)%nat by (rewrite H2; apply nth_error_Some; congruence). destruct (nth_error offs k) as [o|] eqn:Eo; [|apply nth_error_None in Eo; lia]. f_equal. rewrite (H3 _ _ Eo). unfold before_file. rewrite firstn_map.
    generalize (firstn k cs). intros l. induction l as [|x l IH]; [reflexivity|]. cbn [map zsum flat_map]. rewrite IH, app_length. lia.
  Qed.

  Variables (c0 : content) (cr : list content).
  Hypothesis Hcs : cs = c0 :: cr.
  Hypothesis Hne : particles_of c0 <> [].
  Hypothesis Hfiles : c_files c0 = Z.of_nat (length cs).
  Hypothesis Hbox : box_matches (c_box c0) = true.
  Hypothesis Hw : w = 4%nat \/ w = 8%nat.
  Hypothesis Hint : has_id = true -> Z.of_nat wi <= hbtint_size /\ rank_style = false.
  Lemma id_width : has_id = true -> wi = 4%nat \/ wi = 8%nat.
  Proof using Hne Hcs HV.
    intros Hi. destruct (valid_nth 0 c0 ltac:(rewrite Hcs; reflexivity)) as (_ & _ & _ & _ & _ & _ & _ & _ & V9 & _). destruct (particles_of c0) as [|p ps]; [congruence|]. apply Forall_inv in V9. destruct V9 as (_ & _ & _ & _ & H). apply H. exact Hi.
  Qed.
  Lemma load_header_ok : load_header box_matches has_id dm_only hbtint_size disk =
    Some (mkinfo sw (header_of c0) (Z.of_nat w) (if has_id then Z.of_nat wi else 0) (map (fun c => Z.of_nat (length (selected dm_only c))) cs)
      (fst (compile_offsets (map (fun c => Z.of_nat (length (selected dm_only c))) cs)))).
  Proof using HL HV Hcs Hne Hfiles Hbox Hw Hint speed.
    assert (E0 : nth_error cs 0 = Some c0) by (rewrite Hcs; reflexivity). pose proof (valid_nth _ _ E0) as HV0.
    destruct (open_header is_zero has_id id_unsigned thermal disk sw w wi c0 _ _ HL (file_nth _ _ E0) HV0) as [O1 O2]. unfold load_header. change 0 with (Z.of_nat 0) at 1. rewrite O1, O2. cbn [header_of h_box h_npart h_num_files]. rewrite Hbox. cbn [negb].
    rewrite sum_counts, Z.add_0_l. change (concat (c_types c0)) with (particles_of c0). unfold after_header.
    destruct HV0 as (V1 & V2 & V3 & V4 & V5 & V6 & V7 & V8 & V9 & V10 & V11). rewrite Forall_forall in V9. set (ps := particles_of c0) in *. assert (Hn : (0 < length ps)%nat) by (destruct ps; [congruence|cbn [length]; lia]). assert (Hw8 : (w <= 8)%nat) by lia.
    assert (Lx : forall f : stored_particle -> list N * list N * list N, length (flat_map (fun p => xyz (f p)) ps) = (length ps * 3)%nat) by (intros f; apply flat_length; intros p; destruct (f p) as [[x y] z]; reflexivity).
    rewrite (skip_cur _ _ sw w); [|apply xyz_words; intros p Hp; apply (V9 p Hp)|rewrite Lx; nia]. destruct (Z.eqb_spec (Z.of_nat (length ps)) 0) as [|_]; [lia|]. rewrite Lx.
    assert (Eq : Z.quot (Z.quot (Z.of_nat (length ps * 3 * w)) (Z.of_nat (length ps))) 3 = Z.of_nat w).
    { replace (Z.of_nat (length ps * 3 * w)) with (Z.of_nat w * 3 * Z.of_nat (length ps)) by lia. rewrite Z.quot_mul by lia. rewrite Z.quot_mul by lia. reflexivity. }
    rewrite Eq. assert (Ew : (4 =? Z.of_nat w) || (8 =? Z.of_nat w) = true) by (destruct Hw as [-> | ->]; reflexivity). rewrite Ew. cbn [negb].
    rewrite (skip_cur _ _ sw w); [|apply xyz_words; intros p Hp; apply (V9 p Hp)|rewrite Lx; nia]. rewrite Lx. destruct (Z.eqb_spec (Z.of_nat (length ps * 3 * w)) (Z.of_nat w * Z.of_nat (length ps) * 3)) as [_|]; [|lia]. cbn [negb].
    rewrite Hfiles, numbers_ok. pose proof id_width as Hwi. destruct has_id eqn:Ei; [|reflexivity]. destruct (Hint eq_refl) as [Hsz _]. specialize (Hwi eq_refl).
    rewrite (skip_cur _ _ sw wi); [|apply Forall_forall; intros b Hb; apply in_map_iff in Hb as (p & <- & _); apply int_word|rewrite map_length; destruct Hwi; subst wi; lia].
    rewrite map_length. replace (Z.of_nat (length ps * wi)) with (Z.of_nat wi * Z.of_nat (length ps)) by lia. rewrite Z.quot_mul by lia.
    assert (Ewi : (4 =? Z.of_nat wi) || (8 =? Z.of_nat wi) = true) by (destruct Hwi as [-> | ->]; reflexivity). rewrite Ewi. destruct (Z.leb_spec (Z.of_nat wi) hbtint_size); [|lia]. reflexivity.
  Qed.
  Hypothesis HB : Forall (has_blocks is_zero dm_only thermal) cs.
  Let ld (e : nat * (nat * list N * stored_particle)) : particle R :=
    let '(n, (t, table, p)) := e in loaded real is_zero wrap speed periodic dm_only thermal (c_time c0) table t p (if has_id then s_id p else Z.of_nat n).
  Fixpoint chunks (a : nat) (l : list content) : list (list (nat * (nat * list N * stored_particle))) :=
    match l with [] => [] | c :: r => entries dm_only c a :: chunks (a + length (selected dm_only c)) r end.
  Lemma chunks_all l : forall a, concat (chunks a l) = combine (seq a (length (flat_map (selected dm_only) l))) (flat_map (selected dm_only) l).
  Proof using.
    induction l as [|c l IH]; intros a; [reflexivity|]. cbn [chunks concat flat_map]. rewrite IH, app_length, seq_app. unfold entries. generalize (selected dm_only c) as x, (flat_map (selected dm_only) l) as y. intros x. generalize (a + length x)%nat. intros b y.
    revert a. induction x as [|e x IHx]; intros a; [reflexivity|]. cbn [length seq combine app]. rewrite IHx. reflexivity.
  Qed.
  Lemma chunks_nth l : forall a k c, nth_error l k = Some c -> nth_error (chunks a l) k = Some (entries dm_only c (a + length (flat_map (selected dm_only) (firstn k l)))).
  Proof using.
    induction l as [|c' l IH]; intros a [|k] c E; try discriminate.
    - injection E as ->. cbn [chunks nth_error firstn flat_map length]. rewrite Nat.add_0_r. reflexivity.
    - cbn [chunks nth_error firstn flat_map] in *. rewrite (IH _ _ _ E), app_length, Nat.add_assoc. reflexivity.
  Qed.
  Lemma chunks_length l : forall a, length (chunks a l) = length l.
  Proof using. induction l as [|c l IH]; intros a; [reflexivity|]. cbn [chunks length]. rewrite IH. reflexivity. Qed.
  Lemma nth_seq {A} (d : A) l : map (fun k => nth k l d) (seq 0 (length l)) = l.
  Proof using. induction l as [|x l IH]; [reflexivity|]. cbn [length seq map nth]. f_equal. rewrite <- seq_shift, map_map. exact IH. Qed.
  Lemma load_ok W : (0 < W)%nat -> exists res, load real is_zero box_matches wrap speed periodic has_id rank_style id_unsigned dm_only thermal hbtint_size disk W = Some res /\
    length res = W /\ concat res = all_loaded real is_zero wrap speed periodic has_id dm_only thermal (c_time c0) cs.
  Proof using HL HV Hcs Hne Hfiles Hbox Hw Hint HB.
    intros HW. unfold load. rewrite load_header_ok. set (i := mkinfo _ _ _ _ _ _). cbn [i_header header_of h_num_files i]. rewrite Hfiles.
    set (res := map (map ld) (chunks 0 cs)).
    assert (Hres : length res = length cs) by (unfold res; rewrite map_length; apply chunks_length).
    assert (HR : forall k, (k < length cs)%nat -> read_file real is_zero wrap speed periodic has_id rank_style id_unsigned dm_only thermal disk i (Z.of_nat k) = Some (nth k res [])).
    { intros k Hk. destruct (nth_error cs k) as [c|] eqn:Ec; [|apply nth_error_None in Ec; lia].
      rewrite (read_file_ok real is_zero box_matches wrap speed periodic has_id rank_style id_unsigned dm_only thermal disk sw w wi c i k (before_file k) files HL (file_nth _ _ Ec) (valid_nth _ _ Ec)).
      - f_equal. symmetry. apply nth_error_nth. unfold res. rewrite nth_error_map, (chunks_nth _ _ _ _ Ec). reflexivity.
      - rewrite Forall_forall in HB. apply HB, (nth_error_In _ _ Ec).
      - reflexivity.
      - reflexivity.
      - exact Hw.
      - intros Hi. split; [apply Hint; exact Hi|]. cbn [i i_int_size]. rewrite Hi. split; [reflexivity|apply id_width; exact Hi].
      - intros _. cbn [i i_offsets]. apply (offset_ok _ _ Ec). }
    destruct (assign_tasks_correct W (Z.of_nat (length cs)) HW ltac:(lia)) as (ivs & E & Hl & Ht & _).
    exists (map (fun iv => concat (map (fun k => nth k res []) (CatalogueProofs.files_of iv))) ivs).
    assert (Hin : forall iv, In iv ivs -> 0 <= fst iv <= snd iv /\ snd iv <= Z.of_nat (length cs)) by (intros iv Hiv; apply (CatalogueProofs.tiles_inside ivs 0 _ iv ltac:(lia) Ht Hiv)).
    destruct (CatalogueProofs.files_tile ivs 0 _ ltac:(lia) Ht) as [Eseq _]. split; [|split].
    - clear Ht Hl Eseq. revert E Hin. generalize (seq 0 W). induction ivs as [|[a b] r IH]; intros [|v vs] E Hin; try discriminate; [reflexivity|]. cbn [map] in E. cbn [mapM map].
      assert (E1 : assign_tasks (Z.of_nat v) (Z.of_nat W) (Z.of_nat (length cs)) = Some (a, b)) by congruence. rewrite E1. destruct (Hin (a, b) (or_introl eq_refl)) as [Hab Hb]. cbn [fst snd] in Hab, Hb.
      assert (Er : mapM (read_file real is_zero wrap speed periodic has_id rank_style id_unsigned dm_only thermal disk i) (range a b) = Some (map (fun k => nth k res []) (CatalogueProofs.files_of (a, b)))).
      { change (CatalogueProofs.files_of (a, b)) with (map Z.to_nat (range a b)). rewrite map_map. apply HostProofs.mapM_some. intros z Hz. unfold range in Hz. apply in_map_iff in Hz as (k & <- & Hk). apply in_seq in Hk. rewrite <- HR by lia. rewrite Z2Nat.id by lia. reflexivity. }
      rewrite Er. rewrite IH; [reflexivity|congruence|intros iv Hiv; apply Hin; right; exact Hiv].
    - rewrite map_length. exact Hl.
    - rewrite <- (map_map CatalogueProofs.files_of (fun l => concat (map (fun k => nth k res []) l))), CatalogueProofs.concat_map_concat, Eseq, Z.sub_0_r, Nat2Z.id. cbn [Z.to_nat]. rewrite <- Hres, nth_seq. unfold res. rewrite <- concat_map, chunks_all. reflexivity.
  Qed.
End Load.
