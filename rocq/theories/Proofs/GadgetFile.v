From Coq Require Import List ZArith NArith Bool Lia Arith.
From Coq Require Import ZifyBool ZifyNat ZifyN.
From Verif.Model Require Import Mymath Mpi Gadget.
From Verif.Spec Require Import Basic Gadget.
From Verif.Proofs Require Import MymathProofs MymathProofs2 GadgetProofs.
Import ListNotations.
Local Open Scope Z_scope.
Ltac Zify.zify_post_hook ::= idtac.

(** * Arrays *)
Lemma assign_app {V P} (set : V -> P -> P) (A : list P) vals arr : assign_at set (length A) vals (A ++ arr) = match assign_at set 0 vals arr with Some r => Some (A ++ r) | None => None end.
Proof. induction A as [|a A IH]; [cbn [length app]; destruct (assign_at set 0 vals arr); reflexivity|]. change (assign_at set (length (a :: A)) vals ((a :: A) ++ arr)) with (match assign_at set (length A) vals (A ++ arr) with Some r' => Some (a :: r') | None => None end). rewrite IH. destruct (assign_at set 0 vals arr); reflexivity. Qed.
Lemma assign_zero {E V P} (set : V -> P -> P) (v : E -> V) (g : E -> P) (B : list E) C : assign_at set 0 (map v B) (map g B ++ C) = Some (map (fun e => set (v e) (g e)) B ++ C).
Proof.
  induction B as [|e B IH]; [destruct C; reflexivity|]. change (assign_at set 0 (map v (e :: B)) (map g (e :: B) ++ C)) with (match assign_at set 0 (map v B) (map g B ++ C) with Some r' => Some (set (v e) (g e) :: r') | None => None end). rewrite IH. reflexivity.
Qed.
Lemma assign_seg {E V P} (set : V -> P -> P) (v : E -> V) (g : E -> P) off vals A (B : list E) C : off = length A -> vals = map v B ->
  assign_at set off vals (A ++ map g B ++ C) = Some (A ++ map (fun e => set (v e) (g e)) B ++ C).
Proof. intros -> ->. rewrite assign_app, assign_zero. reflexivity. Qed.
Lemma assign_all {E V P} (set : V -> P -> P) (v : E -> V) (g : E -> P) vals (B : list E) : vals = map v B -> assign_at set 0 vals (map g B) = Some (map (fun e => set (v e) (g e)) B).
Proof. intros ->. pose proof (assign_zero set v g B []) as H. rewrite !app_nil_r in H. exact H. Qed.
Lemma repeat_map {E V} (x : V) (l : list E) n : n = length l -> repeat x n = map (fun _ => x) l.
Proof. intros ->. induction l as [|a l IH]; [reflexivity|]. cbn [length repeat map]. rewrite IH. reflexivity. Qed.
Lemma slice_ok {V} off n (A B C : list V) : off = length A -> n = length B -> slice_at off n (A ++ B ++ C) = Some B.
Proof.
  intros -> ->. unfold slice_at. rewrite !app_length. destruct (Nat.ltb_spec (length A + (length B + length C)) (length A + length B)); [lia|]. rewrite skipn_app, skipn_all, Nat.sub_diag. cbn [app skipn]. rewrite firstn_app, firstn_all, Nat.sub_diag, firstn_O, app_nil_r. reflexivity.
Qed.
Lemma part_flat {A B} (f : A -> list B) k (pre mid post : list A) : (forall x, length (f x) = k) ->
  firstn (length mid * k) (skipn (length pre * k) (flat_map f (pre ++ mid ++ post))) = flat_map f mid.
Proof.
  intros Hf. assert (HL : forall l, length (flat_map f l) = (length l * k)%nat). { induction l as [|x l IH]; [reflexivity|]. cbn [flat_map length]. rewrite app_length, Hf, IH. lia. }
  rewrite !flat_map_app, skipn_app, <- (HL pre), skipn_all, Nat.sub_diag. cbn [app skipn]. rewrite <- (HL mid), firstn_app, firstn_all, Nat.sub_diag, firstn_O, app_nil_r. reflexivity.
Qed.
Lemma part_map {A B} (f : A -> B) (pre mid post : list A) : firstn (length mid) (skipn (length pre) (map f (pre ++ mid ++ post))) = map f mid.
Proof. rewrite !map_app, skipn_app, <- (map_length f pre), skipn_all, Nat.sub_diag. cbn [app skipn]. rewrite <- (map_length f mid), firstn_app, firstn_all, Nat.sub_diag, firstn_O, app_nil_r. reflexivity. Qed.
Lemma triples_xyz {E R} (real : list N -> R) (f : E -> list N * list N * list N) l :
  triples (map real (flat_map (fun p => xyz (f p)) l)) = map (fun p => let '(x, y, z) := f p in (real x, real y, real z)) l.
Proof. induction l as [|p l IH]; [reflexivity|]. cbn [flat_map map]. destruct (f p) as [[x y] z]. cbn [xyz app map triples]. rewrite IH. reflexivity. Qed.
Lemma flat_length {A B} (f : A -> list B) k l : (forall x, length (f x) = k) -> length (flat_map f l) = (length l * k)%nat.
Proof. intros Hf. induction l as [|x l IH]; [reflexivity|]. cbn [flat_map length]. rewrite app_length, Hf, IH. lia. Qed.
Lemma six {A} (l : list A) : length l = 6%nat -> exists a b c d e f, l = [a; b; c; d; e; f].
Proof. intros H. destruct l as [|a [|b [|c [|d [|e [|f [|g l]]]]]]]; try discriminate. repeat eexists. Qed.

(** * Finding the files *)
Lemma open_ok disk files i b : laid_out disk files -> nth_error files i = Some b -> open_file disk (Z.of_nat i) = Some (cur [] b).
Proof.
  intros HL Hi. assert (Hz : (Z.of_nat i =? 0) = (i =? 0)%nat) by (destruct i; reflexivity).
  assert (G : exists n, file_name disk (Z.of_nat i) = Some n /\ disk n = Some b).
  { unfold file_name, file_exist. rewrite Hz. destruct HL as [H|(H & [[H1 H2]|[[H1 H2]|(H1 & H2 & H3)]])].
    - exists (Snapdir (Z.of_nat i)). rewrite H, Hi. assert (E : (if (i =? 0)%nat then Snapdir (Z.of_nat i) else Snapdir (Z.of_nat i)) = Snapdir (Z.of_nat i)) by (destruct (i =? 0)%nat; reflexivity). rewrite E, H, Hi, H, Hi, H, Hi. split; reflexivity.
    - assert (i = 0)%nat as -> by (assert (i < length files)%nat by (apply nth_error_Some; congruence); lia). cbn [Nat.eqb]. exists Single. rewrite H, H2, Hi, H2, Hi, H2, Hi. split; reflexivity.
    - exists (Plain (Z.of_nat i)). rewrite H. destruct (i =? 0)%nat; [rewrite H1|rewrite H]; rewrite (H2 i), Hi, (H2 i), Hi; split; reflexivity.
    - exists (Ramses (Z.of_nat i)). rewrite H. destruct (i =? 0)%nat; [rewrite H1|rewrite H]; rewrite (H2 (Z.of_nat i)), (H3 i), Hi; split; reflexivity. }
  destruct G as (n & E & En). unfold open_file. rewrite E, En. reflexivity.
Qed.

Section File.
  Context {R : Type}.
  Variable real : list N -> R.
  Variable is_zero box_matches : list N -> bool.
  Variable wrap : R -> R.
  Variable speed : list N -> R -> R.
  Variables periodic has_id rank_style id_unsigned dm_only thermal : bool.
  Variable hbtint_size : Z.
  Variable disk : name -> option (list N).
  Variables (sw : bool) (w wi : nat).
  Notation entry := (nat * (nat * list N * stored_particle))%type.
  Let part (e : entry) : stored_particle := snd (snd e).
  Let three (v : list N * list N * list N) : R * R * R := let '(x, y, z) := v in (real x, real y, real z).

  (** ** One block after the other *)
  Lemma xyz_words (f : stored_particle -> list N * list N * list N) ps : (forall p, In p ps -> Forall (word w) (xyz (f p))) -> Forall (word w) (flat_map (fun p => xyz (f p)) ps).
  Proof. intros H. apply Forall_forall. intros b Hb. apply in_flat_map in Hb as (p & Hp & Hb). specialize (H p Hp). rewrite Forall_forall in H. apply H. exact Hb. Qed.
  Lemma xyz_length t : length (xyz t) = 3%nat. Proof. destruct t as [[x y] z]. reflexivity. Qed.
  Lemma read_xyz_ok (f : stored_particle -> list N * list N * list N) set (g : entry -> particle R) (L : list entry) before after n_read n_skip pre rest :
    n_read = length L -> n_skip = length before -> (forall p, In p (before ++ map part L ++ after) -> Forall (word w) (xyz (f p))) -> Z.of_nat (length (before ++ map part L ++ after) * 3 * w) < 2 ^ 31 ->
    read_xyz real w sw n_read n_skip set (cur pre (record sw (flat_map (fun p => xyz (f p)) (before ++ map part L ++ after)) ++ rest)) (map g L) =
    Some (map (fun e => set (three (f (part e))) (g e)) L, cur (pre ++ record sw (flat_map (fun p => xyz (f p)) (before ++ map part L ++ after))) rest).
  Proof.
    intros -> -> HW Hl. unfold read_xyz. rewrite fortran_read_cur.
    - rewrite <- (map_length part L). rewrite (part_flat (fun p => xyz (f p)) 3 before (map part L) after) by (intros; apply xyz_length).
      rewrite (triples_xyz real f), (assign_all set (fun e => three (f (part e))) g _ L) by (rewrite map_map; reflexivity). reflexivity.
    - apply xyz_words. exact HW.
    - rewrite (flat_length _ 3) by (intros; apply xyz_length). exact Hl.
    - rewrite (flat_length _ 3) by (intros; apply xyz_length). rewrite !app_length, map_length. lia.
  Qed.
  Lemma read_ids_ok dec (g : entry -> particle R) (L : list entry) before after n_read n_skip pre rest :
    n_read = length L -> n_skip = length before -> (forall p, In p (map part L) -> dec (bytes_of_int wi (s_id p)) = Some (s_id p)) -> Z.of_nat (length (before ++ map part L ++ after) * wi) < 2 ^ 31 ->
    read_ids wi dec sw n_read n_skip (cur pre (record sw (map (fun p => bytes_of_int wi (s_id p)) (before ++ map part L ++ after)) ++ rest)) (map g L) =
    Some (map (fun e => set_id (s_id (part e)) (g e)) L, cur (pre ++ record sw (map (fun p => bytes_of_int wi (s_id p)) (before ++ map part L ++ after))) rest).
  Proof.
    intros -> -> HD Hl. unfold read_ids. rewrite fortran_read_cur.
    - rewrite <- (map_length part L). rewrite part_map. rewrite <- (map_map s_id (bytes_of_int wi)), mapM_dec by (intros z Hz; apply in_map_iff in Hz as (p & <- & Hp); apply HD; exact Hp).
      rewrite (assign_all set_id (fun e => s_id (part e)) g _ L) by (rewrite map_map; reflexivity). reflexivity.
    - apply Forall_forall. intros b Hb. apply in_map_iff in Hb as (p & <- & _). apply int_word.
    - rewrite map_length. exact Hl.
    - rewrite map_length, !app_length, map_length. lia.
  Qed.
  Lemma block_read (f : stored_particle -> list N) (ps : list stored_particle) n_read n_skip pre rest : ps <> [] -> (forall p, In p ps -> word w (f p)) -> Z.of_nat (length ps * w) < 2 ^ 31 -> (n_skip + n_read <= length ps)%nat ->
    fortran_read w n_read n_skip sw (cur pre (block sw (map f ps) ++ rest)) = Some (firstn n_read (skipn n_skip (map f ps)), cur (pre ++ block sw (map f ps)) rest).
  Proof.
    intros Hne HW Hl Hn. assert (E : block sw (map f ps) = record sw (map f ps)) by (destruct ps; [congruence|reflexivity]). rewrite E. apply fortran_read_cur.
    - apply Forall_forall. intros b Hb. apply in_map_iff in Hb as (p & <- & Hp). apply HW. exact Hp.
    - rewrite map_length. exact Hl.
    - rewrite map_length. exact Hn.
  Qed.

  (** ** The loops over the types *)
  Lemma each_type_ok (body : nat -> list (particle R) -> option (list (particle R))) (g g' : entry -> particle R) (segs : list (list entry)) : forall k A,
    (forall s1 l s2, segs = s1 ++ l :: s2 ->
       body (k + length s1)%nat ((A ++ map g' (concat s1)) ++ map g l ++ map g (concat s2)) = Some ((A ++ map g' (concat s1)) ++ map g' l ++ map g (concat s2))) ->
    each_type body (seq k (length segs)) (A ++ map g (concat segs)) = Some (A ++ map g' (concat segs)).
  Proof.
    induction segs as [|l segs IH]; intros k A H; [reflexivity|]. cbn [length seq each_type concat]. rewrite map_app.
    pose proof (H [] l segs eq_refl) as H0. cbn [length concat map app] in H0. rewrite Nat.add_0_r, app_nil_r in H0. rewrite H0. rewrite app_assoc. rewrite IH.
    - rewrite <- app_assoc, map_app. reflexivity.
    - intros s1 l' s2 E. specialize (H (l :: s1) l' s2). rewrite E in H. specialize (H eq_refl). cbn [length concat] in H. rewrite map_app in H. replace (k + S (length s1))%nat with (S k + length s1)%nat in H by lia. rewrite !(app_assoc A) in H. exact H.
  Qed.
  Lemma mass_offsets_ok (h : header) (ms : list (list stored_particle)) : forall k acc,
    (forall i m, nth_error ms i = Some m -> exists n, nth_error (h_npart h) (k + i) = Some n /\ (if mass_data_present is_zero h (k + i) then Z.to_nat n else 0%nat) = length m) ->
    exists om, mass_offsets is_zero h (seq k (length ms)) acc = Some (om, (acc + length (concat ms))%nat) /\
      forall s1 m s2, ms = s1 ++ m :: s2 -> nth_error om (length s1) = Some (if mass_data_present is_zero h (k + length s1) then acc + length (concat s1) else 0)%nat.
  Proof.
    induction ms as [|m ms IH]; intros k acc H.
    - exists []. split; [cbn; rewrite Nat.add_0_r; reflexivity|]. intros s1 m s2 E. destruct s1; discriminate.
    - cbn [length seq mass_offsets]. destruct (H 0%nat m eq_refl) as (n & En & Hn). rewrite Nat.add_0_r in En, Hn. rewrite En.
      assert (Eacc : (if mass_data_present is_zero h k then acc + Z.to_nat n else acc)%nat = (acc + length m)%nat) by (destruct (mass_data_present is_zero h k); lia). rewrite Eacc.
      destruct (IH (S k) (acc + length m)%nat) as (om & E1 & E2).
      { intros i m' Hi. destruct (H (S i) m' Hi) as (n' & En' & Hn'). replace (k + S i)%nat with (S k + i)%nat in * by lia. exists n'. split; assumption. }
      rewrite E1. eexists. split; [cbn [concat]; rewrite app_length; f_equal; f_equal; lia|]. intros [|a s1] m' s2 E.
      + injection E as <- <-. cbn [length nth_error concat]. rewrite !Nat.add_0_r. reflexivity.
      + injection E as <- E. cbn [length nth_error concat]. rewrite (E2 s1 m' s2 E), app_length. replace (k + S (length s1))%nat with (S k + length s1)%nat by lia. cbn [Nat.add]. destruct (mass_data_present is_zero h (S (k + length s1))); [f_equal; lia|reflexivity].
  Qed.

  (** The entries of one type belong to the particles of that type. *)
  Variable c : content.
  Let mass_of (e : entry) : R := let '(t, table, p) := snd e in if is_zero table then real (s_mass p) else real table.
  Definition by_type (segs : list (list entry)) : Prop :=
    length segs = 6%nat /\ forall i l, nth_error segs i = Some l -> exists ps table total, nth_error (c_types c) i = Some ps /\ nth_error (c_table c) i = Some table /\
      nth_error (c_totals c) i = Some total /\ map snd l = map (fun p => (i, table, p)) ps /\ (ps <> [] -> total <> 0).
  Lemma nth_mid {A} (s1 : list A) l s2 : nth_error (s1 ++ l :: s2) (length s1) = Some l.
  Proof. rewrite nth_error_app2, Nat.sub_diag by lia. reflexivity. Qed.
  Definition own_mass (tm : list stored_particle * list N) : list stored_particle := if is_zero (snd tm) then fst tm else [].
  Lemma present_table i table total : nth_error (c_table c) i = Some table -> nth_error (c_totals c) i = Some total ->
    mass_data_present is_zero (header_of c) i = is_zero table && negb (total =? 0).
  Proof. intros E1 E2. unfold mass_data_present, header_of. cbn [h_mass h_total]. rewrite E1, E2. reflexivity. Qed.
  Lemma npart_nth i ps : nth_error (c_types c) i = Some ps -> nth_error (h_npart (header_of c)) i = Some (Z.of_nat (length ps)).
  Proof. intros E. cbn [header_of h_npart]. rewrite nth_error_map, E. reflexivity. Qed.
  Lemma nth_combine {A B} (l : list A) (m : list B) i x y : nth_error l i = Some x -> nth_error m i = Some y -> nth_error (combine l m) i = Some (x, y).
  Proof. revert m i. induction l as [|a l IH]; intros [|b m] [|i] E1 E2; cbn in *; try discriminate; [congruence|apply IH; assumption]. Qed.
  Lemma nth_combine_inv {A B} (l : list A) (m : list B) i p : nth_error (combine l m) i = Some p -> nth_error l i = Some (fst p) /\ nth_error m i = Some (snd p).
  Proof. revert m i. induction l as [|a l IH]; intros [|b m] [|i] E1; cbn in *; try discriminate; [injection E1 as <-; split; reflexivity|apply IH; assumption]. Qed.
  Lemma offset_nth segs s1 l s2 : by_type segs -> length (c_types c) = 6%nat -> segs = s1 ++ l :: s2 ->
    nth_error (fst (compile_offsets (h_npart (header_of c)))) (length s1) = Some (Z.of_nat (length (concat s1))).
  Proof.
    intros [HL HB] H6 E. pose proof (compile_offsets_correct (h_npart (header_of c))) as HC. destruct (compile_offsets (h_npart (header_of c))) as [offs tot].
    destruct HC as (_ & H2 & H3 & _). { cbn [header_of h_npart]. apply Forall_forall. intros z Hz. apply in_map_iff in Hz as (ps & <- & _). lia. }
    cbn [fst]. cbn [header_of h_npart] in H2. rewrite map_length in H2.
    assert (Hlt : (length s1 < length offs)%nat). { rewrite H2, H6, <- HL, E, app_length. cbn [length]. lia. }
    destruct (nth_error offs (length s1)) as [o|] eqn:Eo; [|apply nth_error_None in Eo; lia]. f_equal. rewrite (H3 _ _ Eo). cbn [header_of h_npart].
    assert (G : forall (s : list (list entry)) (ts : list (list stored_particle)), (forall i l, nth_error s i = Some l -> exists ps, nth_error ts i = Some ps /\ length ps = length l) -> zsum (firstn (length s) (map (fun l => Z.of_nat (length l)) ts)) = Z.of_nat (length (concat s))).
    { induction s as [|x s IH]; intros ts Hs; [reflexivity|]. destruct (Hs 0%nat x eq_refl) as (ps & Ep & Hp). destruct ts as [|t ts]; [discriminate|]. injection Ep as ->. cbn [length map firstn zsum concat]. rewrite app_length, (IH ts); [lia|]. intros i y Hi. apply (Hs (S i) y Hi). }
    apply G. intros i x Hi. assert (Hi' : nth_error segs i = Some x). { rewrite E, nth_error_app1; [exact Hi|]. apply nth_error_Some. congruence. }
    destruct (HB i x Hi') as (ps & table & total & E1 & _ & _ & E4 & _). exists ps. split; [exact E1|]. rewrite <- (map_length (fun p => (i, table, p)) ps), <- E4, map_length. reflexivity.
  Qed.
  Lemma read_masses_ok (g : entry -> particle R) segs pre rest :
    by_type segs -> length (c_types c) = 6%nat -> length (c_table c) = 6%nat -> (forall p, In p (particles_of c) -> word w (s_mass p)) -> Z.of_nat (length (particles_of c) * w) < 2 ^ 31 ->
    read_masses real is_zero w sw (header_of c) (fst (compile_offsets (h_npart (header_of c)))) (cur pre (block sw (map s_mass (with_mass is_zero c)) ++ rest)) (map g (concat segs)) =
    Some (map (fun e => set_mass (mass_of e) (g e)) (concat segs), cur (pre ++ block sw (map s_mass (with_mass is_zero c))) rest).
  Proof.
    intros HB H6 H6t HW Hl. assert (HB' := HB). destruct HB' as [HL HS]. set (ms := map own_mass (combine (c_types c) (c_table c))).
    assert (Lms : length ms = 6%nat) by (unfold ms; rewrite map_length, combine_length, H6, H6t; reflexivity).
    assert (Hms : forall i l, nth_error segs i = Some l -> exists ps table total, nth_error (c_types c) i = Some ps /\ nth_error (c_table c) i = Some table /\
      nth_error (c_totals c) i = Some total /\ map snd l = map (fun p => (i, table, p)) ps /\ (ps <> [] -> total <> 0) /\ nth_error ms i = Some (own_mass (ps, table))).
    { intros i l Hi. destruct (HS i l Hi) as (ps & table & total & E1 & E2 & E3 & E4 & E5). exists ps, table, total. repeat (split; [assumption|]). unfold ms. rewrite nth_error_map, (nth_combine _ _ _ _ _ E1 E2). reflexivity. }
    assert (Hex : forall i m, nth_error ms i = Some m -> exists l, nth_error segs i = Some l). { intros i m Hi. destruct (nth_error segs i) as [l|] eqn:E; [eauto|]. apply nth_error_None in E. assert (i < length ms)%nat by (apply nth_error_Some; congruence). lia. }
    assert (Hpre : forall i m, nth_error ms i = Some m -> exists n, nth_error (h_npart (header_of c)) (0 + i) = Some n /\ (if mass_data_present is_zero (header_of c) (0 + i) then Z.to_nat n else 0%nat) = length m).
    { intros i m Hi. destruct (Hex i m Hi) as (l & Hl'). destruct (Hms i l Hl') as (ps & table & total & E1 & E2 & E3 & E4 & E5 & E6). exists (Z.of_nat (length ps)). cbn [Nat.add]. split; [apply npart_nth; exact E1|].
      rewrite (present_table i table total E2 E3). rewrite Hi in E6. injection E6 as ->. unfold own_mass. cbn [fst snd]. destruct (is_zero table); [|reflexivity]. destruct (Z.eqb_spec total 0) as [->|]; cbn [negb andb]; [|lia]. destruct ps; [reflexivity|]. exfalso. apply E5; [discriminate|reflexivity]. }
    destruct (mass_offsets_ok (header_of c) ms 0 0 Hpre) as (om & O1 & O2). rewrite Lms in O1. unfold read_masses. change type_max with 6%nat. rewrite O1. cbn [Nat.add] in O1, O2 |- *.
    assert (Ewm : with_mass is_zero c = concat ms) by reflexivity.
    assert (Hsub : forall p, In p (with_mass is_zero c) -> In p (particles_of c)).
    { intros p Hp. rewrite Ewm in Hp. apply in_concat in Hp as (m & Hm & Hp). unfold ms in Hm. apply in_map_iff in Hm as ([ps tb] & <- & Hm). unfold own_mass in Hp. cbn [fst snd] in Hp. destruct (is_zero tb); [|destruct Hp]. apply in_concat. exists ps. split; [|exact Hp]. apply in_combine_l in Hm. exact Hm. }
    assert (Hlen : (length (with_mass is_zero c) <= length (particles_of c))%nat).
    { rewrite Ewm. unfold ms, particles_of. clear - is_zero. revert c. intros c0. generalize (c_types c0) (c_table c0). induction l as [|ps l IH]; intros [|tb l0]; cbn [combine map concat length]; try lia. rewrite !app_length. specialize (IH l0). unfold own_mass at 1. cbn [fst snd]. destruct (is_zero tb); cbn [length]; lia. }
    assert (EB : (if (length (concat ms) =? 0)%nat then Some ([], cur pre (block sw (map s_mass (with_mass is_zero c)) ++ rest)) else fortran_read w (length (concat ms)) 0 sw (cur pre (block sw (map s_mass (with_mass is_zero c)) ++ rest))) =
                 Some (map s_mass (concat ms), cur (pre ++ block sw (map s_mass (with_mass is_zero c))) rest)).
    { rewrite Ewm. destruct (concat ms) as [|p l] eqn:Ec; [cbn [length Nat.eqb map block app]; rewrite app_nil_r; reflexivity|]. cbn [length Nat.eqb]. rewrite <- Ec in *. change (S (length l)) with (length (p :: l)). rewrite <- Ec.
      rewrite block_read; [cbn [skipn]; rewrite <- (map_length s_mass (concat ms)), firstn_all; reflexivity|rewrite Ec; discriminate| |rewrite <- Ewm in *; nia|lia]. intros q Hq. apply HW, Hsub. rewrite Ewm. exact Hq. }
    rewrite EB. rewrite <- HL at 1.
    pose proof (fun body => each_type_ok body g (fun e => set_mass (mass_of e) (g e)) segs 0 []) as HE. cbn [app] in HE. rewrite HE; [reflexivity|].
    intros s1 l s2 E. cbn [Nat.add]. assert (Hi : nth_error segs (length s1) = Some l) by (rewrite E; apply nth_mid).
    destruct (Hms _ _ Hi) as (ps & table & total & E1 & E2 & E3 & E4 & E5 & E6). rewrite (npart_nth _ _ E1), (offset_nth segs s1 l s2 HB H6 E).
    destruct (nth_error_split ms (length s1) E6) as (m1 & m2 & Em & Lm). pose proof (O2 m1 _ m2 Em) as Eom. rewrite Lm in Eom. rewrite Eom. cbn [header_of h_mass]. rewrite E2, !Nat2Z.id. fold (header_of c). rewrite (present_table _ table total E2 E3).
    assert (Ell : length l = length ps) by (rewrite <- (map_length snd l), E4, map_length; reflexivity).
    assert (Evals : (if is_zero table && negb (total =? 0) then match slice_at (if is_zero table && negb (total =? 0) then length (concat m1) else 0%nat) (length ps) (map s_mass (concat ms)) with Some s => Some (map real s) | None => None end else Some (repeat (real table) (length ps))) = Some (map mass_of l)).
    { assert (G : forall f, (forall p, In p ps -> f p = (if is_zero table then real (s_mass p) else real table)) -> map mass_of l = map f ps).
      { intros f Hf. clear - E4 Hf. revert l E4. induction ps as [|p ps IH]; intros [|e l] E4; try discriminate; [reflexivity|]. cbn [map] in E4 |- *. injection E4 as Ee E4. f_equal; [unfold mass_of; rewrite Ee; rewrite Hf by (left; reflexivity); reflexivity|]. apply IH; [intros q Hq; apply Hf; right; exact Hq|exact E4]. }
      destruct (is_zero table) eqn:Ez; cbn [andb].
      - destruct (Z.eqb_spec total 0) as [Et|Et]; cbn [negb].
        + assert (ps = []) as -> by (destruct ps; [reflexivity|exfalso; apply E5; [discriminate|exact Et]]). destruct l; [reflexivity|discriminate].
        + rewrite Em. unfold own_mass at 1. cbn [fst snd]. rewrite Ez. rewrite concat_app. cbn [concat]. rewrite !map_app. rewrite slice_ok by (rewrite map_length; reflexivity). f_equal. rewrite map_map. symmetry. apply G. intros p _. reflexivity.
      - f_equal. rewrite (repeat_map (real table) ps) by reflexivity. symmetry. apply G. reflexivity. }
    rewrite Evals. apply assign_seg; [|reflexivity]. rewrite map_length. reflexivity.
  Qed.

  (** The types are written to the segments of the array. *)
  Lemma set_types_ok (g : entry -> particle R) segs : by_type segs -> length (c_types c) = 6%nat ->
    each_type (fun t ps =>
      match nth_error (h_npart (header_of c)) t with
      | Some n => match nth_error (fst (compile_offsets (h_npart (header_of c)))) t with
        | Some o => assign_at set_type (Z.to_nat o) (repeat t (Z.to_nat n)) ps
        | None => None end
      | None => None end) (seq 0 type_max) (map g (concat segs)) = Some (map (fun e => set_type (fst (fst (snd e))) (g e)) (concat segs)).
  Proof.
    intros HB H6. assert (HB' := HB). destruct HB' as [HL HS]. change type_max with 6%nat. rewrite <- HL.
    pose proof (fun body => each_type_ok body g (fun e => set_type (fst (fst (snd e))) (g e)) segs 0 []) as HE. cbn [app] in HE. rewrite HE; [reflexivity|].
    intros s1 l s2 E. cbn [Nat.add]. assert (Hi : nth_error segs (length s1) = Some l) by (rewrite E; apply nth_mid).
    destruct (HS _ _ Hi) as (ps & table & total & E1 & E2 & E3 & E4 & E5). rewrite (npart_nth _ _ E1), (offset_nth segs s1 l s2 HB H6 E), !Nat2Z.id.
    apply assign_seg; [rewrite map_length; reflexivity|]. clear - E4. revert l E4. induction ps as [|p ps IH]; intros [|e l] E4; try discriminate; [reflexivity|]. cbn [map] in E4. injection E4 as Ee E4. cbn [length repeat map]. rewrite Ee. cbn [fst]. f_equal. apply IH. exact E4.
  Qed.
  Lemma read_energies_ok (g : entry -> particle R) segs pre rest : by_type segs -> nth 0 (c_types c) [] <> [] ->
    (forall p, In p (particles_of c) -> word w (s_energy p)) -> Z.of_nat (length (particles_of c) * w) < 2 ^ 31 ->
    read_energies real w sw (header_of c) (cur pre (block sw (map s_energy (nth 0 (c_types c) [])) ++ rest)) (map g (concat segs)) =
    Some (map (fun e => if Nat.eqb (fst (fst (snd e))) 0 then set_energy (real (s_energy (part e))) (g e) else g e) (concat segs), cur (pre ++ block sw (map s_energy (nth 0 (c_types c) []))) rest).
  Proof.
    intros [HL HS] Hne HW Hl. destruct segs as [|l0 segs]; [discriminate|]. destruct (HS 0%nat l0 eq_refl) as (ps & table & total & E1 & _ & _ & E4 & _).
    assert (E0 : nth 0 (c_types c) [] = ps) by (apply nth_error_nth; exact E1). rewrite E0 in *.
    unfold read_energies. rewrite (npart_nth _ _ E1), Nat2Z.id.
    assert (Hin : forall p, In p ps -> In p (particles_of c)). { intros p Hp. apply in_concat. exists ps. split; [apply (nth_error_In _ _ E1)|exact Hp]. }
    assert (Hlen : (length ps <= length (particles_of c))%nat). { apply nth_error_split in E1 as (a & b & E1 & La). destruct a; [|discriminate]. unfold particles_of. rewrite E1. cbn [app concat]. rewrite app_length. lia. }
    rewrite block_read; [|exact Hne|intros p Hp; apply HW, Hin, Hp|nia|lia]. cbn [skipn]. rewrite <- (map_length s_energy ps) at 1. rewrite firstn_all. cbn [concat]. rewrite !map_app, map_map.
    assert (G1 : map (fun p => real (s_energy p)) ps = map (fun e => real (s_energy (part e))) l0).
    { clear - E4. revert l0 E4. induction ps as [|p ps IH]; intros [|e l] E4; try discriminate; [reflexivity|]. cbn [map] in E4 |- *. injection E4 as Ee E4. unfold part at 1. rewrite Ee. cbn [snd]. f_equal. apply IH. exact E4. }
    rewrite G1. pose proof (assign_zero set_energy (fun e => real (s_energy (part e))) g l0 (map g (concat segs))) as HA. rewrite HA. f_equal. f_equal. f_equal.
    - clear - E4. revert l0 E4. induction ps as [|p ps IH]; intros [|e l] E4; try discriminate; [reflexivity|]. cbn [map] in E4 |- *. injection E4 as Ee E4. rewrite Ee. cbn [fst Nat.eqb]. f_equal. apply IH. exact E4.
    - apply map_ext_in. intros e He. apply in_concat in He as (l & Hi & He). apply In_nth_error in Hi as (i & Hi). destruct (HS (S i) l Hi) as (ps' & tb & tt & _ & _ & _ & E4' & _).
      assert (Hs : In (snd e) (map snd l)) by (apply in_map; exact He). rewrite E4' in Hs. apply in_map_iff in Hs as (q & Eq & _). rewrite <- Eq. reflexivity.
  Qed.
  (** Only dark matter. *)
  Lemma read_masses_dm_ok (g : entry -> particle R) (L : list entry) pre rest l0 l1 ls t0 t1 ts k0 k1 ks : c_types c = l0 :: l1 :: ls -> c_table c = t0 :: t1 :: ts -> c_totals c = k0 :: k1 :: ks ->
    (l0 <> [] -> k0 <> 0) -> (l1 <> [] -> k1 <> 0) -> map snd L = map (fun p => (1%nat, t1, p)) l1 -> (is_zero t1 = true -> k1 <> 0 -> with_mass is_zero c <> []) ->
    (forall p, In p (particles_of c) -> word w (s_mass p)) -> Z.of_nat (length (particles_of c) * w) < 2 ^ 31 ->
    exists f', read_masses_dm real is_zero w sw (header_of c) (length L) (cur pre (block sw (map s_mass (with_mass is_zero c)) ++ rest)) (map g L) = Some (map (fun e => set_mass (mass_of e) (g e)) L, f').
  Proof.
    intros E1 E2 E3 H0 H1 EL Hne HW Hl. unfold read_masses_dm. assert (N0 : nth_error (c_types c) 0 = Some l0) by (rewrite E1; reflexivity). assert (N1 : nth_error (c_types c) 1 = Some l1) by (rewrite E1; reflexivity).
    assert (P0 := present_table 0 t0 k0 ltac:(rewrite E2; reflexivity) ltac:(rewrite E3; reflexivity)). assert (P1 := present_table 1 t1 k1 ltac:(rewrite E2; reflexivity) ltac:(rewrite E3; reflexivity)).
    change type_dm with 1%nat. rewrite P1.
    assert (G : forall f, (forall p, In p l1 -> f p = (if is_zero t1 then real (s_mass p) else real t1)) -> map mass_of L = map f l1).
    { intros f Hf. clear - EL Hf. revert L EL. induction l1 as [|p ps IH]; intros [|e l] E4; try discriminate; [reflexivity|]. cbn [map] in E4 |- *. injection E4 as Ee E4. f_equal; [unfold mass_of; rewrite Ee; rewrite Hf by (left; reflexivity); reflexivity|]. apply IH; [intros q Hq; apply Hf; right; exact Hq|exact E4]. }
    assert (LL : length L = length l1) by (rewrite <- (map_length snd L), EL, map_length; reflexivity).
    destruct (is_zero t1 && negb (k1 =? 0)) eqn:Ep.
    - apply andb_prop in Ep as [Ez Ek]. assert (Hk1 : k1 <> 0) by (intros ->; discriminate).
      destruct (mass_offsets_ok (header_of c) [own_mass (l0, t0)] 0 0) as (om & O1 & _).
      { intros [|i] m Hi; [|destruct i; discriminate]. injection Hi as <-. exists (Z.of_nat (length l0)). cbn [Nat.add]. split; [apply npart_nth; exact N0|]. rewrite P0. unfold own_mass. cbn [fst snd]. destruct (is_zero t0); [|reflexivity]. destruct (Z.eqb_spec k0 0) as [->|]; cbn [negb andb]; [|lia]. destruct l0; [reflexivity|]. exfalso. apply H0; [discriminate|reflexivity]. }
      cbn [length concat app] in O1. rewrite app_nil_r in O1. rewrite O1. cbn [Nat.add].
      assert (Ewm : with_mass is_zero c = own_mass (l0, t0) ++ l1 ++ concat (map own_mass (combine ls ts))).
      { unfold with_mass. rewrite E1, E2. cbn [combine map concat]. unfold own_mass at 1. cbn [fst snd]. rewrite Ez. reflexivity. }
      assert (Hsub : forall p, In p (with_mass is_zero c) -> In p (particles_of c)).
      { intros p Hp. apply in_concat in Hp as (m & Hm & Hp). apply in_map_iff in Hm as ([ps tb] & <- & Hm). cbn [fst snd] in Hp. destruct (is_zero tb); [|destruct Hp]. apply in_concat. exists ps. split; [|exact Hp]. apply in_combine_l in Hm. exact Hm. }
      assert (Hlen : (length (with_mass is_zero c) <= length (particles_of c))%nat).
      { unfold with_mass, particles_of. clear - is_zero. generalize (c_types c) (c_table c). induction l as [|ps l IH]; intros [|tb l0]; cbn [combine map concat length]; try lia. rewrite !app_length. specialize (IH l0). cbn [fst snd]. destruct (is_zero tb); cbn [length]; lia. }
      rewrite block_read; [|apply Hne; assumption|intros p Hp; apply HW, Hsub, Hp|nia|rewrite Ewm, !app_length, LL; lia].
      rewrite Ewm, LL. rewrite part_map. rewrite (assign_all set_mass mass_of g _ L); [eexists; reflexivity|]. rewrite map_map. symmetry. apply G. intros p _. rewrite Ez. reflexivity.
    - cbn [header_of h_mass]. rewrite E2. cbn [nth_error]. rewrite (assign_all set_mass mass_of g _ L); [eexists; reflexivity|]. rewrite LL, (repeat_map (real t1) l1) by reflexivity. symmetry. apply G. intros p Hp.
      destruct (is_zero t1); [|reflexivity]. exfalso. cbn [andb] in Ep. destruct (Z.eqb_spec k1 0); [|discriminate]. apply H1; [intros ->; destruct Hp|assumption].
  Qed.

  (** ** One file *)
  Lemma both_length {A B} (P : A -> B -> Prop) l m : Forall2 P l m -> length l = length m.
  Proof. induction 1; cbn [length]; lia. Qed.
  Lemma both_cons {A B} (P : A -> B -> Prop) x y l m : Forall2 P (x :: l) (y :: m) -> P x y /\ Forall2 P l m.
  Proof. inversion 1; subst. split; assumption. Qed.
  Lemma split_segs {A B} (f : A -> B) (Xs : list (list B)) : forall L, map f L = concat Xs -> exists segs, concat segs = L /\ Forall2 (fun s x => map f s = x) segs Xs.
  Proof.
    induction Xs as [|x Xs IH]; intros L E; cbn [concat] in E.
    - exists []. destruct L; [split; [reflexivity|constructor]|discriminate].
    - apply map_eq_app in E as (l1 & l2 & -> & E1 & E2). destruct (IH l2 E2) as (segs & <- & HF). exists (l1 :: segs). split; [reflexivity|constructor; assumption].
  Qed.
  Lemma sum_counts (ls : list (list stored_particle)) a : fold_left Z.add (map (fun l => Z.of_nat (length l)) ls) a = a + Z.of_nat (length (concat ls)).
  Proof. revert a. induction ls as [|l ls IH]; intros a; cbn [map fold_left concat length]; [lia|]. rewrite IH, app_length. lia. Qed.
  Lemma no_negative (ls : list (list stored_particle)) : existsb (fun n => n <? 0) (map (fun l => Z.of_nat (length l)) ls) = false.
  Proof. induction ls as [|l ls IH]; [reflexivity|]. cbn [map existsb]. rewrite IH. destruct (Z.ltb_spec (Z.of_nat (length l)) 0); [lia|reflexivity]. Qed.
  Notation valid := (valid_content has_id id_unsigned w wi).
  Notation bytes := (encode is_zero has_id thermal sw wi c).
  Definition after_header : list N :=
    record sw (flat_map (fun p => xyz (s_pos p)) (particles_of c)) ++ record sw (flat_map (fun p => xyz (s_vel p)) (particles_of c)) ++
    (if has_id then record sw (map (fun p => bytes_of_int wi (s_id p)) (particles_of c)) else []) ++
    block sw (map s_mass (with_mass is_zero c)) ++ (if thermal then block sw (map s_energy (nth 0 (c_types c) [])) else []) ++ c_rest c.
  Lemma open_header files k : laid_out disk files -> nth_error files k = Some bytes -> valid c ->
    open_file disk (Z.of_nat k) = Some (cur [] bytes) /\ read_header (cur [] bytes) = Some (sw, header_of c, cur (record sw (header_words c)) after_header).
  Proof.
    intros HL Hk (V1 & V2 & V3 & V4 & V5 & V6 & V7 & V8 & V9 & V10 & V11). split; [apply (open_ok _ _ _ _ HL Hk)|]. change bytes with (record sw (header_words c) ++ after_header). apply header_read; try assumption.
    intros l Hl. apply in_split in Hl as (a & b & E). unfold particles_of in V10. rewrite E, concat_app in V10. cbn [concat] in V10. rewrite !app_length in V10. lia.
  Qed.
  Definition entries (first : nat) : list entry := combine (seq first (length (selected dm_only c))) (selected dm_only c).
  Lemma entries_snd first : map snd (entries first) = selected dm_only c.
  Proof. unfold entries. generalize (selected dm_only c). intros l. revert first. induction l as [|a l IH]; intros first; [reflexivity|]. cbn [length seq combine map snd]. rewrite IH. reflexivity. Qed.
  Lemma entries_fst first : map fst (entries first) = seq first (length (entries first)).
  Proof. unfold entries. rewrite combine_length, seq_length, Nat.min_id. generalize (selected dm_only c). intros l. revert first. induction l as [|a l IH]; intros first; [reflexivity|]. cbn [length seq combine map fst]. rewrite IH. reflexivity. Qed.
  Lemma six_parts : valid c -> exists l0 l1 l2 l3 l4 l5 t0 t1 t2 t3 t4 t5 k0 k1 k2 k3 k4 k5, c_types c = [l0; l1; l2; l3; l4; l5] /\ c_table c = [t0; t1; t2; t3; t4; t5] /\ c_totals c = [k0; k1; k2; k3; k4; k5].
  Proof. intros (V1 & V2 & V3 & V4 & _). destruct (six _ V1) as (? & ? & ? & ? & ? & ? & E1), (six _ V3) as (? & ? & ? & ? & ? & ? & E2), (six _ V4) as (? & ? & ? & ? & ? & ? & E3). repeat eexists; eassumption. Qed.
  Lemma entries_part first : valid c -> exists before after, particles_of c = before ++ map part (entries first) ++ after /\
    Z.to_nat (if dm_only then fold_left Z.add (firstn type_dm (h_npart (header_of c))) 0 else 0) = length before /\
    (exists n_dm, nth_error (h_npart (header_of c)) type_dm = Some n_dm /\ Z.to_nat (if dm_only then n_dm else fold_left Z.add (h_npart (header_of c)) 0) = length (entries first)).
  Proof.
    intros HV. destruct (six_parts HV) as (l0 & l1 & l2 & l3 & l4 & l5 & t0 & t1 & t2 & t3 & t4 & t5 & k0 & k1 & k2 & k3 & k4 & k5 & E1 & E2 & E3).
    assert (Ep : map part (entries first) = map snd (selected dm_only c)) by (rewrite <- (entries_snd first), map_map; reflexivity).
    assert (El : length (entries first) = length (map snd (selected dm_only c))) by (rewrite <- Ep, map_length; reflexivity).
    rewrite El, Ep. unfold selected, particles_of. cbn [header_of h_npart]. rewrite sum_counts. rewrite E1, E2. cbn [seq combine flat_map Nat.eqb negb].
    destruct dm_only; cbn [andb app].
    - exists l0, (l2 ++ l3 ++ l4 ++ l5 ++ []). rewrite app_nil_r, map_map. cbn [snd]. rewrite map_id. split; [reflexivity|]. split; [cbn [map firstn type_dm fold_left]; lia|]. eexists. split; [reflexivity|lia].
    - exists [], []. rewrite !map_app, !map_map, app_nil_r. cbn [snd map app]. rewrite !map_id. split; [reflexivity|]. split; [reflexivity|]. eexists. split; [reflexivity|]. cbn [concat]. lia.
  Qed.
  Lemma entries_types first : valid c -> dm_only = false -> exists segs, concat segs = entries first /\ by_type segs.
  Proof.
    intros HV Hd. destruct (six_parts HV) as (l0 & l1 & l2 & l3 & l4 & l5 & t0 & t1 & t2 & t3 & t4 & t5 & k0 & k1 & k2 & k3 & k4 & k5 & E1 & E2 & E3). destruct HV as (_ & _ & _ & _ & _ & _ & _ & _ & _ & _ & VF).
    destruct (split_segs snd [map (fun p => (0%nat, t0, p)) l0; map (fun p => (1%nat, t1, p)) l1; map (fun p => (2%nat, t2, p)) l2; map (fun p => (3%nat, t3, p)) l3; map (fun p => (4%nat, t4, p)) l4; map (fun p => (5%nat, t5, p)) l5] (entries first)) as (segs & Es & HF).
    { rewrite entries_snd. unfold selected. rewrite E1, E2, Hd. reflexivity. }
    exists segs. split; [exact Es|]. split; [apply both_length in HF; exact HF|]. intros i l Hi. unfold by_type. rewrite E1, E2, E3 in *.
    assert (HX : exists x, nth_error [map (fun p => (0%nat, t0, p)) l0; map (fun p => (1%nat, t1, p)) l1; map (fun p => (2%nat, t2, p)) l2; map (fun p => (3%nat, t3, p)) l3; map (fun p => (4%nat, t4, p)) l4; map (fun p => (5%nat, t5, p)) l5] i = Some x /\ map snd l = x).
    { clear - HF Hi. revert i Hi. induction HF as [|s x ss xs H HF IH]; intros [|i] Hi; try discriminate; [injection Hi as ->; eexists; split; [reflexivity|exact H]|apply IH; exact Hi]. }
    destruct HX as (x & Ex & HX). do 6 (apply both_cons in VF as [? VF]).
    do 6 (destruct i as [|i]; [injection Ex as <-; eexists _, _, _; cbn [nth_error]; do 3 (split; [reflexivity|]); split; [exact HX|assumption]|]). destruct i; discriminate.
  Qed.
  Lemma read_file_ok i k first files : laid_out disk files -> nth_error files k = Some bytes -> valid c -> has_blocks is_zero dm_only thermal c -> i_swap i = sw -> i_real_size i = Z.of_nat w -> (w = 4%nat \/ w = 8%nat) ->
    (has_id = true -> rank_style = false /\ i_int_size i = Z.of_nat wi /\ (wi = 4%nat \/ wi = 8%nat)) -> (has_id = false -> nth_error (i_offsets i) k = Some (Z.of_nat first)) ->
    read_file real is_zero wrap speed periodic has_id rank_style id_unsigned dm_only thermal disk i (Z.of_nat k) =
    Some (map (fun e => let '(n, (t, table, p)) := e in loaded real is_zero wrap speed periodic dm_only thermal (h_time (i_header i)) table t p (if has_id then s_id p else Z.of_nat n)) (entries first)).
  Proof.
    intros HL Hk HV HB Hsw Hrs Hw Hid Hoff. destruct (open_header _ _ HL Hk HV) as [O1 O2]. destruct (entries_part first HV) as (before & after & EP & Esk & ndm & En & Enr).
    set (L := entries first) in *. unfold read_file. rewrite O1, O2. cbn [header_of h_npart] in *. rewrite no_negative, Hsw, Hrs, En, Esk, Enr.
    assert (Ew : (if Z.of_nat w =? 4 then 4%nat else 8%nat) = w) by (destruct Hw as [-> | ->]; reflexivity). rewrite Ew. cbn zeta.
    assert (HV' := HV). destruct HV' as (V1 & V2 & V3 & V4 & V5 & V6 & V7 & V8 & V9 & V10 & V11). rewrite Forall_forall in V9.
    assert (Hw8 : (w <= 8)%nat) by (destruct Hw; lia). rewrite (repeat_map (blank (R := R)) L) by reflexivity. unfold after_header. rewrite EP.
    rewrite (read_xyz_ok s_pos set_pos _ L before after); [|reflexivity|reflexivity|rewrite <- EP; intros p Hp; apply (V9 p Hp)|rewrite <- EP; nia]. cbn iota beta.
    rewrite (read_xyz_ok s_vel set_vel _ L before after); [|reflexivity|reflexivity|rewrite <- EP; intros p Hp; apply (V9 p Hp)|rewrite <- EP; nia]. cbn iota beta.
    set (g1 := fun e : entry => mkparticle (Some (if periodic then map3 wrap (three (s_pos (part e))) else three (s_pos (part e)))) (Some (map3 (speed (h_time (i_header i))) (three (s_vel (part e))))) None None None None : particle R).
    match goal with |- context [map (fun p => match p_vel p with Some v => set_vel (map3 (speed (h_time (i_header i))) v) p | None => p end) ?ps] => assert (G1 : map (fun p => match p_vel p with Some v => set_vel (map3 (speed (h_time (i_header i))) v) p | None => p end) ps = map g1 L) end.
    { unfold g1. destruct periodic; rewrite !map_map; apply map_ext; intros e; reflexivity. }
    rewrite G1. clear G1.
    set (g2 := fun e : entry => set_id (if has_id then s_id (part e) else Z.of_nat (fst e)) (g1 e)).
    match goal with |- context [if has_id then _ else ?b] => idtac end.
    assert (G2 : forall pre rest, (if has_id then if rank_style then None else if i_int_size i =? 4 then read_ids 4 (if id_unsigned then uint32_of_bytes else int32_of_bytes) sw (length L) (length before) (cur pre ((if has_id then record sw (map (fun p => bytes_of_int wi (s_id p)) (before ++ map part L ++ after)) else []) ++ rest)) (map g1 L)
        else read_ids 8 int64_of_bytes sw (length L) (length before) (cur pre ((if has_id then record sw (map (fun p => bytes_of_int wi (s_id p)) (before ++ map part L ++ after)) else []) ++ rest)) (map g1 L)
      else match nth_error (i_offsets i) (Z.to_nat (Z.of_nat k)) with Some id_now => match assign_at set_id 0 (map (fun k => id_now + Z.of_nat k) (seq 0 (length L))) (map g1 L) with Some ps => Some (ps, cur pre ((if has_id then record sw (map (fun p => bytes_of_int wi (s_id p)) (before ++ map part L ++ after)) else []) ++ rest)) | None => None end | None => None end)
      = Some (map g2 L, cur (pre ++ (if has_id then record sw (map (fun p => bytes_of_int wi (s_id p)) (before ++ map part L ++ after)) else [])) rest)).
    { intros pre rest. destruct has_id eqn:Eid.
      - destruct (Hid eq_refl) as (-> & -> & Hwi). assert (Hin : forall p, In p (map part L) -> id_fits id_unsigned wi (s_id p)). { intros p Hp. apply (V9 p); [|reflexivity]. rewrite EP. apply in_or_app. right. apply in_or_app. left. exact Hp. }
        assert (Hl : Z.of_nat (length (before ++ map part L ++ after) * wi) < 2 ^ 31) by (rewrite <- EP; destruct Hwi; subst; lia).
        pose proof (read_ids_ok (if Nat.eqb wi 4 then if id_unsigned then uint32_of_bytes else int32_of_bytes else int64_of_bytes) g1 L before after (length L) (length before) pre rest eq_refl eq_refl) as HR.
        unfold g2. destruct Hwi as [-> | ->]; cbn [Nat.eqb] in HR; change (Z.of_nat 4 =? 4) with true; change (Z.of_nat 8 =? 4) with false; cbn iota.
        + apply HR; [|exact Hl]. intros p Hp. destruct (Hin p Hp) as [_ Hz]. cbn [Nat.eqb andb] in Hz. destruct id_unsigned; [apply uint32_ok; exact Hz|apply int32_ok; exact Hz].
        + apply HR; [|exact Hl]. intros p Hp. destruct (Hin p Hp) as [_ Hz]. cbn [Nat.eqb andb] in Hz. apply int64_ok. exact Hz.
      - rewrite Nat2Z.id, (Hoff eq_refl). cbn [app]. rewrite (assign_all set_id (fun e => Z.of_nat (fst e)) g1 _ L); [rewrite app_nil_r; reflexivity|].
        rewrite <- (map_map fst Z.of_nat). unfold L. rewrite entries_fst. clear. generalize (length (entries first)). intros n. revert first. assert (G : forall n a first, map (fun k => Z.of_nat first + Z.of_nat k) (seq a n) = map Z.of_nat (seq (first + a) n)). { induction n0 as [|m IH]; intros a first; [reflexivity|]. cbn [seq map]. f_equal; [lia|]. rewrite IH. f_equal. f_equal. lia. }
        intros first. rewrite G, Nat.add_0_r. reflexivity. }
    rewrite G2. clear G2. cbn iota beta. rewrite <- EP. unfold g2.
    destruct dm_only eqn:Edm.
    - destruct (six_parts HV) as (l0 & l1 & l2 & l3 & l4 & l5 & t0 & t1 & t2 & t3 & t4 & t5 & k0 & k1 & k2 & k3 & k4 & k5 & E1 & E2 & E3).
      match goal with |- context [read_masses_dm _ _ _ _ _ _ (cur ?pre (block sw _ ++ ?rest)) (map ?g L)] => destruct (read_masses_dm_ok g L pre rest l0 l1 [l2; l3; l4; l5] t0 t1 [t2; t3; t4; t5] k0 k1 [k2; k3; k4; k5] E1 E2 E3) as (f' & Em) end.
      + rewrite E1, E3 in V11. do 2 (apply both_cons in V11 as [? V11]). assumption.
      + rewrite E1, E3 in V11. do 2 (apply both_cons in V11 as [? V11]). assumption.
      + unfold L. rewrite entries_snd. unfold selected. rewrite E1, E2, Edm. cbn [seq combine flat_map Nat.eqb negb andb app]. apply app_nil_r.
      + intros Ez Ek. apply HB; [reflexivity|rewrite E2; exact Ez|rewrite E3; exact Ek].
      + intros p Hp. apply (V9 p Hp).
      + nia.
      + rewrite Em. f_equal. apply map_ext. intros [n [[t tb] p]]. unfold g1, mass_of, loaded, part. rewrite andb_false_r. reflexivity.
    - destruct (entries_types first HV Edm) as (segs & Es & HT). unfold L. rewrite <- Es.
      rewrite read_masses_ok; [|exact HT|exact V1|exact V3|intros p Hp; apply (V9 p Hp)|nia]. cbn iota beta.
      destruct thermal eqn:Eth.
      + rewrite read_energies_ok; [|exact HT|apply HB; reflexivity|intros p Hp; apply (V9 p Hp)|nia]. cbn iota beta. rewrite set_types_ok by assumption. f_equal. apply map_ext. intros [n [[t tb] p]]. cbn [snd fst]. unfold g1, mass_of, loaded, part. cbn [snd fst andb negb]. destruct (Nat.eqb t 0); reflexivity.
      + rewrite set_types_ok by assumption. f_equal. apply map_ext. intros [n [[t tb] p]]. reflexivity.
  Qed.
End File.
