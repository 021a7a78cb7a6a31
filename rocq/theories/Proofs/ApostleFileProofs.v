From Coq Require Import List ZArith Bool String Lia Arith.
From Coq Require Import ZifyBool ZifyNat.
From Verif.Model Require Import Mymath Mpi FileNames Gadget ApostleFiles.
From Verif.Model Require Apostle.
From Verif.Spec Require Import Basic ApostleFiles.
From Verif.Proofs Require Import MymathProofs GadgetFile.
From Verif.Proofs Require HostProofs CatalogueProofs.
Import ListNotations.
Local Open Scope Z_scope.
Notation length := List.length.
Notation concat := List.concat.
Ltac Zify.zify_post_hook ::= idtac.

Lemma read_exact {A} (z : A) np l : np = length l -> read_dataset z np (Some l) = Some l.
Proof. intros ->. unfold read_dataset. rewrite Nat.leb_refl, Nat.sub_diag. cbn [repeat]. rewrite app_nil_r. reflexivity. Qed.
Lemma repeat_app_len {A} (x : A) a b : repeat x (a + b) = repeat x a ++ repeat x b.
Proof. apply repeat_app. Qed.
Lemma fits_id size z : in_range size z -> to_hbtint size z = z.
Proof. unfold in_range, to_hbtint. lia. Qed.
Lemma sum_fold l : forall a, fold_left Z.add l a = a + zsum l.
Proof. induction l as [|x l IH]; intros a; [cbn; lia|]. cbn [fold_left zsum]. rewrite IH. lia. Qed.
Lemma zsum_app a b : zsum (a ++ b) = zsum a + zsum b.
Proof. induction a as [|x a IH]; [reflexivity|]. cbn [app zsum]. rewrite IH. lia. Qed.
Lemma zsum_lens {A B} (g : A -> list B) l : zsum (map (fun x => Z.of_nat (length (g x))) l) = Z.of_nat (length (flat_map g l)).
Proof. induction l as [|x l IH]; [reflexivity|]. cbn [map zsum flat_map]. rewrite IH, app_length. lia. Qed.
Lemma offsets_nth cs : forall off k, (k < length cs)%nat -> nth_error (fst (compile_offsets_from off cs)) k = Some (off + zsum (firstn k cs)).
Proof.
  induction cs as [|c cs IH]; intros off k Hk; [cbn in Hk; lia|]. cbn [compile_offsets_from]. specialize (IH (off + c)). destruct (compile_offsets_from (off + c) cs) as [offs tot]. cbn [fst] in *.
  destruct k as [|k]; [cbn; f_equal; lia|]. cbn [nth_error firstn zsum]. cbn [length] in Hk. rewrite IH by lia. f_equal. lia.
Qed.
Lemma range_seq a b : 0 <= a -> range a b = map Z.of_nat (seq (Z.to_nat a) (Z.to_nat (b - a))).
Proof.
  intros Ha. unfold range. generalize (Z.to_nat (b - a)). intros n.
  assert (G : forall k, map (fun j => a + Z.of_nat j) (seq k n) = map Z.of_nat (seq (Z.to_nat a + k) n)).
  { induction n as [|n IH]; intros k; [reflexivity|]. cbn [seq map]. f_equal; [lia|]. rewrite IH, Nat.add_succ_r. reflexivity. }
  rewrite G, Nat.add_0_r. reflexivity.
Qed.

(** * The loops *)
Section Loops.
  Context {R P : Type}.
  Variable blank : P.

  Lemma type_loop_ok (body : nat -> nat -> nat -> datasets R -> list P -> option (list P)) f nps offs off {K} (out : nat -> K -> P) (segs : list (nat * list K)) : forall A C n,
    length A = (off + n)%nat ->
    (forall pre t ps post, segs = pre ++ (t, ps) :: post ->
       nth_error nps t = Some (Z.of_nat (length ps)) /\ nth_error offs t = Some (Z.of_nat (n + length (flat_map snd pre))) /\
       (ps <> [] -> exists d, f_PartType f t = Some d /\
          forall A C, body t (length ps) (length A) d (A ++ repeat blank (length ps) ++ C) = Some (A ++ map (out t) ps ++ C))) ->
    type_loop body f nps offs off (map fst segs) (A ++ repeat blank (length (flat_map snd segs)) ++ C) = Some (A ++ flat_map (fun s => map (out (fst s)) (snd s)) segs ++ C).
  Proof.
    induction segs as [|[t ps] segs IH]; intros A C n HA H; [reflexivity|]. cbn [map fst flat_map snd type_loop].
    destruct (H [] t ps segs eq_refl) as (H1 & H2 & H3). rewrite H1, H2. cbn [flat_map length] in H2. rewrite Nat.add_0_r in *.
    assert (Hr : forall n', n' = (n + length ps)%nat -> forall pre t0 ps0 post, segs = pre ++ (t0, ps0) :: post ->
       nth_error nps t0 = Some (Z.of_nat (length ps0)) /\ nth_error offs t0 = Some (Z.of_nat (n' + length (flat_map snd pre))) /\
       (ps0 <> [] -> exists d, f_PartType f t0 = Some d /\
          forall A C, body t0 (length ps0) (length A) d (A ++ repeat blank (length ps0) ++ C) = Some (A ++ map (out t0) ps0 ++ C))).
    { intros n' -> pre t0 ps0 post E. specialize (H ((t, ps) :: pre) t0 ps0 post). cbn [app] in H. rewrite E in H. destruct (H eq_refl) as (G1 & G2 & G3). split; [exact G1|]. split; [|exact G3]. rewrite G2. cbn [flat_map snd]. rewrite app_length. f_equal. lia. }
    destruct ps as [|p ps].
    - cbn [length]. rewrite Z.eqb_refl. cbn [app map]. apply (IH A C n HA). apply (Hr n). cbn [length]. lia.
    - destruct (Z.eqb_spec (Z.of_nat (length (p :: ps))) 0) as [E|_]; [cbn [length] in E; lia|]. destruct (Z.ltb_spec (Z.of_nat (length (p :: ps))) 0) as [E|_]; [lia|].
      destruct H3 as (d & Ed & Hd); [discriminate|]. rewrite Ed. rewrite !Nat2Z.id. rewrite app_length, repeat_app, <- app_assoc. rewrite <- HA, Hd.
      rewrite app_assoc. rewrite (IH (A ++ map (out t) (p :: ps)) C (n + length (p :: ps))%nat); [rewrite <- !app_assoc; reflexivity|rewrite app_length, map_length; lia|apply Hr; reflexivity].
  Qed.

  Context {V : Type}.
  Variables (g : V -> list P) (vs : list V).
  Notation counts := (map (fun v => Z.of_nat (length (g v))) vs).
  Lemma firstn_counts k : zsum (firstn k counts) = Z.of_nat (length (flat_map g (firstn k vs))).
  Proof. rewrite firstn_map. apply zsum_lens. Qed.
  Lemma file_loop_ok (read : Z -> nat -> list P -> option (list P)) b n : 
    (forall k v, nth_error vs k = Some v -> forall A C, read (Z.of_nat k) (length A) (A ++ repeat blank (length (g v)) ++ C) = Some (A ++ g v ++ C)) ->
    (b + n <= length vs)%nat ->
    file_loop read (fst (compile_offsets counts)) (Z.of_nat b) (map Z.of_nat (seq b n)) (repeat blank (length (flat_map g (firstn n (skipn b vs))))) = Some (flat_map g (firstn n (skipn b vs))).
  Proof.
    intros HR Hn.
    assert (G : forall j i, (i + j = n)%nat -> forall A, A = flat_map g (firstn i (skipn b vs)) ->
      file_loop read (fst (compile_offsets counts)) (Z.of_nat b) (map Z.of_nat (seq (b + i) j)) (A ++ repeat blank (length (flat_map g (firstn j (skipn (b + i) vs))))) = Some (A ++ flat_map g (firstn j (skipn (b + i) vs)))).
    { induction j as [|j IH]; intros i Hi A EA; [reflexivity|]. cbn [seq map file_loop]. unfold compile_offsets. rewrite !Nat2Z.id. rewrite !offsets_nth by (rewrite map_length; lia). rewrite !firstn_counts, !Z.add_0_l.
      destruct (nth_error vs (b + i)) as [v|] eqn:Ev; [|apply nth_error_None in Ev; lia].
      assert (Es : skipn (b + i) vs = v :: skipn (S (b + i)) vs). { clear -Ev. revert Ev. generalize (b + i)%nat. induction vs as [|x l IHl]; intros [|k] E; try discriminate; [injection E as ->; reflexivity|]. cbn [skipn]. apply IHl. exact E. }
      assert (Ef : firstn (b + i) vs = firstn b vs ++ firstn i (skipn b vs)). { clear. revert b. induction vs as [|x l IHl]; intros [|b]; cbn; try reflexivity; [destruct i; reflexivity|]. rewrite IHl. reflexivity. }
      rewrite Ef, flat_map_app, app_length. replace (Z.to_nat _) with (length A) by (subst A; lia).
      rewrite Es. cbn [firstn flat_map]. rewrite app_length, repeat_app. rewrite (HR _ _ Ev). specialize (IH (S i)). rewrite Nat.add_succ_r in IH. rewrite app_assoc. rewrite IH; [rewrite <- app_assoc; reflexivity|lia|].
      subst A. assert (Hs : firstn (S i) (skipn b vs) = firstn i (skipn b vs) ++ [v]).
      { clear -Ev. assert (Ev' : nth_error (skipn b vs) i = Some v). { revert b Ev. induction vs as [|x l IHl]; intros [|b] E; cbn in *; try exact E; [destruct i; discriminate|]. apply IHl. exact E. }
        revert Ev'. generalize (skipn b vs). clear. revert i. induction i as [|i IHi]; intros [|x l] E; try discriminate; [injection E as ->; reflexivity|]. cbn [firstn app]. f_equal. apply IHi. exact E. }
      rewrite Hs, flat_map_app. cbn [flat_map]. rewrite app_nil_r. reflexivity. }
    specialize (G n 0%nat eq_refl [] eq_refl). rewrite Nat.add_0_r in G. exact G.
  Qed.
End Loops.

(** * Opening *)
Lemma erase_mid a : forall n b c, String.length a = n -> erase n (String.length b) (a ++ b ++ c)%string = Some (a ++ c)%string.
Proof.
  induction a as [|x a IH]; intros [|n] b c Hn; try discriminate.
  - cbn [append]. induction b as [|y b IHb]; [destruct c; reflexivity|]. cbn [String.length append erase]. exact IHb.
  - cbn [String.length append] in *. cbn [erase]. rewrite IH by lia. reflexivity.
Qed.

Section Files.
  Context {R : Type}.
  Variable zero : R.
  Variable is_zero box_matches : R -> bool.
  Variable wrap speed : R -> R -> R.
  Variable periodic : bool.
  Variable snapshot_path : string.
  Variable name_list : list string.
  Variable snapshot_id : Z.
  Variables dm_only thermal : bool.
  Variable hbtint_size : Z.
  Variable disk : string -> option (hdf R).
  Variables (a b c : string) (v0 : volume R) (vr : list (volume R)) (fs : list (hdf R)).
  Notation vs := (v0 :: vr).
  Hypothesis HN : named name_list snapshot_id a b c.
  Hypothesis HS : stored_at disk snapshot_path a b c fs.
  Hypothesis HH : Forall2 (holds is_zero dm_only thermal) vs fs.
  Hypothesis Hsnap : snapshot_of v0 vs.
  Hypothesis Hbox : box_matches (v_box v0) = true.
  Hypothesis Hfit : Forall (numbers_fit hbtint_size) vs.
  Notation open := (open_hdf snapshot_path name_list snapshot_id disk).

  Lemma open_nth k : open (Z.of_nat k) = nth_error fs k.
  Proof using All.
    unfold open_hdf. destruct HN as (Ha & Hb & Hm). assert (En : snapshot_name name_list snapshot_id = Some (a ++ b ++ c)%string).
    { unfold snapshot_name. destruct name_list; [destruct Hm as (-> & -> & ->); reflexivity|]. destruct Hm as [H0 H1]. destruct (Z.ltb_spec snapshot_id 0); [lia|exact H1]. }
    rewrite En. unfold apostle_file_name. pose proof (erase_mid a 4 b c Ha) as E4. rewrite Hb in E4. rewrite E4. apply HS.
  Qed.
  Lemma held k v : nth_error vs k = Some v -> exists f, nth_error fs k = Some f /\ holds is_zero dm_only thermal v f /\ numbers_fit hbtint_size v /\ v_table v = v_table v0.
  Proof using All.
    intros E. destruct Hsnap as [_ HT]. assert (Hv : In v vs) by (eapply nth_error_In; exact E). rewrite Forall_forall in HT, Hfit. specialize (HT v Hv). specialize (Hfit v Hv).
    cut (exists f, nth_error fs k = Some f /\ holds is_zero dm_only thermal v f); [intros (f & E1 & E2); exists f; tauto|].
    assert (G : forall l l', Forall2 (holds is_zero dm_only thermal) l l' -> forall k, nth_error l k = Some v -> exists f, nth_error l' k = Some f /\ holds is_zero dm_only thermal v f).
    { intros l l' HF. induction HF as [|x y l l' Hx HF IH]; intros [|k'] E'; try discriminate; [injection E' as ->; exists y; split; [reflexivity|exact Hx]|]. apply (IH k' E'). }
    apply (G _ _ HH k E).
  Qed.

  Definition segs (v : volume R) : list (nat * list (kept R)) := combine (seq 0 6) (map (fun e => if wanted dm_only (fst e) then snd e else []) (combine (seq 0 6) (v_types v))).
  Definition table (t : nat) : R := nth t (v_table v0) zero.
  Lemma count_ok v f : holds is_zero dm_only thermal v f -> count_in_file dm_only f = Some (map (fun s => Z.of_nat (length (snd s))) (segs v)).
  Proof using All.
    intros (H1 & _ & H3 & _). unfold count_in_file. rewrite H3, map_length, H1. cbn [Nat.eqb type_max]. f_equal. unfold segs, wanted. destruct (six _ H1) as (p0 & p1 & p2 & p3 & p4 & p5 & ->).
    destruct dm_only; reflexivity.
  Qed.
  Lemma volume_segs v f : holds is_zero dm_only thermal v f -> v_table v = v_table v0 ->
    of_volume is_zero wrap speed periodic dm_only thermal v0 v = flat_map (fun s => map (fun p => (k_group p, ready is_zero wrap speed periodic dm_only thermal v0 (fst s) (table (fst s)) p)) (snd s)) (segs v).
  Proof using All.
    intros (H1 & H2 & _) ET. unfold of_volume, segs, table. rewrite <- ET. destruct (six _ H1) as (p0 & p1 & p2 & p3 & p4 & p5 & ->). destruct (six _ H2) as (t0 & t1 & t2 & t3 & t4 & t5 & ->).
    cbn [seq combine map flat_map fst snd nth]. destruct (wanted dm_only 0), (wanted dm_only 1), (wanted dm_only 2), (wanted dm_only 3), (wanted dm_only 4), (wanted dm_only 5); reflexivity.
  Qed.

  Section OneType.
    Context {P : Type}.
    Variable field : (particle R -> particle R) -> P -> P.
    Hypothesis field_comp : forall f g p, field f (field g p) = field (fun q => f (g q)) p.
    Hypothesis field_ext : forall f g p, (forall q, f q = g q) -> field f p = field g p.
    Lemma read_fields_ok h t tb d ps (init : P) A C : f_BoxSize h = v_box v0 -> f_Time h = v_time v0 -> nth_error (f_MassTable h) t = Some tb ->
      holds_type is_zero thermal tb t ps d -> (forall p, In p ps -> in_range hbtint_size (k_id p)) ->
      read_fields zero is_zero wrap speed periodic dm_only thermal hbtint_size field h t (length ps) (length A) d (A ++ repeat init (length ps) ++ C) =
      Some (A ++ map (fun p => field (fun q => mkparticle (p_pos (ready is_zero wrap speed periodic dm_only thermal v0 t tb p)) (p_vel (ready is_zero wrap speed periodic dm_only thermal v0 t tb p)) (Some (k_id p))
        (p_mass (ready is_zero wrap speed periodic dm_only thermal v0 t tb p)) (if thermal && negb dm_only && Nat.eqb t 0 then Some (k_energy p) else p_energy q) (if dm_only then p_type q else Some t)) init) ps ++ C).
    Proof using All.
      intros Eb Et Em (D1 & D2 & D3 & D4 & D5 & D6) Hid. unfold read_fields. rewrite Eb, Et, Em, D1, D3.
      rewrite (read_exact _ _ _ (eq_sym (map_length _ _))). rewrite (repeat_map init ps _ eq_refl).
      set (x := if periodic then _ else _). rewrite (assign_seg (fun v => field (set_pos v)) (fun p => if periodic then map3 (wrap (v_box v0)) (k_pos p) else k_pos p) (fun _ => init) (length A) x A ps C eq_refl) by (unfold x; destruct periodic; [rewrite map_map|]; reflexivity). clear x.
      assert (Ev : match d_Velocities d with Some l => Some l | None => d_Velocity d end = Some (map k_vel ps)) by (destruct D2 as [->|[-> ->]]; reflexivity). rewrite Ev, (read_exact _ _ _ (eq_sym (map_length _ _))).
      rewrite (assign_seg (fun v => field (set_vel v)) (fun p => map3 (speed (v_time v0)) (k_vel p)) _ (length A) _ A ps C eq_refl) by (rewrite map_map; reflexivity).
      cbn [option_map]. rewrite map_map. assert (Ei : map (fun p => to_hbtint hbtint_size (k_id p)) ps = map k_id ps) by (apply map_ext_in; intros p Hp; apply fits_id, Hid, Hp). rewrite Ei, (read_exact _ _ _ (eq_sym (map_length _ _))).
      rewrite (assign_seg (fun v => field (set_id v)) k_id _ (length A) _ A ps C eq_refl eq_refl).
      assert (Emass : (if is_zero tb then read_dataset zero (length ps) (match d_Masses d with Some l => Some l | None => d_Mass d end) else Some (repeat tb (length ps))) = Some (map (fun p => if is_zero tb then k_mass p else tb) ps)).
      { destruct (is_zero tb) eqn:Ez; [|rewrite (repeat_map tb ps _ eq_refl); reflexivity]. assert (E' : match d_Masses d with Some l => Some l | None => d_Mass d end = Some (map k_mass ps)) by (destruct (D4 eq_refl) as [->|[-> ->]]; reflexivity).
        rewrite E', (read_exact _ _ _ (eq_sym (map_length _ _))). reflexivity. }
      rewrite Emass. rewrite (assign_seg (fun v => field (set_mass v)) (fun p => if is_zero tb then k_mass p else tb) _ (length A) _ A ps C eq_refl eq_refl).
      destruct dm_only eqn:Edm.
      { f_equal. f_equal. f_equal. apply map_ext. intros p. rewrite !field_comp. apply field_ext. intros q. unfold set_pos, set_vel, set_id, set_mass, ready. cbn [p_pos p_vel p_id p_mass p_energy p_type]. rewrite andb_false_r. reflexivity. }
      destruct (thermal && Nat.eqb t 0) eqn:Eth.
      - apply andb_prop in Eth as [E1 E2]. apply Nat.eqb_eq in E2. rewrite (D5 E1 E2), (read_exact _ _ _ (eq_sym (map_length _ _))). rewrite (assign_seg (fun v => field (set_energy v)) k_energy _ (length A) _ A ps C eq_refl eq_refl).
        rewrite (repeat_map t ps _ eq_refl), (assign_seg (fun v => field (set_type v)) (fun _ => t) _ (length A) _ A ps C eq_refl eq_refl).
        f_equal. f_equal. f_equal. apply map_ext. intros p. rewrite !field_comp. apply field_ext. intros q. unfold set_pos, set_vel, set_id, set_mass, set_energy, set_type, ready. cbn [p_pos p_vel p_id p_mass p_energy p_type negb]. rewrite E1, E2. reflexivity.
      - rewrite (repeat_map t ps _ eq_refl), (assign_seg (fun v => field (set_type v)) (fun _ => t) _ (length A) _ A ps C eq_refl eq_refl).
        f_equal. f_equal. f_equal. apply map_ext. intros p. rewrite !field_comp. apply field_ext. intros q. unfold set_pos, set_vel, set_id, set_mass, set_energy, set_type, ready. cbn [p_pos p_vel p_id p_mass p_energy p_type negb]. rewrite andb_true_r, Eth. reflexivity.
    Qed.
  End OneType.

  Lemma segs_at v f pre t ps post : holds is_zero dm_only thermal v f -> segs v = pre ++ (t, ps) :: post ->
    t = length pre /\ (t < 6)%nat /\ (ps <> [] -> nth_error (v_types v) t = Some ps /\ wanted dm_only t = true).
  Proof using All.
    intros (H1 & _) E. unfold segs in E. destruct (six _ H1) as (p0 & p1 & p2 & p3 & p4 & p5 & Ev). rewrite Ev in *. cbn [seq combine map fst snd] in E.
    destruct pre as [|e0 [|e1 [|e2 [|e3 [|e4 [|e5 pre]]]]]]; cbn [app] in E; injection E as; subst; cbn [length]; try (split; [reflexivity|split; [lia|]]; intros Hne; cbn [nth_error]; 
      match goal with |- Some _ = Some (if ?w then _ else _) /\ _ => destruct w eqn:Ew; [split; reflexivity|congruence] end).
    match goal with H : _ = pre ++ _ :: _ |- _ => destruct pre; discriminate H end.
  Qed.
  Section Each.
    Context {P : Type}.
    Variable init : P.
    Variable body : nat -> nat -> nat -> datasets R -> list P -> option (list P).
    Variable out : nat -> kept R -> P.
    Lemma each_ok v f : holds is_zero dm_only thermal v f -> v_table v = v_table v0 ->
      (forall t ps d, nth_error (v_types v) t = Some ps -> f_PartType f t = Some d -> holds_type is_zero thermal (table t) t ps d -> nth_error (v_table v0) t = Some (table t) ->
         forall A C, body t (length ps) (length A) d (A ++ repeat init (length ps) ++ C) = Some (A ++ map (out t) ps ++ C)) ->
      forall A C, each_present dm_only body f (length A) (A ++ repeat init (length (flat_map snd (segs v))) ++ C) = Some (A ++ flat_map (fun s => map (out (fst s)) (snd s)) (segs v) ++ C).
    Proof using All.
      intros Hh ET HB A C. unfold each_present. rewrite (count_ok _ _ Hh). set (counts := map (fun s => Z.of_nat (length (snd s))) (segs v)).
      assert (Es : seq 0 type_max = map fst (segs v)). { unfold segs. destruct Hh as (H1 & _). destruct (six _ H1) as (p0 & p1 & p2 & p3 & p4 & p5 & ->). reflexivity. }
      rewrite Es. apply (type_loop_ok init body f counts (fst (compile_offsets counts)) (length A) out (segs v) A C 0); [lia|]. intros pre t ps post E.
      destruct (segs_at _ _ _ _ _ _ Hh E) as (Et & Ht & Hps). subst t.
      assert (Hn : nth_error counts (length pre) = Some (Z.of_nat (length ps))). { unfold counts. rewrite E, map_app, nth_error_app2 by (rewrite map_length; lia). rewrite map_length, Nat.sub_diag. reflexivity. }
      split; [exact Hn|]. split.
      - unfold compile_offsets. rewrite offsets_nth by (apply nth_error_Some; congruence). f_equal. cbn [Nat.add]. rewrite Z.add_0_l. unfold counts. rewrite E, map_app, <- (map_length (fun s : nat * list (kept R) => Z.of_nat (length (snd s))) pre), firstn_app, firstn_all, Nat.sub_diag, firstn_O, app_nil_r. apply zsum_lens.
      - intros Hne. destruct (Hps Hne) as [Hv Hw]. pose proof Hh as (_ & H2 & _ & _ & _ & _ & _ & H8). assert (Htab : nth_error (v_table v) (length pre) = Some (table (length pre))).
        { unfold table. rewrite <- ET. apply nth_error_nth'. lia. }
        destruct (H8 _ _ _ Hv Htab Hw Hne) as (d & Ed & Hd). exists d. split; [exact Ed|]. apply HB; [exact Hv|exact Ed|exact Hd|rewrite <- ET; exact Htab].
    Qed.
  End Each.

  Notation volume_list := (of_volume is_zero wrap speed periodic dm_only thermal v0).
  Variable f0 : hdf R.
  Hypothesis H0 : nth_error fs 0 = Some f0.
  Lemma first_holds : holds is_zero dm_only thermal v0 f0.
  Proof using All. destruct (held 0 v0 eq_refl) as (f & E & Hf & _). congruence. Qed.
  Lemma in_type (v : volume R) t ps p : nth_error (v_types v) t = Some ps -> In p ps -> In p (concat (v_types v)).
  Proof using. intros E Hp. apply in_concat. exists ps. split; [eapply nth_error_In; exact E|exact Hp]. Qed.
  Lemma len_segs {A} v (h : nat -> kept R -> A) : length (flat_map (fun s => map (h (fst s)) (snd s)) (segs v)) = length (flat_map snd (segs v)).
  Proof using. induction (segs v) as [|s l IH]; [reflexivity|]. cbn [flat_map]. rewrite !app_length, map_length, IH. reflexivity. Qed.
  Lemma map_segs {A B} v (h : nat -> kept R -> A) (k : A -> B) : map k (flat_map (fun s => map (h (fst s)) (snd s)) (segs v)) = flat_map (fun s => map (fun p => k (h (fst s) p)) (snd s)) (segs v).
  Proof using. induction (segs v) as [|s l IH]; [reflexivity|]. cbn [flat_map]. rewrite map_app, map_map, IH. reflexivity. Qed.

  Lemma read_snapshot_ok : Forall (narrow hbtint_size) fs -> forall k v, nth_error vs k = Some v -> forall A C,
    read_snapshot zero is_zero wrap speed periodic snapshot_path name_list snapshot_id dm_only thermal hbtint_size disk f0 (Z.of_nat k) (length A) (A ++ repeat blank (length (map snd (volume_list v))) ++ C) = Some (A ++ map snd (volume_list v) ++ C).
  Proof using All.
    intros Hnarrow k v Ek A C. destruct (held k v Ek) as (f & Ef & Hf & Hr & ET). unfold read_snapshot. rewrite open_nth, Ef. rewrite map_length. rewrite (volume_segs v f Hf ET), (len_segs v (fun t p => (k_group p, ready is_zero wrap speed periodic dm_only thermal v0 t (table t) p))), (map_segs v (fun t p => (k_group p, ready is_zero wrap speed periodic dm_only thermal v0 t (table t) p)) snd).
    apply (each_ok blank _ (fun t p => ready is_zero wrap speed periodic dm_only thermal v0 t (table t) p) v f Hf ET). intros t ps d Et Ed Hd Htab A' C'.
    assert (Hn : d_id_size d <= hbtint_size). { rewrite Forall_forall in Hnarrow. apply (Hnarrow f (nth_error_In _ _ Ef) t d Ed). }
    destruct (Z.leb_spec (d_id_size d) hbtint_size); [|lia]. destruct first_holds as (_ & _ & _ & F4 & F5 & F6 & _).
    rewrite (read_fields_ok (fun g => g) ltac:(reflexivity) ltac:(auto) f0 t (table t) d ps blank A' C' F6 F5); [|rewrite F4; exact Htab|exact Hd|intros p Hp; apply Hr; eapply in_type; eassumption].
    reflexivity.
  Qed.
  Definition hosted (e : Z * particle R) : host_particle := (snd e, Some (Apostle.host_of (fst e))).
  Lemma read_group_ok k v : nth_error vs k = Some v -> forall A C,
    read_group_particles zero is_zero wrap speed periodic snapshot_path name_list snapshot_id dm_only thermal hbtint_size disk f0 (Z.of_nat k) (length A) (A ++ repeat (blank, None) (length (map hosted (volume_list v))) ++ C) = Some (A ++ map hosted (volume_list v) ++ C).
  Proof using All.
    intros Ek A C. destruct (held k v Ek) as (f & Ef & Hf & Hr & ET). unfold read_group_particles. rewrite open_nth, Ef. rewrite map_length. rewrite (volume_segs v f Hf ET), (len_segs v (fun t p => (k_group p, ready is_zero wrap speed periodic dm_only thermal v0 t (table t) p))), (map_segs v (fun t p => (k_group p, ready is_zero wrap speed periodic dm_only thermal v0 t (table t) p)) hosted).
    apply (each_ok (blank, None) _ (fun t p => hosted (k_group p, ready is_zero wrap speed periodic dm_only thermal v0 t (table t) p)) v f Hf ET). intros t ps d Et Ed Hd Htab A' C'.
    destruct first_holds as (_ & _ & _ & F4 & F5 & F6 & _).
    unfold host_particle. rewrite (read_fields_ok (fun g (p : particle R * option Z) => (g (fst p), snd p)) ltac:(reflexivity) ltac:(intros f1 f2 p Hp; cbv beta; rewrite Hp; reflexivity) f0 t (table t) d ps (blank, None) A' C' F6 F5); [|rewrite F4; exact Htab|exact Hd|intros p Hp; apply Hr; eapply in_type; eassumption].
    destruct Hd as (_ & _ & _ & _ & _ & D6). rewrite D6. cbn [option_map]. rewrite map_map. assert (Ei : map (fun p => to_hbtint hbtint_size (k_group p)) ps = map k_group ps) by (apply map_ext_in; intros p Hp; apply fits_id, (Hr p), (in_type v t ps p Et Hp)). rewrite Ei, (read_exact _ _ _ (eq_sym (map_length _ _))).
    rewrite (assign_seg (fun v (p : particle R * option Z) => (fst p, Some (Apostle.host_of v))) k_group _ (length A') _ A' ps C' eq_refl eq_refl).
    reflexivity.
  Qed.

  Lemma offsets_ok (g : volume R -> nat) : (forall v, g v = length (volume_list v)) ->
    file_offsets snapshot_path name_list snapshot_id dm_only disk (range 0 (Z.of_nat (length vs))) 0 = Some (map (fun v => Z.of_nat (g v)) vs, fst (compile_offsets (map (fun v => Z.of_nat (g v)) vs))).
  Proof using All.
    intros Hg. rewrite range_seq by lia. rewrite Z.sub_0_r, Nat2Z.id. cbn [Z.to_nat]. unfold compile_offsets.
    assert (G : forall l k off, (forall i v, nth_error l i = Some v -> nth_error vs (k + i) = Some v) ->
      file_offsets snapshot_path name_list snapshot_id dm_only disk (map Z.of_nat (seq k (length l))) off = Some (map (fun v => Z.of_nat (g v)) l, fst (compile_offsets_from off (map (fun v => Z.of_nat (g v)) l)))).
    { induction l as [|v l IH]; intros k off H; [reflexivity|]. cbn [length seq map file_offsets compile_offsets_from]. destruct (held k v) as (f & Ef & Hf & _ & ET); [rewrite <- (Nat.add_0_r k); apply H; reflexivity|].
      rewrite open_nth, Ef, (count_ok v f Hf). assert (Ez : fold_left Z.add (map (fun s => Z.of_nat (length (snd s))) (segs v)) 0 = Z.of_nat (g v)).
      { rewrite sum_fold, Hg, (volume_segs v f Hf ET), (len_segs v (fun t p => (k_group p, ready is_zero wrap speed periodic dm_only thermal v0 t (table t) p))), zsum_lens. lia. }
      rewrite Ez, (IH (S k)); [|intros i x Hi; replace (S k + i)%nat with (k + S i)%nat by lia; apply H; exact Hi]. destruct (compile_offsets_from (off + Z.of_nat (g v)) _) as [offs tot]. reflexivity. }
    apply G. intros i v Hi. exact Hi.
  Qed.

  Lemma load_with_ok {P} (init : P) read (g : volume R -> list P) W : (0 < W)%nat -> (forall v, length (g v) = length (volume_list v)) ->
    (forall k v, nth_error vs k = Some v -> forall A C, read f0 (Z.of_nat k) (length A) (A ++ repeat init (length (g v)) ++ C) = Some (A ++ g v ++ C)) ->
    exists ivs, map (fun w => assign_tasks (Z.of_nat w) (Z.of_nat W) (Z.of_nat (length vs))) (seq 0 W) = map Some ivs /\ length ivs = W /\ tiles 0 (Z.of_nat (length vs)) ivs /\
      load_with box_matches snapshot_path name_list snapshot_id dm_only disk init read W = Some (map (fun iv => flat_map g (firstn (Z.to_nat (snd iv - fst iv)) (skipn (Z.to_nat (fst iv)) vs))) ivs).
  Proof using All.
    intros HW Hg HR. destruct (assign_tasks_correct W (Z.of_nat (length vs)) HW ltac:(lia)) as (ivs & E & Hl & Ht & _). exists ivs. split; [exact E|]. split; [exact Hl|]. split; [exact Ht|].
    unfold load_with, read_header. change 0 with (Z.of_nat 0) at 1. rewrite open_nth, H0. destruct first_holds as (_ & _ & _ & F4 & F5 & F6 & F7 & _). rewrite F6, Hbox, F7. destruct Hsnap as [Hfiles _]. rewrite Hfiles.
    rewrite (offsets_ok (fun v => length (g v)) Hg).
    assert (Hin : forall iv, In iv ivs -> 0 <= fst iv <= snd iv /\ snd iv <= Z.of_nat (length vs)) by (intros iv Hiv; apply (CatalogueProofs.tiles_inside ivs 0 _ iv ltac:(lia) Ht Hiv)).
    clear Ht Hl. revert E Hin. generalize (seq 0 W). induction ivs as [|[s e] r IH]; intros [|w ws] E Hin; try discriminate; [reflexivity|]. cbn [mapM].
    assert (E1 : assign_tasks (Z.of_nat w) (Z.of_nat W) (Z.of_nat (length vs)) = Some (s, e)) by (cbn [map] in E; congruence). rewrite E1. destruct (Hin (s, e) (or_introl eq_refl)) as [Hse He]. cbn [fst snd] in Hse, He |- *.
    rewrite range_seq by lia.  rewrite sum_fold, skipn_map, firstn_map, zsum_lens. cbn [Z.add]. rewrite Nat2Z.id.
    pose proof (file_loop_ok init g vs (read f0) (Z.to_nat s) (Z.to_nat (e - s)) HR ltac:(lia)) as FL. rewrite (Z2Nat.id s) in FL by lia. rewrite FL.
    rewrite IH; [reflexivity|cbn [map] in E; congruence|intros iv Hiv; apply Hin; right; exact Hiv].
  Qed.

  Lemma tiles_concat {A B} (g : A -> list B) (l : list A) ivs : forall lo, 0 <= lo -> tiles lo (Z.of_nat (length l)) ivs ->
    concat (map (fun iv => flat_map g (firstn (Z.to_nat (snd iv - fst iv)) (skipn (Z.to_nat (fst iv)) l))) ivs) = flat_map g (skipn (Z.to_nat lo) l).
  Proof using All.
    induction ivs as [|[s e] r IH]; intros lo Hlo Ht.
    - cbn [tiles] in Ht. cbn [map concat]. rewrite skipn_all2 by lia. reflexivity.
    - destruct Ht as (-> & Hse & Ht). cbn [map concat fst snd]. rewrite (IH e ltac:(lia) Ht). rewrite <- flat_map_app. f_equal.
      rewrite <- (firstn_skipn (Z.to_nat (e - lo)) (skipn (Z.to_nat lo) l)) at 2. f_equal. 
      replace (Z.to_nat e) with (Z.to_nat lo + Z.to_nat (e - lo))%nat by lia. clear. generalize (Z.to_nat (e - lo)) as n. generalize (Z.to_nat lo) as m. revert l. induction l as [|x l IH]; intros [|m] n; cbn [skipn Nat.add]; try reflexivity; [destruct n; reflexivity|]. apply IH.
  Qed.
  Lemma load_snapshot_ok W : Forall (narrow hbtint_size) fs -> (0 < W)%nat -> exists res,
    load_snapshot zero is_zero box_matches wrap speed periodic snapshot_path name_list snapshot_id dm_only thermal hbtint_size disk W = Some res /\ length res = W /\ concat res = map snd (flat_map volume_list vs).
  Proof using All.
    intros Hn HW. destruct (load_with_ok blank (read_snapshot zero is_zero wrap speed periodic snapshot_path name_list snapshot_id dm_only thermal hbtint_size disk) (fun v => map snd (volume_list v)) W HW ltac:(intros; apply map_length) (read_snapshot_ok Hn)) as (ivs & _ & Hl & Ht & E).
    eexists. split; [exact E|]. split; [rewrite map_length; exact Hl|]. rewrite (tiles_concat (fun v => map snd (volume_list v)) vs ivs 0 ltac:(lia) Ht). change (skipn (Z.to_nat 0) vs) with vs.
    generalize vs as l. induction l as [|x l IH]; [reflexivity|]. cbn [flat_map]. rewrite map_app, IH. reflexivity.
  Qed.
  Lemma load_groups_eq {X} average position step dims chunk sort_host sort_info sort_order sort_rank sort_halo W : (0 < W)%nat ->
    load_groups zero is_zero box_matches wrap speed periodic snapshot_path name_list snapshot_id dm_only thermal hbtint_size disk (X := X) average position step dims chunk sort_host sort_info sort_order sort_rank sort_halo W =
    Apostle.load_groups (particle R) X average position step dims chunk sort_host sort_info sort_order sort_rank sort_halo W (map volume_list vs).
  Proof using All.
    intros HW. destruct (load_with_ok (blank, None) (read_group_particles zero is_zero wrap speed periodic snapshot_path name_list snapshot_id dm_only thermal hbtint_size disk) (fun v => map hosted (volume_list v)) W HW ltac:(intros; apply map_length) read_group_ok) as (ivs & E & _ & _ & EL).
    unfold load_groups, load_hosts, Apostle.load_groups. rewrite EL.
    set (reads := map (fun iv : Z * Z => flat_map (fun v => Apostle.read_file (particle R) (volume_list v)) (firstn (Z.to_nat (snd iv - fst iv)) (skipn (Z.to_nat (fst iv)) vs))) ivs).
    assert (E1 : mapM (mapM (fun p : host_particle => match snd p with Some h => Some (h, fst p) | None => None end)) (map (fun iv : Z * Z => flat_map (fun v => map hosted (volume_list v)) (firstn (Z.to_nat (snd iv - fst iv)) (skipn (Z.to_nat (fst iv)) vs))) ivs) = Some reads).
    { unfold reads. clear. induction ivs as [|iv r IH]; [reflexivity|]. cbn [map mapM]. rewrite IH.
      assert (G : forall l, mapM (fun p : host_particle => match snd p with Some h => Some (h, fst p) | None => None end) (flat_map (fun v => map hosted (volume_list v)) l) = Some (flat_map (fun v => Apostle.read_file (particle R) (volume_list v)) l)).
      { assert (G' : forall (l : list (Z * particle R)), mapM (fun p : host_particle => match snd p with Some h => Some (h, fst p) | None => None end) (map hosted l) = Some (Apostle.read_file (particle R) l)).
        { induction l as [|x l IHl]; [reflexivity|]. cbn [map mapM]. rewrite IHl. reflexivity. }
        intros l. rewrite !flat_map_concat_map, <- (map_map volume_list (map hosted)), <- concat_map, G'. unfold Apostle.read_file. rewrite concat_map, map_map. reflexivity. }
      rewrite G. reflexivity. }
    assert (E2 : mapM (Apostle.read_files (particle R) W (map volume_list vs)) (seq 0 W) = Some reads).
    { unfold reads. clear - E. unfold Apostle.read_files. rewrite map_length. revert E. generalize (seq 0 W). induction ivs as [|iv r IH]; intros [|w ws] E; try discriminate; [reflexivity|]. cbn [mapM].
      assert (Ew : assign_tasks (Z.of_nat w) (Z.of_nat W) (Z.of_nat (length vs)) = Some iv) by (cbn [map] in E; congruence). rewrite Ew. destruct iv as [s e]. rewrite IH by (cbn [map] in E; congruence).
      rewrite skipn_map, firstn_map, map_map, <- flat_map_concat_map. reflexivity. }
    unfold host_particle in *. rewrite E1, E2. reflexivity.
  Qed.
End Files.
