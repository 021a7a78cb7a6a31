(** Values in configuration files, and the file of used parameters. *)
From Coq Require Import List ZArith QArith Bool Ascii String Lia.
From Verif.Spec Require Import Config.
From Verif.Model Require Import ListMem Config.
From Verif.Proofs Require Import ConfigProofs.
Import ListNotations.
Local Open Scope Z_scope.
Local Arguments is_space : simpl never.
Local Arguments mem : simpl never.
Local Arguments text_eqb : simpl never.
Local Arguments digit_value : simpl never.
Local Arguments digit_char : simpl never.

(** ** Digits *)
Lemma digit_cases (P : Z -> Prop) : P 0 -> P 1 -> P 2 -> P 3 -> P 4 -> P 5 -> P 6 -> P 7 -> P 8 -> P 9 -> P 10 -> P 11 -> P 12 -> P 13 -> P 14 -> P 15 -> forall d, 0 <= d < 16 -> P d.
Proof.
  intros. assert (d = 0 \/ d = 1 \/ d = 2 \/ d = 3 \/ d = 4 \/ d = 5 \/ d = 6 \/ d = 7 \/ d = 8 \/ d = 9 \/ d = 10 \/ d = 11 \/ d = 12 \/ d = 13 \/ d = 14 \/ d = 15) as HD by lia.
  repeat (destruct HD as [->|HD]; [assumption|]). subst d. assumption.
Qed.
Lemma digit_char_facts d : 0 <= d < 16 ->
  digit_value (digit_char d) = Some d /\ is_space (digit_char d) = false /\ mem (digit_char d) ["#"; "["]%char = false /\ digit_char d <> nl /\
  Ascii.eqb (digit_char d) "-" = false /\ Ascii.eqb (digit_char d) "+" = false /\ Ascii.eqb (digit_char d) "x" = false /\ Ascii.eqb (digit_char d) "X" = false.
Proof. revert d. apply digit_cases; repeat split; try reflexivity; discriminate. Qed.
Lemma space_no_digit c : is_space c = true -> digit_value c = None.
Proof.
  unfold is_space, mem. cbn [existsb]. intros H. repeat (apply orb_prop in H as [H|H]; [apply Ascii.eqb_eq in H; subst c; reflexivity|]). discriminate.
Qed.
Lemma take_digits_app base ds : forall acc f rest, base <= 16 -> Forall (fun d => 0 <= d < base) ds -> word_end rest ->
  take_digits base acc f (map digit_char ds ++ rest) = (fold_left (fun a d => a * base + d) ds acc, match ds with [] => f | _ => true end, rest).
Proof.
  induction ds as [|d ds IH]; intros acc f rest Hb Hd He.
  - cbn. destruct He as [->|(c & r & -> & Hc)]; [reflexivity|]. cbn. rewrite (space_no_digit c Hc). reflexivity.
  - inversion Hd as [|? ? H1 H2]; subst. cbn. destruct (digit_char_facts d ltac:(lia)) as (-> & _). assert (E : (d <? base) = true) by (apply Z.ltb_lt; lia). rewrite E.
    rewrite (IH _ true rest Hb H2 He). destruct ds; reflexivity.
Qed.
Lemma space_not_x c : is_space c = true -> Ascii.eqb c "x" = false /\ Ascii.eqb c "X" = false.
Proof.
  unfold is_space, mem. cbn [existsb]. intros H. repeat (apply orb_prop in H as [H|H]; [apply Ascii.eqb_eq in H; subst c; split; reflexivity|]). discriminate.
Qed.
Lemma skip_0x_digits base ds rest : base <= 16 -> Forall (fun d => 0 <= d < base) ds -> word_end rest -> ds <> [] -> skip_0x base (map digit_char ds ++ rest) = map digit_char ds ++ rest.
Proof.
  intros Hb Hd He Hn. destruct ds as [|d ds]; [contradiction|]. cbn [map app]. destruct (map digit_char ds ++ rest) as [|x r] eqn:E; [reflexivity|]. cbn [skip_0x].
  assert (Hx : Ascii.eqb x "x" = false /\ Ascii.eqb x "X" = false).
  { destruct ds as [|e ds]; cbn in E.
    - destruct He as [->|(c & t & -> & Hc)]; [discriminate|]. injection E as -> _. apply space_not_x. exact Hc.
    - injection E as <- _. inversion Hd as [|? ? _ H2]; subst. inversion H2 as [|? ? H3 _]; subst. destruct (digit_char_facts e ltac:(lia)) as (_ & _ & _ & _ & _ & _ & Hx). exact Hx. }
  destruct Hx as [-> ->]. rewrite andb_false_r. reflexivity.
Qed.
Lemma read_numeral base lo hi z t rest : base <= 16 -> numeral base z t -> lo <= z <= hi -> word_end rest -> read_int base lo hi (t ++ rest) = (z, true, rest).
Proof.
  intros Hb (ds & Hn & Hd & Ht) Hz He. unfold read_int. unfold horner in Ht.
  assert (G : forall v : Z, lo <= v <= hi -> (if v <? lo then (lo, false, rest) else if hi <? v then (hi, false, rest) else (v, true, rest)) = (v, true, rest)).
  { intros v Hv. destruct (Z.ltb_spec v lo); [lia|]. destruct (Z.ltb_spec hi v); [lia|]. reflexivity. }
  destruct Ht as [[-> Ez]|[-> Ez]].
  - destruct ds as [|d ds]; [contradiction|]. cbn [map app]. pose proof Hd as Hd'. inversion Hd' as [|? ? H1 _]; subst. destruct (digit_char_facts d ltac:(lia)) as (_ & _ & _ & _ & -> & -> & _).
    change (digit_char d :: map digit_char ds ++ rest) with (map digit_char (d :: ds) ++ rest). rewrite skip_0x_digits by (assumption || discriminate).
    rewrite take_digits_app by assumption. cbv beta iota zeta. apply G. exact Hz.
  - cbn [app]. rewrite Ascii.eqb_refl. rewrite skip_0x_digits by assumption. rewrite take_digits_app by assumption. destruct ds as [|d ds]; [contradiction|]. cbv beta iota zeta. rewrite <- Ez. apply G. exact Hz.
Qed.
Lemma digits_word ds base : base <= 16 -> Forall (fun d => 0 <= d < base) ds -> Forall (fun c => is_space c = false /\ mem c ["#"; "["]%char = false /\ c <> nl) (map digit_char ds).
Proof. intros Hb. induction 1 as [|d ds H1 H2 IH]; constructor; [|exact IH]. destruct (digit_char_facts d ltac:(lia)) as (_ & A & B & C & _). tauto. Qed.
(** A word that neither starts a comment nor ends the line. *)
Definition plain (t : text) : Prop := t <> [] /\ Forall (fun c => is_space c = false /\ mem c ["#"; "["]%char = false /\ c <> nl) t.
Lemma numeral_plain base z t : base <= 16 -> numeral base z t -> plain t.
Proof.
  intros Hb (ds & Hn & Hd & Ht). pose proof (digits_word ds base Hb Hd) as HW. destruct Ht as [[-> _]|[-> _]]; split.
  - destruct ds; [contradiction|discriminate].
  - exact HW.
  - discriminate.
  - constructor; [|exact HW]. split; [reflexivity|]. split; [reflexivity|discriminate].
Qed.
Lemma plain_is_word t : plain t -> word t.
Proof. intros [H1 H2]. split; [exact H1|]. eapply Forall_impl; [|exact H2]. cbn. tauto. Qed.

(** ** Printed integers *)
Lemma horner_app base ds d : horner base (ds ++ [d]) = horner base ds * base + d.
Proof. unfold horner. rewrite fold_left_app. reflexivity. Qed.
Lemma show_nat_digits base : 2 <= base <= 16 -> forall fuel n, 0 <= n -> n < 2 ^ Z.of_nat fuel -> (1 <= fuel)%nat ->
  exists ds, show_nat base fuel n = map digit_char ds /\ ds <> [] /\ Forall (fun d => 0 <= d < base) ds /\ horner base ds = n.
Proof.
  intros Hb. induction fuel as [|f IH]; intros n H0 Hn Hf; [lia|]. cbn [show_nat]. destruct (Z.ltb_spec n base).
  - exists [n]. split; [reflexivity|]. split; [discriminate|]. split; [constructor; [lia|constructor]|reflexivity].
  - rewrite Nat2Z.inj_succ, Z.pow_succ_r in Hn by lia.
    assert (Hq : n / base < 2 ^ Z.of_nat f) by (apply Z.div_lt_upper_bound; nia).
    assert (Hf1 : (1 <= f)%nat) by (destruct f; [change (2 ^ Z.of_nat 0) with 1 in Hn; lia|lia]).
    destruct (IH (n / base) ltac:(apply Z.div_pos; lia) Hq Hf1) as (ds & E & Hne & Hd & Hh). exists (ds ++ [n mod base]). rewrite E, map_app. split; [reflexivity|].
    split; [destruct ds; discriminate|]. split; [apply Forall_app; split; [exact Hd|constructor; [apply Z.mod_pos_bound; lia|constructor]]|].
    rewrite horner_app, Hh. pose proof (Z.div_mod n base ltac:(lia)). lia.
Qed.
Lemma show_numeral base z : 2 <= base <= 16 -> numeral base z (show_int base z).
Proof.
  intros Hb. unfold show_int. destruct (Z.ltb_spec z 0).
  - destruct (show_nat_digits base Hb (S (Z.to_nat (Z.log2 (- z)))) (- z)) as (ds & E & Hn & Hd & Hh); [lia| |lia|].
    + rewrite Nat2Z.inj_succ, Z2Nat.id by apply Z.log2_nonneg. apply Z.log2_spec. lia.
    + exists ds. split; [exact Hn|]. split; [exact Hd|]. right. rewrite E. split; [reflexivity|lia].
  - destruct (show_nat_digits base Hb (S (Z.to_nat (Z.log2 z))) z) as (ds & E & Hn & Hd & Hh); [lia| |lia|].
    + rewrite Nat2Z.inj_succ, Z2Nat.id by apply Z.log2_nonneg. destruct (Z.eq_dec z 0) as [->|]; [reflexivity|]. apply Z.log2_spec. lia.
    + exists ds. split; [exact Hn|]. split; [exact Hd|]. left. rewrite E. split; [reflexivity|lia].
Qed.

Section V.
  Variable read_real : text -> Q.
  Variable hbt_min hbt_max : Z.
  Local Notation extract := (extract read_real hbt_min hbt_max).
  Local Notation parse_config := (parse_config read_real hbt_min hbt_max).

  Lemma skip_to blanks t rest : spaces blanks -> word t -> skip_ws (blanks ++ t ++ rest) = t ++ rest.
  Proof. intros Hb Ht. rewrite skip_ws_app by exact Hb. apply skip_ws_word. exact Ht. Qed.
  Lemma extract_at k blanks t rest : spaces blanks -> word t -> extract k (blanks ++ t ++ rest) =
    Some (match k with
          | KStr => VStr (fst (take_word (t ++ rest)))
          | KInt => VInt (fst (fst (read_int 10 int_min int_max (t ++ rest))))
          | KHbt => VInt (fst (fst (read_int 10 hbt_min hbt_max (t ++ rest))))
          | KHex => VInt (fst (fst (read_int 16 long_min long_max (t ++ rest))))
          | KReal => VReal (read_real (t ++ rest))
          | KBool => VBool (negb (fst (fst (read_int 10 long_min long_max (t ++ rest))) =? 0)) end).
  Proof. intros Hb Ht. unfold Config.extract. rewrite (skip_to blanks t rest Hb Ht). destruct Ht as [Hn _]. destruct t; [contradiction|]. reflexivity. Qed.
  Lemma extract_str blanks t rest : spaces blanks -> word t -> word_end rest -> extract KStr (blanks ++ t ++ rest) = Some (VStr t).
  Proof. intros Hb Ht He. rewrite extract_at by assumption. rewrite (take_word_app t rest (proj2 Ht) He). reflexivity. Qed.
  Lemma extract_int blanks t rest z : spaces blanks -> numeral 10 z t -> int_min <= z <= int_max -> word_end rest -> extract KInt (blanks ++ t ++ rest) = Some (VInt z).
  Proof. intros Hb Ht Hz He. rewrite extract_at by (assumption || (apply plain_is_word, (numeral_plain 10 z); [lia|assumption])). rewrite (read_numeral 10 int_min int_max z) by (lia || assumption). reflexivity. Qed.
  Lemma extract_hbt blanks t rest z : spaces blanks -> numeral 10 z t -> hbt_min <= z <= hbt_max -> word_end rest -> extract KHbt (blanks ++ t ++ rest) = Some (VInt z).
  Proof. intros Hb Ht Hz He. rewrite extract_at by (assumption || (apply plain_is_word, (numeral_plain 10 z); [lia|assumption])). rewrite (read_numeral 10 hbt_min hbt_max z) by (lia || assumption). reflexivity. Qed.
  Lemma extract_hex blanks t rest z : spaces blanks -> numeral 16 z t -> long_min <= z <= long_max -> word_end rest -> extract KHex (blanks ++ t ++ rest) = Some (VInt z).
  Proof. intros Hb Ht Hz He. rewrite extract_at by (assumption || (apply plain_is_word, (numeral_plain 16 z); [lia|assumption])). rewrite (read_numeral 16 long_min long_max z) by (lia || assumption). reflexivity. Qed.
  Lemma extract_bool blanks t rest z : spaces blanks -> numeral 10 z t -> long_min <= z <= long_max -> word_end rest -> extract KBool (blanks ++ t ++ rest) = Some (VBool (negb (z =? 0))).
  Proof. intros Hb Ht Hz He. rewrite extract_at by (assumption || (apply plain_is_word, (numeral_plain 10 z); [lia|assumption])). rewrite (read_numeral 10 long_min long_max z) by (lia || assumption). reflexivity. Qed.
  Lemma extract_blank k s : spaces s -> extract k s = None.
  Proof. intros H. unfold Config.extract. rewrite <- (app_nil_r s), skip_ws_app by exact H. reflexivity. Qed.
  Lemma extract_total k s : ~ spaces s -> exists v, extract k s = Some v.
  Proof.
    intros H. unfold Config.extract. destruct (skip_ws s) as [|c r] eqn:E; [|eauto]. exfalso. apply H. destruct (skip_ws_inv s) as (pre & Hp & Es). rewrite E, app_nil_r in Es. subst s. exact Hp.
  Qed.

  (** Lists of integers. *)
  Lemma read_list_ids zs ts : Forall2 (fun z t => numeral 10 z t /\ int_min <= z <= int_max) zs ts ->
    forall fuel, (List.length (List.concat (map (fun t => " "%char :: t) ts)) < fuel)%nat -> read_list fuel (List.concat (map (fun t => " "%char :: t) ts)) = zs.
  Proof.
    assert (HE : forall us, word_end (List.concat (map (fun t => " "%char :: t) us))) by (intros [|u us]; [left; reflexivity|right; exists " "%char; eexists; split; reflexivity]).
    induction 1 as [|z t zs ts [Hn Hz] Hr IH]; intros fuel Hf.
    - cbn. destruct fuel; reflexivity.
    - destruct fuel as [|f]; [cbn in Hf; lia|]. cbn [map List.concat app read_list].
      pose proof (plain_is_word t (numeral_plain 10 z t ltac:(lia) Hn)) as HW.
      assert (ES : skip_ws (" "%char :: t ++ List.concat (map (fun t => " "%char :: t) ts)) = t ++ List.concat (map (fun t => " "%char :: t) ts)).
      { change (" "%char :: t ++ ?x) with ([" "%char] ++ t ++ x). apply skip_to; [repeat constructor|exact HW]. }
      rewrite ES. destruct (t ++ List.concat _) as [|a b] eqn:Ea; [destruct t; [destruct HW; contradiction|discriminate]|]. rewrite <- Ea.
      rewrite (read_numeral 10 int_min int_max z) by (lia || assumption || apply HE). f_equal. apply IH. cbn in Hf. rewrite app_length in Hf. lia.
  Qed.

  Variable show_real : Q -> text.
  Local Notation dump := (dump show_real).
  (** What the dumped text can represent. *)
  Definition showable (k : kind) (v : value) : Prop :=
    match k, v with
    | KStr, VStr t => plain t
    | KInt, VInt z => int_min <= z <= int_max
    | KHbt, VInt z => hbt_min <= z <= hbt_max
    | KHex, VInt z => 0 <= z <= long_max
    | KReal, VReal q => plain (show_real q)
    | KBool, VBool b => True
    | _, _ => False
    end.
  (** A value as it comes back after printing. *)
  Definition reread (v : value) : value := match v with VReal q => VReal (read_real (show_real q)) | _ => v end.
  Lemma show_plain k v : showable k v -> plain (show_value show_real k v).
  Proof.
    destruct k, v; cbn; try contradiction; try tauto; intros H.
    - apply (numeral_plain 10 z); [lia|apply show_numeral; lia].
    - apply (numeral_plain 10 z); [lia|apply show_numeral; lia].
    - apply (numeral_plain 16 (z mod 2 ^ 64)); [lia|apply show_numeral; lia].
    - destruct b; split; try discriminate; repeat constructor; discriminate.
  Qed.
  Lemma extract_show k v blanks : showable k v -> spaces blanks -> extract k (blanks ++ show_value show_real k v) = Some (reread v).
  Proof.
    intros H Hb. pose proof (plain_is_word _ (show_plain k v H)) as HW. rewrite <- (app_nil_r (show_value show_real k v)). assert (HE : word_end []) by (left; reflexivity).
    destruct k, v; cbn [showable] in H; try contradiction; cbn [show_value] in *.
    - apply extract_str; assumption.
    - apply extract_int; try assumption. apply show_numeral. lia.
    - apply extract_hbt; try assumption. apply show_numeral. lia.
    - rewrite (Z.mod_small z (2 ^ 64)) by (unfold long_max in H; lia). apply extract_hex; try assumption; [apply show_numeral; lia|unfold long_min; lia].
    - rewrite extract_at by assumption. rewrite app_nil_r. reflexivity.
    - assert (HN : numeral 10 (if b then 1 else 0) (if b then ["1"%char] else ["0"%char])) by (destruct b; [exists [1]|exists [0]]; (split; [discriminate|split; [repeat constructor; lia|left; split; reflexivity]])).
      rewrite (extract_bool blanks _ [] (if b then 1 else 0)); [destruct b; reflexivity|exact Hb|exact HN| |exact HE]. destruct b; unfold long_min, long_max; lia.
  Qed.

  (** The lines of the dumped text. *)
  Definition par_line (c : config) (p : param) : text := txt (name_of p) ++ [" "; " "]%char ++ show_value show_real (kind_of p) (c_val c p).
  Definition ids_text (ids : list Z) : text := List.concat (map (fun i => " "%char :: show_int 10 i) ids).
  Definition mask_lines (c : config) : list text := if value_eqZ (c_val c GroupParticleIdMask) 0 then [] else [txt "GroupParticleIdMask " ++ show_value show_real KHex (c_val c GroupParticleIdMask)].
  Definition ids_lines (c : config) : list text := match c_ids c with [] => [] | ids => [list_name ++ ids_text ids] end.
  Definition names_lines (names : text) : list text := match names with [] => [] | _ => [txt "#SnapshotNameList" ++ names] end.
  Definition dump_lines (c : config) (version names loaded : text) : list text :=
    (txt "#VERSION " ++ version) :: map (par_line c) [SnapshotPath; HaloPath; SubhaloPath; SnapshotFileBase; MaxSnapshotIndex; BoxSize; SofteningHalo; SnapshotFormat; GroupFileFormat; MaxConcurrentIO; MinSnapshotIndex; MinNumPartOfSub] ++
    mask_lines c ++
    map (par_line c) [MassInMsunh; LengthInMpch; VelInKmS; PeriodicBoundaryOn; SnapshotHasIdBlock; ParticleIdRankStyle; ParticleIdNeedHash; SnapshotIdUnsigned; SaveSubParticleProperties; MergeTrappedSubhalos] ++
    ids_lines c ++ names_lines names ++
    map (par_line c) [MajorProgenitorMassRatio; BoundMassPrecision; SourceSubRelaxFactor; SubCoreSizeFactor; SubCoreSizeMin; TreeAllocFactor; TreeNodeOpenAngle; TreeMinNumOfCells; MaxSampleSizeOfPotentialEstimate; RefineMostboundParticle] ++
    [txt "#GroupLoadedFullParticle  " ++ loaded].
  Lemma unlines_app a b : unlines (a ++ b) = unlines a ++ unlines b.
  Proof. unfold unlines. rewrite map_app, concat_app. reflexivity. Qed.
  Lemma unlines_cons l ls : unlines (l :: ls) = l ++ [nl] ++ unlines ls.
  Proof. unfold unlines. cbn [map List.concat]. rewrite <- app_assoc. reflexivity. Qed.
  Lemma unlines_par c p ls : unlines (par_line c p :: ls) = dump_par show_real c (name_of p) p ++ unlines ls.
  Proof. rewrite unlines_cons, app_assoc. f_equal. unfold par_line, dump_par. rewrite <- !app_assoc. reflexivity. Qed.
  Lemma unlines_pars c l : unlines (map (par_line c) l) = List.concat (map (fun p => dump_par show_real c (name_of p) p) l).
  Proof. induction l as [|p l IH]; [reflexivity|]. cbn [map List.concat]. rewrite unlines_par, IH. reflexivity. Qed.
  Lemma dump_unlines c version names loaded : dump c version names loaded = unlines (dump_lines c version names loaded).
  Proof.
    unfold dump_lines. rewrite unlines_cons, !unlines_app, !unlines_pars.
    assert (E1 : unlines (mask_lines c) =
      if value_eqZ (c_val c GroupParticleIdMask) 0 then [] else txt "GroupParticleIdMask " ++ show_value show_real KHex (c_val c GroupParticleIdMask) ++ [nl])
      by (unfold mask_lines; destruct (value_eqZ _ _); [reflexivity|]; rewrite unlines_cons; change (unlines []) with (@nil ascii); rewrite app_nil_r, <- app_assoc; reflexivity).
    assert (E2 : unlines (ids_lines c) =
      match c_ids c with [] => [] | ids => txt "SnapshotIdList" ++ List.concat (map (fun i => " "%char :: show_int 10 i) ids) ++ [nl] end)
      by (unfold ids_lines; destruct (c_ids c) as [|i ids]; [reflexivity|]; rewrite unlines_cons; change (unlines []) with (@nil ascii); rewrite app_nil_r, <- app_assoc; reflexivity).
    assert (E3 : unlines (names_lines names) = match names with [] => [] | _ => txt "#SnapshotNameList" ++ names ++ [nl] end)
      by (unfold names_lines; destruct names as [|i ids]; [reflexivity|]; rewrite unlines_cons; change (unlines []) with (@nil ascii); rewrite app_nil_r, <- app_assoc; reflexivity).
    assert (E4 : unlines [txt "#GroupLoadedFullParticle  " ++ loaded] = txt "#GroupLoadedFullParticle  " ++ loaded ++ [nl])
      by (rewrite unlines_cons; change (unlines []) with (@nil ascii); rewrite app_nil_r, <- app_assoc; reflexivity).
    rewrite E1, E2, E3, E4. clear. unfold Config.dump. cbn [map List.concat name_of]. generalize (dump_par show_real c). intros D. rewrite <- !app_assoc. rewrite !app_nil_l. reflexivity.
  Qed.
  Definition no_nl (t : text) : Prop := ~ In nl t.
  Lemma plain_no_nl t : plain t -> no_nl t.
  Proof. intros [_ H] Hi. rewrite Forall_forall in H. destruct (H _ Hi) as (_ & _ & G). contradiction. Qed.
  Lemma plain_no_hash t : plain t -> Forall (fun c => mem c ["#"; "["]%char = false) t.
  Proof. intros [_ H]. eapply Forall_impl; [|exact H]. cbn. tauto. Qed.
  Lemma no_nl_app a b : no_nl a -> no_nl b -> no_nl (a ++ b).
  Proof. intros Ha Hb H. apply in_app_or in H as [H|H]; contradiction. Qed.
  Lemma strip_self t r : t <> [] -> Forall (fun c => is_space c = false) t -> Forall (fun c => mem c ["#"; "["]%char = false) (t ++ r) -> strip (t ++ r) = t ++ r.
  Proof.
    intros Hn Hs Hh. unfold strip. rewrite <- (app_nil_r (t ++ r)) at 1. rewrite trim_trailing_app by exact Hh. cbn [trim_trailing]. rewrite app_nil_r.
    destruct t as [|c t]; [contradiction|]. cbn [app trim_leading]. inversion Hs as [|? ? Hc _]; subst. destruct (mem c [" "; "009"]%char) eqn:E; [|reflexivity].
    apply mem_blank in E as [->| ->]; discriminate.
  Qed.
  Lemma heads_line w rest : word w -> word_end rest -> Forall (fun c => mem c ["#"; "["]%char = false) (w ++ rest) -> heads (w ++ rest) = (w, rest).
  Proof. intros [Hn Hw] He Hh. unfold heads. rewrite strip_self by assumption. rewrite skip_ws_word by (split; assumption). apply take_word_app; assumption. Qed.
  Lemma heads_comment t : heads ("#"%char :: t) = ([], []).
  Proof. reflexivity. Qed.
  Lemma name_clean p : Forall (fun c => mem c ["#"; "["]%char = false) (txt (name_of p)) /\ no_nl (txt (name_of p)).
  Proof. destruct p; (split; [repeat constructor|intros H; cbn in H; repeat (destruct H as [H|H]; [discriminate|]); contradiction]). Qed.
  (** Values that a line can hold: those above, and an empty string where that is the default. *)
  Definition shown (c : config) (p : param) : Prop := showable (kind_of p) (c_val c p) \/ (c_val c p = VStr [] /\ default_val p = VStr []).
  Lemma shown_clean c p : shown c p -> Forall (fun x => mem x ["#"; "["]%char = false) (show_value show_real (kind_of p) (c_val c p)) /\ no_nl (show_value show_real (kind_of p) (c_val c p)).
  Proof.
    intros [H|[-> _]]; [split; [apply plain_no_hash|apply plain_no_nl]; apply show_plain; exact H|]. split; [constructor|intros []].
  Qed.
  Lemma shown_extract c p blanks : shown c p -> spaces blanks -> assigned read_real hbt_min hbt_max (default_val p) p (blanks ++ show_value show_real (kind_of p) (c_val c p)) = reread (c_val c p).
  Proof.
    intros [H|[E1 E2]] Hb; unfold assigned; [rewrite extract_show by assumption; reflexivity|]. rewrite E1, E2. cbn [show_value]. rewrite app_nil_r, extract_blank by exact Hb. reflexivity.
  Qed.
  Lemma mask_shown c : shown c GroupParticleIdMask -> showable KHex (c_val c GroupParticleIdMask).
  Proof. intros [H|[_ H]]; [exact H|discriminate]. Qed.
  Lemma heads_par c p : shown c p -> heads (par_line c p) = (txt (name_of p), [" "; " "]%char ++ show_value show_real (kind_of p) (c_val c p)).
  Proof.
    intros H. unfold par_line. destruct (shown_clean c p H) as [HP _]. apply heads_line; [apply name_word|right; exists " "%char; eexists; split; reflexivity|].
    apply Forall_app. split; [apply name_clean|]. repeat constructor. exact HP.
  Qed.
  Lemma par_no_nl c p : shown c p -> no_nl (par_line c p).
  Proof.
    intros H. unfold par_line. apply no_nl_app; [apply name_clean|]. apply no_nl_app; [intros G; cbn in G; repeat (destruct G as [G|G]; [discriminate|]); contradiction|]. apply shown_clean. exact H.
  Qed.
  Lemma ids_clean ids : Forall (fun c => mem c ["#"; "["]%char = false) (ids_text ids) /\ no_nl (ids_text ids).
  Proof.
    unfold ids_text. induction ids as [|i ids [IH1 IH2]]; cbn [map List.concat]; [split; [constructor|intros []]|].
    pose proof (numeral_plain 10 i _ ltac:(lia) (show_numeral 10 i ltac:(lia))) as HP. split.
    - apply Forall_app. split; [constructor; [reflexivity|apply plain_no_hash; exact HP]|exact IH1].
    - apply no_nl_app; [|exact IH2]. intros [G|G]; [discriminate|]. exact (plain_no_nl _ HP G).
  Qed.
  Lemma heads_ids ids : heads (list_name ++ ids_text ids) = (list_name, ids_text ids).
  Proof.
    apply heads_line; [split; [discriminate|repeat constructor]|destruct ids; [left; reflexivity|right; exists " "%char; eexists; split; reflexivity]|].
    apply Forall_app. split; [repeat constructor|apply ids_clean].
  Qed.

  Definition representable (c : config) : Prop :=
    (forall p, shown c p) /\ Forall (fun z => int_min <= z <= int_max) (c_ids c) /\
    (c_ids c = [] \/ c_val c MaxSnapshotIndex = VInt (Z.of_nat (List.length (c_ids c)) - 1)) /\
    (c_val c ParticleIdRankStyle = VBool true -> c_val c ParticleIdNeedHash = VBool false).
  Lemma read_list_shown ids : Forall (fun z => int_min <= z <= int_max) ids -> read_list (S (List.length (ids_text ids))) (ids_text ids) = ids.
  Proof.
    intros H. unfold ids_text. replace (map (fun i => " "%char :: show_int 10 i) ids) with (map (fun t => " "%char :: t) (map (show_int 10) ids)) by apply map_map.
    apply read_list_ids; [|lia]. induction H as [|z zs Hz Hr IH]; [constructor|]. cbn [map]. constructor; [|exact IH]. split; [apply show_numeral; lia|exact Hz].
  Qed.
  Definition head_par (c : config) (p : param) : text * text := (txt (name_of p), [" "; " "]%char ++ show_value show_real (kind_of p) (c_val c p)).
  Definition dump_heads (c : config) (names : text) : list (text * text) :=
    ([], []) :: map (head_par c) [SnapshotPath; HaloPath; SubhaloPath; SnapshotFileBase; MaxSnapshotIndex; BoxSize; SofteningHalo; SnapshotFormat; GroupFileFormat; MaxConcurrentIO; MinSnapshotIndex; MinNumPartOfSub] ++
    (if value_eqZ (c_val c GroupParticleIdMask) 0 then [] else [(txt "GroupParticleIdMask", " "%char :: show_value show_real KHex (c_val c GroupParticleIdMask))]) ++
    map (head_par c) [MassInMsunh; LengthInMpch; VelInKmS; PeriodicBoundaryOn; SnapshotHasIdBlock; ParticleIdRankStyle; ParticleIdNeedHash; SnapshotIdUnsigned; SaveSubParticleProperties; MergeTrappedSubhalos] ++
    (match c_ids c with [] => [] | ids => [(list_name, ids_text ids)] end) ++ (match names with [] => [] | _ => [([], [])] end) ++
    map (head_par c) [MajorProgenitorMassRatio; BoundMassPrecision; SourceSubRelaxFactor; SubCoreSizeFactor; SubCoreSizeMin; TreeAllocFactor; TreeNodeOpenAngle; TreeMinNumOfCells; MaxSampleSizeOfPotentialEstimate; RefineMostboundParticle] ++
    [([], [])].
  Lemma dump_heads_eq c version names loaded : representable c -> map heads (dump_lines c version names loaded) = dump_heads c names.
  Proof.
    intros (HS & _). assert (HP : forall l, map heads (map (par_line c) l) = map (head_par c) l) by (intros l; rewrite map_map; apply map_ext; intros p; apply heads_par, HS).
    unfold dump_lines, dump_heads, mask_lines, ids_lines, names_lines. rewrite map_cons, !map_app, !HP. f_equal. apply f_equal. apply f_equal2; [|apply f_equal; apply f_equal2; [|apply f_equal2; [|reflexivity]]].
    - destruct (value_eqZ _ 0); [reflexivity|]. cbn [map]. f_equal. pose proof (show_plain KHex _ (mask_shown c (HS GroupParticleIdMask))) as HQ.
      change (txt "GroupParticleIdMask " ++ ?x) with (txt "GroupParticleIdMask" ++ " "%char :: x). apply heads_line; [apply (name_word GroupParticleIdMask)|right; exists " "%char; eexists; split; reflexivity|].
      apply Forall_app. split; [apply (name_clean GroupParticleIdMask)|]. constructor; [reflexivity|]. apply plain_no_hash. exact HQ.
    - destruct (c_ids c); [reflexivity|]. cbn [map]. f_equal. apply heads_ids.
    - destruct names; reflexivity.
  Qed.
  Lemma rests_heads p ls : rests p ls = flat_map (fun h => if text_eqb (fst h) (txt (name_of p)) then [snd h] else []) (map heads ls).
  Proof. unfold rests. induction ls as [|l ls IH]; [reflexivity|]. cbn. rewrite IH. reflexivity. Qed.
  Lemma id_rests_heads ls : id_rests ls = flat_map (fun h => if text_eqb (fst h) list_name then [snd h] else []) (map heads ls).
  Proof. unfold id_rests. induction ls as [|l ls IH]; [reflexivity|]. cbn [map flat_map]. rewrite IH. reflexivity. Qed.
  Lemma dump_rests c version names loaded p : representable c ->
    rests p (dump_lines c version names loaded) = [[" "; " "]%char ++ show_value show_real (kind_of p) (c_val c p)] \/
    p = GroupParticleIdMask /\ (rests p (dump_lines c version names loaded) = [[" "]%char ++ show_value show_real (kind_of p) (c_val c p)] \/
                                c_val c p = VInt 0 /\ rests p (dump_lines c version names loaded) = []).
  Proof.
    intros HR. rewrite rests_heads, dump_heads_eq by exact HR. unfold dump_heads.
    assert (HM : value_eqZ (c_val c GroupParticleIdMask) 0 = true -> c_val c GroupParticleIdMask = VInt 0).
    { destruct HR as (HS & _). specialize (mask_shown c (HS GroupParticleIdMask)). clear HS. intros HS. destruct (c_val c GroupParticleIdMask); cbn in HS |- *; try contradiction. intros E. apply Z.eqb_eq in E. congruence. }
    destruct (value_eqZ _ 0) eqn:EM; destruct (c_ids c); destruct names; destruct p; try (left; reflexivity); right; (split; [reflexivity|]); try (left; reflexivity); right; (split; [apply HM; reflexivity|reflexivity]).
  Qed.
  Lemma dump_id_rests c version names loaded : representable c -> id_rests (dump_lines c version names loaded) = match c_ids c with [] => [] | ids => [ids_text ids] end.
  Proof.
    intros HR. rewrite id_rests_heads, dump_heads_eq by exact HR. unfold dump_heads. destruct (value_eqZ _ 0); destruct (c_ids c); destruct names; reflexivity.
  Qed.
  Lemma dump_no_nl c version names loaded : representable c -> no_nl version -> no_nl names -> no_nl loaded -> Forall no_nl (dump_lines c version names loaded).
  Proof.
    intros (HS & _) Hv Hn Hl. assert (HP : forall l, Forall no_nl (map (par_line c) l)) by (intros l; apply Forall_forall; intros x Hx; apply in_map_iff in Hx as (p & <- & _); apply par_no_nl, HS).
    assert (HC : forall a b, existsb (Ascii.eqb nl) a = false -> no_nl b -> no_nl (a ++ b)).
    { intros a b Ha Hb. apply no_nl_app; [|exact Hb]. intros Hi. assert (existsb (Ascii.eqb nl) a = true) by (apply existsb_exists; exists nl; split; [exact Hi|apply Ascii.eqb_refl]). congruence. }
    unfold dump_lines, mask_lines, ids_lines, names_lines. constructor; [apply HC; [reflexivity|exact Hv]|]. repeat (apply Forall_app; split); try apply HP.
    - destruct (value_eqZ _ 0); constructor; [|constructor]. apply HC; [reflexivity|]. apply plain_no_nl, (show_plain KHex _ (mask_shown c (HS GroupParticleIdMask))).
    - destruct (c_ids c) as [|i ids]; constructor; [|constructor]. apply HC; [reflexivity|]. apply ids_clean.
    - destruct names; constructor; [|constructor]. apply HC; [reflexivity|exact Hn].
    - constructor; [|constructor]. apply HC; [reflexivity|exact Hl].
  Qed.
  Lemma recognised_heads l : (heads l = ([], []) /\ strip l = []) \/ fst (heads l) = list_name \/ (exists p, fst (heads l) = txt (name_of p)) -> recognised l.
  Proof. intros [[_ H]|[H|H]]; [left; exact H|right; left; exact H|right; right; exact H]. Qed.
  Lemma dump_recognised c version names loaded : representable c -> Forall recognised (dump_lines c version names loaded).
  Proof.
    intros (HS & HI & _). assert (HP : forall l, Forall recognised (map (par_line c) l)).
    { intros l. apply Forall_forall. intros x Hx. apply in_map_iff in Hx as (p & <- & _). right. right. exists p. rewrite heads_par by apply HS. reflexivity. }
    unfold dump_lines, mask_lines, ids_lines, names_lines. constructor; [left; reflexivity|]. repeat (apply Forall_app; split); try apply HP.
    - destruct (value_eqZ _ 0) eqn:E; constructor; [|constructor]. right. right. exists GroupParticleIdMask.
      change (txt "GroupParticleIdMask " ++ ?x) with (txt "GroupParticleIdMask" ++ " "%char :: x). rewrite heads_line; [reflexivity|apply (name_word GroupParticleIdMask)|right; exists " "%char; eexists; split; reflexivity|].
      apply Forall_app. split; [apply (name_clean GroupParticleIdMask)|]. constructor; [reflexivity|]. apply plain_no_hash, (show_plain KHex _ (mask_shown c (HS GroupParticleIdMask))).
    - destruct (c_ids c) as [|i ids]; constructor; [|constructor]. right. left. rewrite heads_ids. reflexivity.
    - destruct names; constructor; [|constructor]. left. reflexivity.
    - constructor; [|constructor]. left. reflexivity.
  Qed.
  Lemma dump_final c version names loaded : representable c -> no_nl version -> no_nl names -> no_nl loaded ->
    getlines (dump c version names loaded) = dump_lines c version names loaded /\
    (forall p, final read_real hbt_min hbt_max p (dump c version names loaded) = reread (c_val c p)) /\ final_ids (dump c version names loaded) = c_ids c.
  Proof.
    intros HR Hv Hn Hl. assert (EL : getlines (dump c version names loaded) = dump_lines c version names loaded).
    { rewrite dump_unlines. rewrite <- (app_nil_r (unlines _)). rewrite getlines_unlines by (apply dump_no_nl; assumption). apply app_nil_r. }
    split; [exact EL|]. pose proof HR as (HS & HI & _). split.
    - intros p. unfold final. rewrite EL. destruct (dump_rests c version names loaded p HR) as [->|[-> [->|[E0 ->]]]]; cbn [fold_left].
      + apply shown_extract; [apply HS|repeat constructor].
      + apply shown_extract; [apply HS|repeat constructor].
      + rewrite E0. reflexivity.
    - unfold final_ids. rewrite EL, dump_id_rests by exact HR. destruct (c_ids c) as [|i ids] eqn:Ei; [reflexivity|]. cbn [flat_map]. rewrite app_nil_r. apply read_list_shown. exact HI.
  Qed.
  Lemma dump_parses c version names loaded : representable c -> no_nl version -> no_nl names -> no_nl loaded ->
    exists c', parse_config (dump c version names loaded) = Accepted c' /\ (forall p, c_val c' p = reread (c_val c p)) /\ c_ids c' = c_ids c.
  Proof.
    intros HR Hv Hn Hl. destruct (dump_final c version names loaded HR Hv Hn Hl) as (EL & HF & HI). pose proof HR as (HS & _ & HC & HH).
    destruct (parse_config_ok read_real hbt_min hbt_max (dump c version names loaded)) as (c' & E).
    - rewrite EL. apply dump_recognised. exact HR.
    - intros p Hp. rewrite EL. destruct (dump_rests c version names loaded p HR) as [->|[-> _]]; [discriminate|]. cbn in Hp. repeat (destruct Hp as [Hp|Hp]; [discriminate|]). contradiction.
    - rewrite HI, HF. destruct HC as [HC|HC]; [left; exact HC|right; rewrite HC; reflexivity].
    - exists c'. split; [exact E|]. destruct (parse_config_accepted _ _ _ _ _ E) as (_ & _ & H3 & H4 & H5 & _). split; [|rewrite H5; exact HI].
      intros p. destruct (param_beq p ParticleIdNeedHash) eqn:Ep; [apply beq_spec in Ep; subst p|].
      + rewrite H4, !HF. destruct (c_val c ParticleIdRankStyle) as [| | | |[]]; try reflexivity. cbn [reread]. rewrite HH by reflexivity. reflexivity.
      + rewrite H3; [apply HF|]. intros ->. rewrite beq_refl in Ep. discriminate.
  Qed.

  (** ** What parsing produces can be printed *)
  Definition clean (t : text) : Prop := Forall (fun c => mem c ["#"; "["]%char = false /\ c <> nl) t.
  Lemma clean_app a b : clean (a ++ b) <-> clean a /\ clean b.
  Proof. apply Forall_app. Qed.
  Lemma getlines_no_nl s : Forall no_nl (getlines s).
  Proof.
    induction s as [|c s IH]; [constructor|]. cbn [getlines]. destruct (Ascii.eqb_spec c nl) as [->|N]; [constructor; [intros []|exact IH]|].
    destruct (getlines s) as [|l ls]; constructor; [intros [H|[]]; congruence|constructor| |inversion IH; assumption]. inversion IH as [|? ? H _]; subst. intros [G|G]; [congruence|contradiction].
  Qed.
  Lemma clean_rest p file rest : In rest (rests p (getlines file)) -> clean rest.
  Proof.
    unfold rests. intros H. apply in_flat_map in H as (l & Hl & Hr). destruct (text_eqb _ _); [|contradiction]. destruct Hr as [<-|[]].
    pose proof (proj1 (Forall_forall _ _) (getlines_no_nl file) l Hl) as Hnl. destruct (strip_uncommented l) as (b & cm & E & _ & Hc & _ & _).
    assert (HC : clean (strip l)).
    { apply Forall_forall. intros c Hin. rewrite Forall_forall in Hc. split; [apply mem_hash, Hc; exact Hin|]. intros ->. apply Hnl. rewrite E. apply in_or_app. right. apply in_or_app. left. exact Hin. }
    unfold heads. destruct (take_word (skip_ws (strip l))) as [w r] eqn:Et. cbn [snd]. destruct (take_word_inv _ _ _ Et) as (E1 & _ & _). destruct (skip_ws_inv (strip l)) as (pre & _ & E2).
    rewrite E1 in E2. rewrite E2 in HC. apply clean_app in HC as [_ HC]. apply clean_app in HC as [_ HC]. exact HC.
  Qed.
  Lemma read_int_range base lo hi s : lo <= 0 <= hi -> lo <= fst (fst (read_int base lo hi s)) <= hi.
  Proof.
    intros H. unfold read_int. destruct (match s with [] => _ | _ => _ end) as [neg s1]. destruct (take_digits base 0 false (skip_0x base s1)) as [[v f] r]. destruct f; [|cbn; lia].
    destruct (Z.ltb_spec (if neg then - v else v) lo); [cbn; lia|]. destruct (Z.ltb_spec hi (if neg then - v else v)); cbn; lia.
  Qed.
  Lemma read_list_range fuel : forall s, Forall (fun z => int_min <= z <= int_max) (read_list fuel s).
  Proof.
    induction fuel as [|f IH]; intros s; [constructor|]. cbn [read_list]. destruct (skip_ws s) as [|a r]; [constructor|]. pose proof (read_int_range 10 int_min int_max (a :: r) ltac:(unfold int_min, int_max; lia)) as HR.
    destruct (read_int 10 int_min int_max (a :: r)) as [[v ok] rest]. cbn [fst] in HR. destruct ok; constructor; [exact HR|apply IH].
  Qed.
  Definition in_range (k : kind) (v : value) : Prop := match k, v with KHex, VInt z => long_min <= z <= long_max | _, _ => showable k v end.
  Lemma extract_shape p rest v : hbt_min <= 0 <= hbt_max -> clean rest -> extract (kind_of p) rest = Some v ->
    match v with VReal q => kind_of p = KReal | _ => in_range (kind_of p) v end.
  Proof.
    intros HB HC. unfold Config.extract. destruct (skip_ws rest) as [|a r] eqn:E; [discriminate|]. intros H. injection H as <-. destruct (kind_of p) eqn:EK.
    - change (plain (fst (take_word (a :: r)))). destruct (take_word (a :: r)) as [w t] eqn:Et. cbn [fst]. destruct (take_word_inv _ _ _ Et) as (E1 & Hw & _).
      destruct (skip_ws_inv rest) as (pre & Hp & E2). rewrite E, E1 in E2. rewrite E2 in HC. apply clean_app in HC as [_ HC]. apply clean_app in HC as [HC _]. split.
      + assert (Ha : is_space a = false) by (clear - E; induction rest as [|x rest IH]; [discriminate|]; cbn in E; destruct (is_space x) eqn:Ex; [exact (IH E)|congruence]).
        cbn [take_word] in Et. rewrite Ha in Et. destruct (take_word r) as [w0 t0]. intros Hw0. subst w. discriminate Et.
      + unfold clean in HC. rewrite Forall_forall in *. intros c Hc. split; [exact (Hw c Hc)|exact (HC c Hc)].
    - cbn [in_range showable]. apply read_int_range. unfold int_min, int_max. lia.
    - cbn [in_range showable]. apply read_int_range. exact HB.
    - cbn [in_range showable]. apply read_int_range. unfold long_min, long_max. lia.
    - reflexivity.
    - exact I.
  Qed.
  Lemma final_shape p file : hbt_min <= 0 <= hbt_max -> 1000 <= hbt_max ->
    let v := final read_real hbt_min hbt_max p file in
    v = VNone \/ (exists q, v = VReal q /\ kind_of p = KReal) \/ in_range (kind_of p) v \/ (v = VStr [] /\ default_val p = VStr []).
  Proof.
    intros HB H1000. cbv zeta. unfold final.
    assert (HD : let v := default_val p in v = VNone \/ (exists q, v = VReal q /\ kind_of p = KReal) \/ in_range (kind_of p) v \/ (v = VStr [] /\ default_val p = VStr [])).
    { destruct p; cbv zeta; cbn [default_val kind_of]; try (left; reflexivity); right; try (left; eexists; split; reflexivity); right; try (right; split; reflexivity); left; cbn [in_range showable];
      try exact I; try (unfold int_min, int_max, long_min, long_max; lia); try lia; (split; [discriminate|]); repeat (constructor; [split; [reflexivity|split; [reflexivity|discriminate]]|]); constructor. }
    cbv zeta in HD. set (d := default_val p) in *.
    assert (G : forall rs, (forall r, In r rs -> clean r) -> forall v0, (v0 = VNone \/ (exists q, v0 = VReal q /\ kind_of p = KReal) \/ in_range (kind_of p) v0 \/ (v0 = VStr [] /\ d = VStr [])) ->
      let v := fold_left (fun v rest => assigned read_real hbt_min hbt_max v p rest) rs v0 in v = VNone \/ (exists q, v = VReal q /\ kind_of p = KReal) \/ in_range (kind_of p) v \/ (v = VStr [] /\ d = VStr [])).
    { induction rs as [|r rs IH]; intros Hr v0 H0; [exact H0|]. cbn [fold_left]. apply IH; [intros x Hx; apply Hr; right; exact Hx|]. unfold assigned. destruct (extract (kind_of p) r) as [w|] eqn:Ew; [|exact H0].
      pose proof (extract_shape p r w HB (Hr r (or_introl eq_refl)) Ew) as HW. destruct w; try (right; right; left; exact HW). right. left. eauto. }
    apply G; [intros r Hr; exact (clean_rest p file r Hr)|exact HD].
  Qed.
  Lemma parsed_representable file c : hbt_min <= 0 <= hbt_max -> 1000 <= hbt_max -> parse_config file = Accepted c ->
    (forall p, c_val c p <> VNone) -> (forall z, c_val c GroupParticleIdMask = VInt z -> 0 <= z) -> (forall p q, c_val c p = VReal q -> plain (show_real q)) -> representable c.
  Proof.
    intros HB H1000 E HN HM HQ. destruct (parse_config_accepted _ _ _ _ _ E) as (_ & _ & H3 & H4 & H5 & H6). split; [|split; [|split; [exact H6|]]].
    - intros p. destruct (param_beq p ParticleIdNeedHash) eqn:Ep; [apply beq_spec in Ep; subst p|].
      + left. rewrite H4. cbn [kind_of]. destruct (final_shape ParticleIdNeedHash file HB H1000) as [G|[(q & G & G2)|[G|[G G2]]]]; try discriminate.
        * exfalso. pose proof (HN ParticleIdNeedHash) as N. rewrite H4 in N. rewrite G in N. destruct (final _ _ _ ParticleIdRankStyle file) as [| | | |[]]; try contradiction. revert G. clear. 
          unfold final. intros G. assert (K : forall rs v, v <> VNone -> fold_left (fun v rest => assigned read_real hbt_min hbt_max v ParticleIdNeedHash rest) rs v <> VNone).
          { induction rs as [|r rs IH]; intros v Hv; [exact Hv|]. cbn [fold_left]. apply IH. unfold assigned, Config.extract. destruct (skip_ws r); [exact Hv|]. discriminate. }
          refine (K _ (default_val ParticleIdNeedHash) _ G). discriminate.
        * destruct (final _ _ _ ParticleIdRankStyle file) as [| | | |[]]; exact G || exact I.
      + assert (Hne : p <> ParticleIdNeedHash) by (intros ->; rewrite beq_refl in Ep; discriminate). specialize (HN p). specialize (HQ p). unfold shown. rewrite H3 in * by exact Hne.
        destruct (final_shape p file HB H1000) as [G|[(q & G & G2)|[G|G]]]; [contradiction| | |].
        * left. rewrite G, G2. cbn. apply HQ. exact G.
        * left. destruct (kind_of p) eqn:EK; try exact G. assert (p = GroupParticleIdMask) as -> by (clear - EK; destruct p; try discriminate; reflexivity). rewrite H3 in HM by discriminate.
          destruct (final _ _ _ GroupParticleIdMask file); try exact G. cbn in *. specialize (HM z eq_refl). lia.
        * right. exact G.
    - rewrite H5. unfold final_ids. apply Forall_forall. intros z Hz. apply in_flat_map in Hz as (r & _ & Hz). exact (proj1 (Forall_forall _ _) (read_list_range _ _) z Hz).
    - intros Hr. rewrite H4. rewrite H3 in Hr by discriminate. rewrite Hr. reflexivity.
  Qed.
End V.
