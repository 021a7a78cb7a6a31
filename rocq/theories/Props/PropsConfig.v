(** C42, C57, C58: configuration files, program start, the file of used parameters. *)
From Coq Require Import List ZArith QArith Bool Ascii String Lia.
From Verif.Spec Require Import Config Startup.
From Verif.Model Require Import ListMem Config Startup.
From Verif.Proofs Require Import ConfigProofs ConfigValueProofs StartupProofs.
Import ListNotations.
Local Open Scope Z_scope.
Local Arguments is_space : simpl never.
Local Arguments mem : simpl never.

Section C.
  Variable read_real : text -> Q.
  Variable hbt_min hbt_max : Z.
  Local Notation extract := (extract read_real hbt_min hbt_max).
  Local Notation parse_lines := (parse_lines read_real hbt_min hbt_max).
  Local Notation parse_config := (parse_config read_real hbt_min hbt_max).

  Lemma line_of_heads p l rest : line_of p l rest <-> heads l = (txt (name_of p), rest).
  Proof.
    split.
    - intros (code & Hu & Hs). unfold heads. rewrite (strip_eq _ _ Hu). apply starts_eq. exact Hs.
    - intros H. exists (strip l). split; [apply strip_uncommented|]. apply starts_of; [exact H|apply name_nonempty].
  Qed.
  (** A line naming [p] gives [p] the value written after the name (nothing if there is none), marks [p] and nothing else as set,
      and leaves every other parameter and the list of snapshots as they are. *)
  Theorem C42_line c p line rest more : List.length (c_set c) = 7%nat -> line_of p line rest ->
    exists c', parse_lines c (line :: more) = parse_lines c' more /\
      c_val c' p = match extract (kind_of p) rest with Some v => v | None => c_val c p end /\
      (forall q, q <> p -> c_val c' q = c_val c q) /\ c_ids c' = c_ids c /\ List.length (c_set c') = 7%nat /\
      (forall i q, nth_error compulsory i = Some q -> nth_error (c_set c') i = if param_beq q p then Some true else nth_error (c_set c) i).
  Proof.
    intros HL (code & Hu & Hs). pose proof (starts_eq _ _ _ Hs) as Eh. destruct (set_param_named read_real hbt_min hbt_max c p code rest Eh HL) as (c' & E & V1 & V2 & V3 & V4 & V5).
    exists c'. cbn [Config.parse_lines]. rewrite (strip_eq _ _ Hu). split.
    - destruct code as [|x t]; [|rewrite E; reflexivity]. exfalso. cbn in Eh. injection Eh as Ex _. exact (name_nonempty p (eq_sym Ex)).
    - split; [exact V1|]. split; [exact V2|]. split; [exact V3|]. split; [exact V4|]. intros i q Hq. rewrite V5, Hq. reflexivity.
  Qed.
  (** The value after the name is read as documented: strings to the next white space, integers (decimal, or hexadecimal for the mask)
      with their sign, truth values as 0 and 1.  Whatever follows the value after white space is ignored; a line with nothing after
      the name stores nothing. *)
  Theorem C42_value k v blanks t rest : written k hbt_min hbt_max v t -> spaces blanks -> word_end rest -> extract k (blanks ++ t ++ rest) = Some v.
  Proof.
    intros H Hb He. destruct k, v; cbn in H; try contradiction.
    - destruct H as [<- Hw]. apply extract_str; assumption.
    - destruct H. apply extract_int; assumption.
    - destruct H. apply extract_hbt; assumption.
    - destruct H. apply extract_hex; assumption.
    - subst t. destruct b.
      + rewrite (extract_bool _ _ _ blanks ["1"%char] rest 1); [reflexivity|exact Hb|exists [1]; split; [discriminate|split; [repeat constructor; lia|left; split; reflexivity]]|unfold long_min, long_max; lia|exact He].
      + rewrite (extract_bool _ _ _ blanks ["0"%char] rest 0); [reflexivity|exact Hb|exists [0]; split; [discriminate|split; [repeat constructor; lia|left; split; reflexivity]]|unfold long_min, long_max; lia|exact He].
  Qed.
  Theorem C42_no_value k s : spaces s <-> extract k s = None.
  Proof.
    split; [apply extract_blank|]. intros H. destruct (skip_ws_inv s) as (pre & Hp & Es). unfold Config.extract in H. destruct (skip_ws s); [|discriminate]. rewrite app_nil_r in Es. subst s. exact Hp.
  Qed.
  (** The list of snapshots: the numbers after its name are appended, nothing else changes. *)
  Theorem C42_id_line c line code zs ts more : uncommented line code -> starts code list_name (List.concat (map (fun t => " "%char :: t) ts)) ->
    Forall2 (fun z t => numeral 10 z t /\ int_min <= z <= int_max) zs ts ->
    parse_lines c (line :: more) = parse_lines (mkconfig (c_val c) (c_set c) (c_ids c ++ zs)) more.
  Proof.
    intros Hu Hs HF. cbn [Config.parse_lines]. rewrite (strip_eq _ _ Hu). pose proof (starts_eq _ _ _ Hs) as Eh.
    destruct code as [|x t]; [exfalso; cbn in Eh; injection Eh as Ex _; discriminate|]. rewrite (set_param_list _ _ _ c _ _ Eh), (read_list_ids zs ts HF) by lia. reflexivity.
  Qed.
  (** A line whose first word is neither a parameter name nor SnapshotIdList: the file is rejected, and the first such line is named. *)
  Theorem C42_unknown file before line after code name rest : getlines file = before ++ line :: after ->
    uncommented line code -> starts code name rest -> (forall p, name <> txt (name_of p)) -> name <> list_name ->
    exists culprit, parse_config file = Unrecognised culprit /\ (forall p, culprit <> txt (name_of p)) /\ culprit <> list_name /\
      (exists l c, In l (before ++ [line]) /\ uncommented l c /\ fst (take_word (skip_ws c)) = culprit).
  Proof.
    intros EL Hu Hs Hp Hn. unfold Config.parse_config. rewrite EL. clear EL file.
    assert (G : forall before c, List.length (c_set c) = 7%nat -> exists culprit, parse_lines c (before ++ line :: after) = Unrecognised culprit /\ (forall p, culprit <> txt (name_of p)) /\ culprit <> list_name /\
      (exists l c, In l (before ++ [line]) /\ uncommented l c /\ fst (take_word (skip_ws c)) = culprit)).
    { clear before. induction before as [|l ls IH]; intros c HL; cbn [app Config.parse_lines].
      - pose proof (starts_eq _ _ _ Hs) as Eh. rewrite (strip_eq _ _ Hu). destruct code as [|x t].
        + exfalso. cbn in Eh. injection Eh as <- _. destruct Hs as (? & _ & [Hx _] & _). contradiction.
        + rewrite (set_param_unknown _ _ _ c _ _ _ Eh Hp Hn). exists name. split; [reflexivity|]. split; [exact Hp|]. split; [exact Hn|]. exists line, (x :: t). split; [left; reflexivity|]. split; [exact Hu|]. rewrite Eh. reflexivity.
      - assert (Hgo : forall c', List.length (c_set c') = 7%nat -> exists culprit, parse_lines c' (ls ++ line :: after) = Unrecognised culprit /\ (forall p, culprit <> txt (name_of p)) /\ culprit <> list_name /\
          (exists l0 c, In l0 (l :: ls ++ [line]) /\ uncommented l0 c /\ fst (take_word (skip_ws c)) = culprit)).
        { intros c' HL'. destruct (IH c' HL') as (cu & E & H1 & H2 & l0 & c0 & H3 & H4). exists cu. split; [exact E|]. split; [exact H1|]. split; [exact H2|]. exists l0, c0. split; [right; exact H3|exact H4]. }
        destruct (strip l) as [|x t] eqn:Es; [apply Hgo; exact HL|]. rewrite <- Es. destruct (recognised_dec l) as [[Hr|[Hr|[p Hr]]]|Hr]; [congruence| | |].
        + destruct (heads l) as [w r] eqn:Eh. cbn [fst] in Hr. subst w. unfold heads in Eh. rewrite (set_param_list _ _ _ c _ r Eh). apply Hgo. exact HL.
        + destruct (heads l) as [w r] eqn:Eh. cbn [fst] in Hr. subst w. unfold heads in Eh. destruct (set_param_named read_real hbt_min hbt_max c p (strip l) r Eh HL) as (c' & E & _ & _ & _ & HL' & _). rewrite E. apply Hgo. exact HL'.
        + destruct (heads l) as [w r] eqn:Eh. pose proof Eh as Eh'. unfold heads in Eh.
          assert (Q1 : forall p, w <> txt (name_of p)) by (intros p ->; apply Hr; right; right; exists p; rewrite Eh'; reflexivity).
          assert (Q2 : w <> list_name) by (intros ->; apply Hr; right; left; rewrite Eh'; reflexivity).
          rewrite (set_param_unknown _ _ _ c _ w r Eh Q1 Q2). exists w. split; [reflexivity|]. split; [exact Q1|]. split; [exact Q2|]. exists l, (strip l). split; [left; reflexivity|]. split; [apply strip_uncommented|]. rewrite Eh. reflexivity. }
    destruct (G before default_config eq_refl) as (cu & E & H). exists cu. rewrite E. split; [reflexivity|exact H].
  Qed.
  (** Whether a file is accepted: every line is blank, a comment, or starts with a known name; every compulsory parameter is named; and a
      list of snapshots has MaxSnapshotIndex + 1 entries.  In particular no run starts with a compulsory parameter not named. *)
  Theorem C42_accepted file c : parse_config file = Accepted c ->
    (forall line code, In line (getlines file) -> uncommented line code ->
       code = [] \/ (exists rest, starts code list_name rest) \/ exists p rest, starts code (txt (name_of p)) rest) /\
    (forall p, In p compulsory -> exists line rest, In line (getlines file) /\ line_of p line rest) /\
    (c_ids c = [] \/ c_val c MaxSnapshotIndex = VInt (Z.of_nat (List.length (c_ids c)) - 1)).
  Proof.
    intros E. destruct (parse_config_accepted _ _ _ _ _ E) as (HR & HC & _ & _ & _ & HI). split; [|split; [|exact HI]].
    - intros line code Hin Hu. rewrite Forall_forall in HR. pose proof (strip_eq _ _ Hu) as Es. destruct (HR line Hin) as [G|[G|[p G]]].
      + left. congruence.
      + right. left. destruct (heads line) as [w rest] eqn:Eh. unfold heads in Eh. rewrite Es in Eh. cbn in G. subst w. exists rest. apply starts_of; [exact Eh|discriminate].
      + right. right. destruct (heads line) as [w rest] eqn:Eh. unfold heads in Eh. rewrite Es in Eh. cbn in G. subst w. exists p, rest. apply starts_of; [exact Eh|apply name_nonempty].
    - intros p Hp. specialize (HC p Hp). unfold rests in HC. destruct (flat_map _ _) as [|r0 rs] eqn:Ef in HC; [contradiction|].
      assert (Hi : In r0 (r0 :: rs)) by (left; reflexivity). rewrite <- Ef in Hi. apply in_flat_map in Hi as (line & Hl & Hr). destruct (text_eqb _ _) eqn:Et; [|contradiction].
      apply text_eqb_spec in Et. exists line, (snd (heads line)). split; [exact Hl|]. apply line_of_heads. rewrite <- Et. destruct (heads line); reflexivity.
  Qed.
  Theorem C42_compulsory file p : In p compulsory -> (forall line rest, In line (getlines file) -> ~ line_of p line rest) -> forall c, parse_config file <> Accepted c.
  Proof. intros Hp Hn c E. destruct (C42_accepted file c E) as (_ & HC & _). destruct (HC p Hp) as (line & rest & Hi & Hl). exact (Hn line rest Hi Hl). Qed.

  Lemma assigned_last p rs : forall v, (exists r1 r r2 w, rs = r1 ++ r :: r2 /\ extract (kind_of p) r = Some w /\ Forall (fun x => extract (kind_of p) x = None) r2 /\ fold_left (fun v rest => assigned read_real hbt_min hbt_max v p rest) rs v = w) \/
    (Forall (fun x => extract (kind_of p) x = None) rs /\ fold_left (fun v rest => assigned read_real hbt_min hbt_max v p rest) rs v = v).
  Proof.
    induction rs as [|r rs IH]; intros v; [right; split; [constructor|reflexivity]|]. cbn [fold_left].
    destruct (IH (assigned read_real hbt_min hbt_max v p r)) as [(r1 & r0 & r2 & w & -> & H1 & H2 & H3)|[H1 H2]].
    - left. exists (r :: r1), r0, r2, w. split; [reflexivity|]. split; [exact H1|]. split; [exact H2|exact H3].
    - rewrite H2. unfold assigned. destruct (extract (kind_of p) r) as [w|] eqn:Er.
      + left. exists [], r, rs, w. split; [reflexivity|]. split; [exact Er|]. split; [exact H1|reflexivity].
      + right. split; [constructor; assumption|reflexivity].
  Qed.
  Lemma rests_split p ls : forall r1 r r2, rests p ls = r1 ++ r :: r2 -> exists l1 l l2, ls = l1 ++ l :: l2 /\ line_of p l r /\ rests p l2 = r2.
  Proof.
    induction ls as [|l ls IH]; intros r1 r r2 E; [destruct r1; discriminate|]. unfold rests in E. cbn [flat_map] in E. destruct (text_eqb _ _) eqn:Et.
    - destruct r1 as [|x r1]; cbn [app] in E; injection E as E1 E2.
      + exists [], l, ls. split; [reflexivity|]. split; [|exact E2]. apply line_of_heads. apply text_eqb_spec in Et. destruct (heads l); cbn in *; congruence.
      + destruct (IH _ _ _ E2) as (l1 & l0 & l2 & -> & H). exists (l :: l1), l0, l2. split; [reflexivity|exact H].
    - destruct (IH _ _ _ E) as (l1 & l0 & l2 & -> & H). exists (l :: l1), l0, l2. split; [reflexivity|exact H].
  Qed.
  Lemma rests_in p ls l r : In l ls -> line_of p l r -> In r (rests p ls).
  Proof.
    intros Hi Hl. apply line_of_heads in Hl. unfold rests. apply in_flat_map. exists l. split; [exact Hi|]. rewrite Hl. cbn [fst snd]. rewrite text_eqb_refl. left. reflexivity.
  Qed.
  (** The value of a parameter after parsing: from the last line that names it and has a value, else the built-in default;
      ParticleIdNeedHash is switched off by ParticleIdRankStyle. *)
  Definition file_value (file : text) (p : param) (v : value) : Prop :=
    (exists l1 l l2 rest, getlines file = l1 ++ l :: l2 /\ line_of p l rest /\ extract (kind_of p) rest = Some v /\
       (forall l' rest', In l' l2 -> line_of p l' rest' -> spaces rest')) \/
    ((forall l rest, In l (getlines file) -> line_of p l rest -> spaces rest) /\ v = default_val p).
  Lemma final_file_value file p : file_value file p (final read_real hbt_min hbt_max p file).
  Proof.
    unfold final, file_value. destruct (assigned_last p (rests p (getlines file)) (default_val p)) as [(r1 & r & r2 & w & E & H1 & H2 & H3)|[H1 H2]].
    - left. destruct (rests_split _ _ _ _ _ E) as (l1 & l & l2 & EL & Hl & Hr). exists l1, l, l2, r. split; [exact EL|]. split; [exact Hl|]. split; [rewrite H3; exact H1|].
      intros l' r' Hi Hl'. pose proof (rests_in _ _ _ _ Hi Hl') as Hin. rewrite Hr in Hin. rewrite Forall_forall in H2. apply (C42_no_value (kind_of p)). apply H2. exact Hin.
    - right. split; [|exact H2]. intros l r Hi Hl. pose proof (rests_in _ _ _ _ Hi Hl) as Hin. rewrite Forall_forall in H1. apply (C42_no_value (kind_of p)). apply H1. exact Hin.
  Qed.
  Theorem C42_values file c : parse_config file = Accepted c ->
    (forall p, p <> ParticleIdNeedHash -> file_value file p (c_val c p)) /\
    (exists rank need, file_value file ParticleIdRankStyle rank /\ file_value file ParticleIdNeedHash need /\
       c_val c ParticleIdNeedHash = (if match rank with VBool b => b | _ => false end then VBool false else need)).
  Proof.
    intros E. destruct (parse_config_accepted _ _ _ _ _ E) as (_ & _ & H3 & H4 & _). split.
    - intros p Hp. rewrite H3 by exact Hp. apply final_file_value.
    - exists (final read_real hbt_min hbt_max ParticleIdRankStyle file), (final read_real hbt_min hbt_max ParticleIdNeedHash file).
      split; [apply final_file_value|]. split; [apply final_file_value|]. rewrite H4. destruct (final _ _ _ ParticleIdRankStyle file) as [| | | |[]]; reflexivity.
  Qed.
  (** If every line naming a compulsory parameter has a value, an accepted file leaves none of them uninitialised. *)
  Theorem C42_initialised file c p : parse_config file = Accepted c -> In p compulsory ->
    (forall line rest, In line (getlines file) -> line_of p line rest -> ~ spaces rest) -> exists line rest, In line (getlines file) /\ line_of p line rest /\ extract (kind_of p) rest = Some (c_val c p).
  Proof.
    intros E Hp Hv. destruct (C42_accepted file c E) as (_ & HC & _). destruct (HC p Hp) as (line & rest & Hi & Hl).
    assert (Hne : p <> ParticleIdNeedHash) by (intros ->; cbn in Hp; repeat (destruct Hp as [Hp|Hp]; [discriminate|]); contradiction).
    destruct (proj1 (C42_values file c E) p Hne) as [(l1 & l & l2 & r & EL & Hl' & He & _)|[Hn _]].
    - exists l, r. split; [rewrite EL; apply in_or_app; right; left; reflexivity|]. split; assumption.
    - exfalso. exact (Hv line rest Hi Hl (Hn line rest Hi Hl)).
  Qed.
  (** Comments do not matter: a comment sign and everything to the end of the line can be removed. *)
  Theorem C42_comments pre sign comment post : sign = "#"%char \/ sign = "["%char -> ~ In nl comment -> (post = [] \/ exists r, post = nl :: r) ->
    parse_config (pre ++ sign :: comment ++ post) = parse_config (pre ++ post).
  Proof. intros Hs. apply comment_ignored. destruct Hs as [->| ->]; reflexivity. Qed.
  (** Nor do lines without code. *)
  Theorem C42_blank_lines c line more : uncommented line [] -> parse_lines c (line :: more) = parse_lines c more.
  Proof. intros H. cbn [Config.parse_lines]. rewrite (strip_eq _ _ H). reflexivity. Qed.
  (** Files that meet the conditions are accepted. *)
  Theorem C42_complete file :
    (forall line code, In line (getlines file) -> uncommented line code -> code = [] \/ exists p rest, starts code (txt (name_of p)) rest) ->
    (forall p, In p compulsory -> exists line rest, In line (getlines file) /\ line_of p line rest) -> exists c, parse_config file = Accepted c.
  Proof.
    intros H1 H2. assert (HR : Forall recognised (getlines file)).
    { apply Forall_forall. intros l Hl. destruct (H1 l (strip l) Hl (strip_uncommented l)) as [G|(p & rest & G)]; [left; exact G|]. right. right. exists p. unfold heads. rewrite (starts_eq _ _ _ G). reflexivity. }
    apply parse_config_ok; [exact HR| |].
    - intros p Hp E. destruct (H2 p Hp) as (l & r & Hi & Hl). pose proof (rests_in _ _ _ _ Hi Hl) as G. rewrite E in G. contradiction.
    - left. unfold final_ids. assert (E : id_rests (getlines file) = []); [|rewrite E; reflexivity]. unfold id_rests. clear - H1. induction (getlines file) as [|l ls IH]; [reflexivity|]. cbn [flat_map].
      rewrite IH by (intros l0 code Hl0; apply H1; right; exact Hl0). destruct (H1 l (strip l) (or_introl eq_refl) (strip_uncommented l)) as [G|(p & rest & G)].
      + rewrite (blank_heads l G). reflexivity.
      + unfold heads. rewrite (starts_eq _ _ _ G). cbn [fst]. rewrite text_neqb; [reflexivity|]. intros E. exact (list_not_name p (eq_sym E)).
  Qed.

  (** ** C57 *)
  (** Whatever the processes held before, after BroadCast each holds the root's configuration in every member. *)
  Theorem C57_broadcast root l r : nth_error l root = Some r -> Forall one_line (s_names r) ->
    exists l', broadcast root l = Some l' /\ List.length l' = List.length l /\ nth_error l' root = Some r /\ Forall (fun s => same_settings s r) l'.
  Proof. apply broadcast_same. Qed.
  (** From the command line to the first snapshot: all processes hold the settings the first one derived from the file, and the same range. *)
  Theorem C57_start args file names s a b others : parse_params read_real hbt_min hbt_max args file names = Started s a b ->
    (exists c, parse_config file = Accepted c /\ s = derive c (read_names names)) /\
    exists l, start_up (Started s a b) others = Some l /\ List.length l = S (List.length others) /\ Forall (fun x => same_settings (fst x) s /\ snd x = (a, b)) l.
  Proof.
    intros H. split.
    - destruct (parse_params_started _ _ _ _ _ _ _ _ _ H) as (c & E & Es & _). eauto.
    - exact (start_up_same _ _ _ _ _ _ _ _ _ others H).
  Qed.

  (** The range of snapshots: what the command line says in decimal, one number for a single snapshot; else that of the file. *)
  Theorem C57_range prog more file names s a b : parse_params read_real hbt_min hbt_max (prog :: more) file names = Started s a b ->
    (more = [] -> forall x y, c_val (s_conf s) MinSnapshotIndex = VInt x -> c_val (s_conf s) MaxSnapshotIndex = VInt y -> a = x /\ b = y) /\
    (forall t x, more = [t] -> numeral 10 x t -> int_min <= x <= int_max -> a = x /\ b = x) /\
    (forall t u x y r, more = t :: u :: r -> numeral 10 x t -> numeral 10 y u -> int_min <= x <= int_max -> int_min <= y <= int_max -> a = x /\ b = y).
  Proof.
    intros H. apply parse_params_range in H.
    assert (HA : forall t x, numeral 10 x t -> int_min <= x <= int_max -> atoi t = x).
    { intros t x Hn Hx. pose proof (extract_int read_real hbt_min hbt_max [] t [] x (Forall_nil _) Hn Hx (or_introl eq_refl)) as E. cbn [app] in E. rewrite app_nil_r in E. unfold Config.extract in E. unfold atoi.
      destruct (skip_ws t) as [|c r]; [discriminate|]. injection E as E. exact E. }
    split; [|split].
    - intros -> x y Ex Ey. rewrite Ex, Ey in H. injection H as -> ->. auto.
    - intros t x -> Hn Hx. rewrite (HA t x Hn Hx) in H. injection H as -> ->. auto.
    - intros t u x y r -> Hn Hm Hx Hy. rewrite (HA t x Hn Hx), (HA u y Hm Hy) in H. injection H as -> ->. auto.
  Qed.

  (** ** C58 *)
  Variable show_real : Q -> text.
  Lemma plain_of_word t : plain_word t -> plain t.
  Proof.
    intros [[Hn Hw] Hh]. split; [exact Hn|]. rewrite Forall_forall in *. intros c Hc. split; [apply Hw; exact Hc|]. split; [apply mem_hash; apply Hh; exact Hc|]. intros ->. specialize (Hw _ Hc). discriminate.
  Qed.
  (** Parsing the dumped text gives back every parameter; reals as printed. *)
  Theorem C58_round_trip c version names loaded :
    (forall p, holdable show_real hbt_min hbt_max p (c_val c p)) -> Forall (fun z => int_min <= z <= int_max) (c_ids c) ->
    (c_ids c = [] \/ c_val c MaxSnapshotIndex = VInt (Z.of_nat (List.length (c_ids c)) - 1)) ->
    (c_val c ParticleIdRankStyle = VBool true -> c_val c ParticleIdNeedHash = VBool false) ->
    one_line version -> one_line names -> one_line loaded ->
    exists c', parse_config (dump show_real c version names loaded) = Accepted c' /\ (forall p, c_val c' p = rounded read_real show_real (c_val c p)) /\ c_ids c' = c_ids c.
  Proof.
    intros HS HI HC HH Hv Hn Hl. apply dump_parses; try assumption. split; [|split; [exact HI|split; [exact HC|exact HH]]].
    intros p. specialize (HS p). unfold holdable in HS. unfold shown. destruct (kind_of p), (c_val c p); try contradiction; try (left; exact HS).
    - destruct t; [right; split; [reflexivity|exact HS]|left; apply plain_of_word; exact HS].
    - left. apply plain_of_word. exact HS.
  Qed.
  (** For the result of parsing any file only the reals matter: a run can be repeated from its own Parameters.log, with the same
      configuration if the reals are printed exactly. *)
  Theorem C58_of_parsed file c version names loaded : hbt_min <= 0 -> 1000 <= hbt_max -> parse_config file = Accepted c ->
    (forall p, c_val c p <> VNone) -> (forall z, c_val c GroupParticleIdMask = VInt z -> 0 <= z) -> (forall p q, c_val c p = VReal q -> plain_word (show_real q)) ->
    one_line version -> one_line names -> one_line loaded ->
    exists c', parse_config (dump show_real c version names loaded) = Accepted c' /\
      (forall p, c_val c' p = rounded read_real show_real (c_val c p)) /\ c_ids c' = c_ids c /\
      ((forall p q, c_val c p = VReal q -> read_real (show_real q) = q) -> forall p, c_val c' p = c_val c p).
  Proof.
    intros H0 H1 E HN HM HQ Hv Hn Hl. destruct (dump_parses read_real hbt_min hbt_max show_real c version names loaded) as (c' & E' & HV & HI); try assumption.
    - apply (parsed_representable read_real hbt_min hbt_max show_real file c); [lia|exact H1|exact E|exact HN|exact HM|]. intros p q Hp. apply plain_of_word. exact (HQ p q Hp).
    - exists c'. split; [exact E'|]. split; [exact HV|]. split; [exact HI|]. intros HX p. rewrite HV. specialize (HX p). destruct (c_val c p) as [| | |q|]; try reflexivity. cbn. rewrite (HX q eq_refl). reflexivity.
  Qed.
End C.
Print Assumptions C42_line. Print Assumptions C42_value. Print Assumptions C42_id_line. Print Assumptions C42_no_value. Print Assumptions C42_unknown. Print Assumptions C42_accepted.
Print Assumptions C42_compulsory. Print Assumptions C42_values. Print Assumptions C42_initialised. Print Assumptions C42_comments. Print Assumptions C42_blank_lines.
Print Assumptions C42_complete. Print Assumptions C57_broadcast. Print Assumptions C57_start. Print Assumptions C57_range. Print Assumptions C58_round_trip. Print Assumptions C58_of_parsed.

(** ** Examples *)
(** Reals written as fractions. *)
Definition toy_real (t : text) : Q :=
  let '(n, _, rest) := read_int 10 long_min long_max t in
  match rest with
  | c :: r => if Ascii.eqb c "/" then n # Z.to_pos (fst (fst (read_int 10 long_min long_max r))) else inject_Z n
  | [] => inject_Z n
  end.
Definition toy_show (q : Q) : text := show_int 10 (Qnum q) ++ "/"%char :: show_int 10 (Zpos (Qden q)).
Definition lines_text (l : list string) : text := List.concat (map (fun s => txt s ++ [nl]) l).
Definition base_file : list string :=
  ["[Compulsory]"; "SnapshotPath /data/run"; "HaloPath /data/fof # groups"; "  SubhaloPath out"; "SnapshotFileBase snap"; "MaxSnapshotIndex 2"; "BoxSize 500"; "SofteningHalo 3"; ""]%string.
Definition sample : text := lines_text (base_file ++ ["SnapshotIdList 3 7 11"; "GroupParticleIdMask 0x3ffff"; "PeriodicBoundaryOn 0"; "BoxSize 250"]%string).
Example C42_witness : exists c, parse_config toy_real int_min int_max sample = Accepted c /\ c_val c BoxSize = VReal 250 /\ c_val c HaloPath = VStr (txt "/data/fof") /\
  c_val c GroupParticleIdMask = VInt 262143 /\ c_val c PeriodicBoundaryOn = VBool false /\ c_val c MinNumPartOfSub = VInt 20 /\ c_ids c = [3; 7; 11].
Proof. vm_compute. eexists. repeat split. Qed.
Example C42_line_witness : line_of BoxSize (txt "	BoxSize 62.5 [Mpc/h]") (txt " 62.5 ").
Proof.
  exists (txt "BoxSize 62.5 "). split.
  - exists ["009"%char], (txt "[Mpc/h]"). split; [reflexivity|]. split; [repeat constructor; right; reflexivity|]. split; [repeat constructor; discriminate|]. split; [right; exists "["%char, (txt "Mpc/h]"); split; [reflexivity|right; reflexivity]|]. intros c r E. injection E as <- _. split; discriminate.
  - exists []. split; [constructor|]. split; [apply (name_word BoxSize)|]. split; [right; exists " "%char, (txt "62.5 "); split; reflexivity|reflexivity].
Qed.
(** Finding: a compulsory parameter named without a value counts as set, and its member stays uninitialised. *)
Theorem C42_no_value_refuted : exists file c, parse_config toy_real int_min int_max file = Accepted c /\ In BoxSize compulsory /\ c_val c BoxSize = VNone.
Proof.
  exists (lines_text ["SnapshotPath a"; "HaloPath b"; "SubhaloPath c"; "SnapshotFileBase d"; "MaxSnapshotIndex 2"; "BoxSize"; "SofteningHalo 3"]%string).
  vm_compute. eexists. split; [reflexivity|]. split; [tauto|reflexivity].
Qed.
(** Finding: a truth value written as a word is read as false. *)
Theorem C42_true_refuted : exists c, parse_config toy_real int_min int_max (lines_text (base_file ++ ["PeriodicBoundaryOn true"]%string)) = Accepted c /\ c_val c PeriodicBoundaryOn = VBool false.
Proof. vm_compute. eexists. split; reflexivity. Qed.
(** Finding: with Windows line ends an empty line is rejected. *)
Theorem C42_crlf_refuted : parse_config toy_real int_min int_max (txt "BoxSize 3" ++ ["013"%char; nl; "013"%char; nl]) = Unrecognised [].
Proof. vm_compute. reflexivity. Qed.
Example C57_witness : match parse_params toy_real int_min int_max [txt "hbt.conf"] sample (Some (txt "s0" ++ nl :: txt " s1 # second" ++ nl :: nl :: txt "s2")) with
  | Started s a b => (a, b) = (0, 2) /\ s_names s = [txt "s0"; txt "s1"; txt "s2"] /\ s_half s = Some (250 / 2)%Q /\
      match start_up (Started s a b) [new_settings; new_settings] with
      | Some [x; y; z] => s_names (fst z) = s_names s /\ c_ids (s_conf (fst y)) = [3; 7; 11] /\ s_half (fst z) = s_half s
      | _ => False end
  | _ => False end.
Proof. vm_compute. repeat split. Qed.
Example C57_range_witness : numeral 10 12 (txt "12") /\ numeral 10 40 (txt "40") /\
  match parse_params toy_real int_min int_max [txt "hbt.conf"; txt "12"; txt "40"] sample None with Started _ a b => (a, b) = (12, 40) | _ => False end.
Proof. split; [exists [1; 2]|split; [exists [4; 0]|vm_compute; reflexivity]]; (split; [discriminate|]); (split; [repeat constructor; lia|]); left; split; reflexivity. Qed.
Definition all_params : list param := map (fun e => snd (fst e)) chain.
Lemma all_params_in p : In p all_params.
Proof. destruct p; cbn; tauto. Qed.
Definition plainb (t : text) : bool := negb (match t with [] => true | _ => false end) && forallb (fun c => negb (is_space c) && negb (Ascii.eqb c "#") && negb (Ascii.eqb c "[")) t.
Lemma plainb_spec t : plainb t = true -> plain_word t.
Proof.
  unfold plainb. intros H. apply andb_prop in H as [H1 H2]. rewrite forallb_forall in H2. split; [split; [destruct t; [discriminate|discriminate]|]|]; apply Forall_forall; intros c Hc; specialize (H2 c Hc);
  apply andb_prop in H2 as [H2 H3]; apply andb_prop in H2 as [H2 H4].
  - destruct (is_space c); [discriminate|reflexivity].
  - split; intros ->; discriminate.
Qed.
Definition real_ok (v : value) : bool := match v with VNone => false | VReal q => plainb (toy_show q) && Qeq_bool (toy_real (toy_show q)) q | _ => true end.
Example C58_witness : exists c, parse_config toy_real int_min int_max sample = Accepted c /\ (forall p, c_val c p <> VNone) /\ (forall p q, c_val c p = VReal q -> plain_word (toy_show q)) /\
  match parse_config toy_real int_min int_max (dump toy_show c (txt "1.0") (txt " s0 s1") (txt "0")) with
  | Accepted c' => c_val c' BoxSize = VReal 250 /\ c_val c' TreeNodeOpenAngle = VReal (45 # 100) /\ c_val c' GroupParticleIdMask = VInt 262143 /\ c_ids c' = [3; 7; 11] /\ c_val c' HaloPath = VStr (txt "/data/fof")
  | _ => False end.
Proof.
  destruct (parse_config toy_real int_min int_max sample) as [c| | | |] eqn:E; try (vm_compute in E; discriminate). exists c. split; [reflexivity|].
  assert (HB : forallb (fun p => real_ok (c_val c p)) all_params = true).
  { assert (G : match parse_config toy_real int_min int_max sample with Accepted c => forallb (fun p => real_ok (c_val c p)) all_params | _ => false end = true) by (vm_compute; reflexivity). rewrite E in G. exact G. }
  rewrite forallb_forall in HB. split; [|split].
  - intros p. specialize (HB p (all_params_in p)). destruct (c_val c p); discriminate.
  - intros p q Hq. specialize (HB p (all_params_in p)). rewrite Hq in HB. cbn [real_ok] in HB. apply andb_prop in HB as [HB _]. apply plainb_spec. exact HB.
  - assert (G : match parse_config toy_real int_min int_max sample with Accepted c => match parse_config toy_real int_min int_max (dump toy_show c (txt "1.0") (txt " s0 s1") (txt "0")) with
      | Accepted c' => c_val c' BoxSize = VReal 250 /\ c_val c' TreeNodeOpenAngle = VReal (45 # 100) /\ c_val c' GroupParticleIdMask = VInt 262143 /\ c_ids c' = [3; 7; 11] /\ c_val c' HaloPath = VStr (txt "/data/fof")
      | _ => False end | _ => False end) by (vm_compute; repeat split). rewrite E in G. exact G.
Qed.
(** Finding: reals are printed with the default precision of a stream (six digits), so a configuration with more digits does not come
    back.  Here a printer that keeps whole numbers only. *)
Theorem C58_precision_refuted : exists show c c', (forall q, plain_word (show q)) /\ parse_config toy_real int_min int_max sample = Accepted c /\
  parse_config toy_real int_min int_max (dump show c [] [] []) = Accepted c' /\ c_val c' TreeNodeOpenAngle <> c_val c TreeNodeOpenAngle.
Proof.
  exists (fun q => show_int 10 (Qnum q / Zpos (Qden q))).
  destruct (parse_config toy_real int_min int_max sample) as [c| | | |] eqn:E; try (vm_compute in E; discriminate).
  assert (G : match parse_config toy_real int_min int_max sample with Accepted c => match parse_config toy_real int_min int_max (dump (fun q => show_int 10 (Qnum q / Zpos (Qden q))) c [] [] []) with
      | Accepted c' => c_val c' TreeNodeOpenAngle <> c_val c TreeNodeOpenAngle | _ => False end | _ => False end) by (vm_compute; discriminate). rewrite E in G.
  destruct (parse_config toy_real int_min int_max (dump _ c [] [] [])) as [c'| | | |] eqn:E'; try contradiction. exists c, c'. split; [|split; [reflexivity|split; [exact E'|exact G]]].
  intros q. pose proof (numeral_plain 10 _ _ ltac:(lia) (show_numeral 10 (Qnum q / Zpos (Qden q)) ltac:(lia))) as [Hn H]. rewrite Forall_forall in H.
  split; [split; [exact Hn|]|]; apply Forall_forall; intros c0 Hc; destruct (H c0 Hc) as (H1 & H2 & _); [exact H1|]. apply mem_hash. exact H2.
Qed.
Print Assumptions C42_no_value_refuted. Print Assumptions C42_true_refuted. Print Assumptions C42_crlf_refuted. Print Assumptions C58_precision_refuted.
(** Finding: a negative mask is printed as an unsigned number, which is out of range when read again. *)
Theorem C58_mask_refuted : exists c c', parse_config toy_real int_min int_max (lines_text (base_file ++ ["GroupParticleIdMask -1"]%string)) = Accepted c /\ c_val c GroupParticleIdMask = VInt (-1) /\
  parse_config toy_real int_min int_max (dump toy_show c [] [] []) = Accepted c' /\ c_val c' GroupParticleIdMask = VInt long_max.
Proof.
  set (f := lines_text _). destruct (parse_config toy_real int_min int_max f) as [c| | | |] eqn:E; try (vm_compute in E; discriminate).
  assert (G : match parse_config toy_real int_min int_max f with Accepted c => c_val c GroupParticleIdMask = VInt (-1) /\ match parse_config toy_real int_min int_max (dump toy_show c [] [] []) with
      | Accepted c' => c_val c' GroupParticleIdMask = VInt long_max | _ => False end | _ => False end) by (vm_compute; split; reflexivity). rewrite E in G. destruct G as [G1 G2].
  destruct (parse_config toy_real int_min int_max (dump toy_show c [] [] [])) as [c'| | | |] eqn:E'; try contradiction. exists c, c'. split; [reflexivity|]. split; [exact G1|]. split; [exact E'|exact G2].
Qed.
Print Assumptions C58_mask_refuted.

(** The derived constants, in the units of the file: the speed of a circular orbit at 1 Mpc/h around 10^10 Msun/h is
    sqrt(43.0071) km/s, the Hubble flow at 1 Mpc/h 100 km/s; half box, tree resolution, its half and the squared angle.  Nothing
    read from the file changes. *)
Theorem C42_derived : forall c names mass vel len box soft angle, (~ mass == 0)%Q -> (~ vel == 0)%Q -> (~ len == 0)%Q ->
  c_val c MassInMsunh = VReal mass -> c_val c VelInKmS = VReal vel -> c_val c LengthInMpch = VReal len ->
  c_val c BoxSize = VReal box -> c_val c SofteningHalo = VReal soft -> c_val c TreeNodeOpenAngle = VReal angle ->
  let kms := (1 / vel)%Q in let mpc := (1 / len)%Q in let s := derive c names in
  s_conf s = c /\ s_names s = names /\ (s_loaded s = true <-> c_val c GroupFileFormat = VStr (txt "apostle_particle_index")) /\
  exists G H0 half res res_half angle2, s_G s = Some G /\ s_H0 s = Some H0 /\ s_half s = Some half /\ s_res s = Some res /\ s_reshalf s = Some res_half /\ s_angle2 s = Some angle2 /\
    (G * (10000000000 / mass) / mpc == (430071 # 10000) * (kms * kms) /\ H0 * mpc == 100 * kms /\
     half * 2 == box /\ res * 10 == soft /\ res_half * 2 == res /\ angle2 == angle * angle)%Q.
Proof.
  intros c names mass vel len box soft angle Hm Hv Hl E1 E2 E3 E4 E5 E6 kms mpc s. split; [reflexivity|]. split; [reflexivity|]. split.
  - unfold s, derive. cbn [s_loaded]. destruct (c_val c GroupFileFormat) as [|t| | |]; try (split; discriminate). split; intros E; [apply text_eqb_spec in E; congruence|apply text_eqb_spec; congruence].
  - unfold s, derive. rewrite E1, E2, E3, E4, E5, E6. cbn [real_of s_G s_H0 s_half s_res s_reshalf s_angle2]. do 6 eexists. repeat (split; [reflexivity|]). unfold kms, mpc. repeat split; try field; auto.
Qed.
Print Assumptions C42_derived.
Example C42_derived_witness : exists c, parse_config toy_real int_min int_max sample = Accepted c /\
  (exists mass vel len box soft angle, (~ mass == 0)%Q /\ (~ vel == 0)%Q /\ (~ len == 0)%Q /\ c_val c MassInMsunh = VReal mass /\ c_val c VelInKmS = VReal vel /\ c_val c LengthInMpch = VReal len /\
    c_val c BoxSize = VReal box /\ c_val c SofteningHalo = VReal soft /\ c_val c TreeNodeOpenAngle = VReal angle).
Proof.
  destruct (parse_config toy_real int_min int_max sample) as [c| | | |] eqn:E; try (vm_compute in E; discriminate). exists c. split; [reflexivity|].
  assert (G : match parse_config toy_real int_min int_max sample with Accepted c => match c_val c MassInMsunh, c_val c VelInKmS, c_val c LengthInMpch, c_val c BoxSize, c_val c SofteningHalo, c_val c TreeNodeOpenAngle with
      | VReal m, VReal v, VReal l, VReal _, VReal _, VReal _ => negb (Qeq_bool m 0) && negb (Qeq_bool v 0) && negb (Qeq_bool l 0) | _, _, _, _, _, _ => false end | _ => false end = true) by (vm_compute; reflexivity).
  rewrite E in G. destruct (c_val c MassInMsunh) as [| | |m|], (c_val c VelInKmS) as [| | |v|], (c_val c LengthInMpch) as [| | |l|], (c_val c BoxSize) as [| | |bx|], (c_val c SofteningHalo) as [| | |so|], (c_val c TreeNodeOpenAngle) as [| | |a|]; try discriminate.
  rewrite !andb_true_iff, !negb_true_iff in G. destruct G as [[G1 G2] G3]. exists m, v, l, bx, so, a. repeat split; apply Qeq_bool_neq; assumption.
Qed.
