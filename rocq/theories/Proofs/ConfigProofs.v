(** Parsing of configuration files. *)
From Coq Require Import List ZArith QArith Bool Ascii String Lia.
From Verif.Spec Require Import Config.
From Verif.Model Require Import ListMem Config.
Import ListNotations.
Local Open Scope Z_scope.
Local Arguments is_space : simpl never.
Local Arguments mem : simpl never.

(** ** Texts *)
Lemma text_eqb_spec a : forall b, text_eqb a b = true <-> a = b.
Proof.
  induction a as [|x a IH]; intros [|y b]; cbn; split; intros H; try reflexivity; try discriminate.
  - apply andb_prop in H as [H1 H2]. apply Ascii.eqb_eq in H1. apply IH in H2. subst. reflexivity.
  - injection H as -> ->. rewrite Ascii.eqb_refl. apply IH. reflexivity.
Qed.
Lemma text_eqb_refl a : text_eqb a a = true.
Proof. apply text_eqb_spec. reflexivity. Qed.
Local Arguments text_eqb : simpl never.
Lemma skip_ws_app pre s : spaces pre -> skip_ws (pre ++ s) = skip_ws s.
Proof. induction 1 as [|c r Hc Hr IH]; [reflexivity|]. cbn. rewrite Hc. exact IH. Qed.
Lemma skip_ws_word w s : word w -> skip_ws (w ++ s) = w ++ s.
Proof. intros [Hn Hw]. destruct w as [|c r]; [contradiction|]. cbn. inversion Hw as [|? ? Hc Hr]; subst. rewrite Hc. reflexivity. Qed.
Lemma take_word_app w rest : Forall (fun c => is_space c = false) w -> word_end rest -> take_word (w ++ rest) = (w, rest).
Proof.
  intros Hw He. induction Hw as [|c r Hc Hr IH]; cbn.
  - destruct He as [->|(c & r & -> & Hc)]; [reflexivity|]. cbn. rewrite Hc. reflexivity.
  - rewrite Hc, IH. reflexivity.
Qed.
Lemma starts_eq line w rest : starts line w rest -> take_word (skip_ws line) = (w, rest).
Proof. intros (pre & Hp & Hw & He & ->). rewrite skip_ws_app, skip_ws_word by assumption. apply take_word_app; [apply Hw|exact He]. Qed.
Lemma take_word_inv s : forall w rest, take_word s = (w, rest) -> s = w ++ rest /\ Forall (fun c => is_space c = false) w /\ word_end rest.
Proof.
  induction s as [|c s IH]; intros w rest E; cbn in E.
  - injection E as <- <-. split; [reflexivity|]. split; [constructor|left; reflexivity].
  - destruct (is_space c) eqn:Ec.
    + injection E as <- <-. split; [reflexivity|]. split; [constructor|right; eauto].
    + destruct (take_word s) as [w' t]. injection E as <- <-. destruct (IH w' t eq_refl) as (-> & H2 & H3). split; [reflexivity|]. split; [constructor; assumption|exact H3].
Qed.
Lemma skip_ws_inv s : exists pre, spaces pre /\ s = pre ++ skip_ws s.
Proof.
  induction s as [|c s (pre & Hp & Es)]; [exists []; split; [constructor|reflexivity]|]. cbn. destruct (is_space c) eqn:Ec.
  - exists (c :: pre). split; [constructor; assumption|]. cbn. rewrite <- Es. reflexivity.
  - exists []. split; [constructor|reflexivity].
Qed.
Lemma starts_of s w rest : take_word (skip_ws s) = (w, rest) -> w <> [] -> starts s w rest.
Proof.
  intros E Hn. destruct (skip_ws_inv s) as (pre & Hp & Es). destruct (take_word_inv _ _ _ E) as (E1 & H1 & H2). exists pre.
  split; [exact Hp|]. split; [split; assumption|]. split; [exact H2|]. rewrite <- E1. exact Es.
Qed.

(** ** Lines *)
Lemma mem_hash c : mem c ["#"; "["]%char = false <-> c <> "#"%char /\ c <> "["%char.
Proof.
  unfold mem. cbn. destruct (Ascii.eqb_spec c "#"%char), (Ascii.eqb_spec c "["%char); cbn; split; intros H; try discriminate; try reflexivity; tauto.
Qed.
Lemma mem_blank c : mem c [" "; "009"]%char = true <-> c = " "%char \/ c = "009"%char.
Proof.
  unfold mem. cbn. destruct (Ascii.eqb_spec c " "%char), (Ascii.eqb_spec c "009"%char); cbn; split; intros H; try discriminate; try reflexivity; tauto.
Qed.
Lemma trim_trailing_app s r g : Forall (fun c => mem c g = false) s -> trim_trailing (s ++ r) g = s ++ trim_trailing r g.
Proof. induction 1 as [|c s Hc Hs IH]; [reflexivity|]. cbn. rewrite Hc, IH. reflexivity. Qed.
Lemma trim_leading_app s r g : Forall (fun c => mem c g = true) s -> trim_leading (s ++ r) g = trim_leading r g.
Proof. induction 1 as [|c s Hc Hs IH]; [reflexivity|]. cbn. rewrite Hc. exact IH. Qed.
Lemma strip_eq line code : uncommented line code -> strip line = code.
Proof.
  intros (bl & cm & -> & Hb & Hc & Hm & Hh). unfold strip.
  assert (B1 : Forall (fun c => mem c ["#"; "["]%char = false) bl).
  { eapply Forall_impl; [|exact Hb]. intros c [->| ->]; reflexivity. }
  assert (B2 : Forall (fun c => mem c [" "; "009"]%char = true) bl).
  { eapply Forall_impl; [|exact Hb]. intros c H. apply mem_blank. exact H. }
  assert (B3 : Forall (fun c => mem c ["#"; "["]%char = false) code).
  { eapply Forall_impl; [|exact Hc]. intros c H. apply mem_hash. exact H. }
  rewrite trim_trailing_app by exact B1. rewrite trim_trailing_app by exact B3.
  assert (E : trim_trailing cm ["#"; "["]%char = []) by (destruct Hm as [->|(c & r & -> & [->| ->])]; reflexivity).
  rewrite E, app_nil_r, trim_leading_app by exact B2. destruct code as [|c r]; [reflexivity|]. cbn [trim_leading].
  destruct (mem c [" "; "009"]%char) eqn:Em; [|reflexivity]. apply mem_blank in Em. specialize (Hh c r eq_refl). tauto.
Qed.
Lemma trim_trailing_inv s g : exists cm, s = trim_trailing s g ++ cm /\ Forall (fun c => mem c g = false) (trim_trailing s g) /\ (cm = [] \/ exists c r, cm = c :: r /\ mem c g = true).
Proof.
  induction s as [|c s (cm & E & H1 & H2)]; [exists []; split; [reflexivity|split; [constructor|left; reflexivity]]|]. cbn. destruct (mem c g) eqn:Ec.
  - exists (c :: s). split; [reflexivity|split; [constructor|right; eauto]].
  - exists cm. cbn. rewrite <- E. split; [reflexivity|split; [constructor; assumption|exact H2]].
Qed.
Lemma trim_leading_inv s g : exists b, s = b ++ trim_leading s g /\ Forall (fun c => mem c g = true) b /\ (forall c r, trim_leading s g = c :: r -> mem c g = false).
Proof.
  induction s as [|c s (b & E & H1 & H2)]; [exists []; split; [reflexivity|split; [constructor|discriminate]]|]. cbn. destruct (mem c g) eqn:Ec.
  - exists (c :: b). cbn. rewrite <- E. split; [reflexivity|split; [constructor; assumption|exact H2]].
  - exists []. split; [reflexivity|split; [constructor|]]. intros x r Ex. injection Ex as -> _. exact Ec.
Qed.
Lemma strip_uncommented line : uncommented line (strip line).
Proof.
  unfold strip. destruct (trim_trailing_inv line ["#"; "["]%char) as (cm & E & H1 & H2). set (t := trim_trailing line _) in *. clearbody t.
  destruct (trim_leading_inv t [" "; "009"]%char) as (b & E' & H3 & H4). set (u := trim_leading t _) in *. clearbody u. subst t line.
  exists b, cm. split; [rewrite <- app_assoc; reflexivity|]. split; [eapply Forall_impl; [|exact H3]; intros c Hc; apply mem_blank; exact Hc|].
  apply Forall_app in H1 as [_ H1]. split; [eapply Forall_impl; [|exact H1]; intros c Hc; apply mem_hash; exact Hc|]. split.
  - destruct H2 as [->|(c & r & -> & Hc)]; [left; reflexivity|]. right. exists c, r. split; [reflexivity|].
    destruct (Ascii.eqb_spec c "#"%char) as [->|N1]; [left; reflexivity|]. destruct (Ascii.eqb_spec c "["%char) as [->|N2]; [right; reflexivity|].
    pose proof (proj2 (mem_hash c) (conj N1 N2)). congruence.
  - intros c r Ec. specialize (H4 c r Ec). split; intros Hx; pose proof (proj2 (mem_blank c)) as Hm; rewrite Hm in H4 by tauto; discriminate.
Qed.

(** ** The chain of comparisons *)
Definition index_of (p : param) : option nat :=
  match p with SnapshotPath => Some 0 | HaloPath => Some 1 | SubhaloPath => Some 2 | SnapshotFileBase => Some 3 | MaxSnapshotIndex => Some 4
  | BoxSize => Some 5 | SofteningHalo => Some 6 | _ => None end%nat.
Lemma chain_finds p : find (fun e => text_eqb (txt (name_of p)) (txt (fst (fst e)))) chain = Some (name_of p, p, index_of p).
Proof. destruct p; vm_compute; reflexivity. Qed.
Lemma chain_entries : Forall (fun e => fst (fst e) = name_of (snd (fst e)) /\ snd e = index_of (snd (fst e))) chain.
Proof. repeat constructor. Qed.
Lemma chain_found name e : find (fun e => text_eqb name (txt (fst (fst e)))) chain = Some e -> e = (name_of (snd (fst e)), snd (fst e), index_of (snd (fst e))) /\ name = txt (name_of (snd (fst e))).
Proof.
  intros H. apply find_some in H as [Hin He]. apply text_eqb_spec in He. pose proof (proj1 (Forall_forall _ _) chain_entries e Hin) as [E1 E2].
  destruct e as [[n p] i]. cbn [fst snd] in *. subst. split; reflexivity.
Qed.
Lemma chain_missed name : find (fun e => text_eqb name (txt (fst (fst e)))) chain = None <-> (forall p, name <> txt (name_of p)).
Proof.
  split.
  - intros H p ->. rewrite chain_finds in H. discriminate.
  - intros H. destruct (find _ chain) as [e|] eqn:E; [|reflexivity]. apply chain_found in E as [_ E]. exfalso. exact (H _ E).
Qed.
Lemma name_inj p q : txt (name_of p) = txt (name_of q) -> p = q.
Proof. intros E. pose proof (chain_finds p) as H1. rewrite E, chain_finds in H1. congruence. Qed.
Lemma list_not_name p : list_name <> txt (name_of p).
Proof. destruct p; discriminate. Qed.
Lemma name_word p : word (txt (name_of p)).
Proof. destruct p; split; try discriminate; repeat constructor. Qed.
Lemma index_compulsory p i : index_of p = Some i <-> nth_error compulsory i = Some p.
Proof.
  split.
  - destruct p; cbn; intros H; try discriminate; injection H as <-; reflexivity.
  - intros H. destruct i as [|[|[|[|[|[|[|i]]]]]]]; cbn in H; try (injection H as <-; reflexivity). destruct i; discriminate.
Qed.
Lemma upd_spec {A} (l : list A) i x : (i < List.length l)%nat -> exists l', upd l i x = Some l' /\ List.length l' = List.length l /\ forall j, nth_error l' j = if Nat.eqb j i then Some x else nth_error l j.
Proof.
  revert i. induction l as [|y l IH]; intros i Hi; [cbn in Hi; lia|]. destruct i as [|i]; cbn [upd].
  - exists (x :: l). split; [reflexivity|]. split; [reflexivity|]. intros [|j]; reflexivity.
  - destruct (IH i ltac:(cbn in Hi; lia)) as (l' & -> & HL & HN). exists (y :: l'). split; [reflexivity|]. split; [cbn; lia|]. intros [|j]; [reflexivity|]. cbn. apply HN.
Qed.

Section P.
  Variable read_real : text -> Q.
  Variable hbt_min hbt_max : Z.
  Local Notation extract := (extract read_real hbt_min hbt_max).
  Local Notation set_parameter := (set_parameter read_real hbt_min hbt_max).
  Local Notation parse_lines := (parse_lines read_real hbt_min hbt_max).
  Local Notation parse_config := (parse_config read_real hbt_min hbt_max).

  Definition assigned (old : value) (p : param) (rest : text) : value := match extract (kind_of p) rest with Some v => v | None => old end.
  Lemma beq_spec p q : param_beq p q = true <-> p = q.
  Proof. split; [apply internal_param_dec_bl|apply internal_param_dec_lb]. Qed.
  Lemma beq_refl p : param_beq p p = true.
  Proof. apply beq_spec. reflexivity. Qed.
  Lemma beq_neq p q : p <> q -> param_beq p q = false.
  Proof. intros H. destruct (param_beq p q) eqn:E; [|reflexivity]. apply beq_spec in E. contradiction. Qed.

  (** The effect of one recognised line. *)
  Lemma set_param_named c p line rest : take_word (skip_ws line) = (txt (name_of p), rest) -> List.length (c_set c) = 7%nat ->
    exists c', set_parameter c line = Accepted c' /\ c_val c' p = assigned (c_val c p) p rest /\ (forall q, q <> p -> c_val c' q = c_val c q) /\
      c_ids c' = c_ids c /\ List.length (c_set c') = 7%nat /\
      forall i, nth_error (c_set c') i = match nth_error compulsory i with Some q => if param_beq q p then Some true else nth_error (c_set c) i | None => nth_error (c_set c) i end.
  Proof.
    intros E HL. unfold Config.set_parameter. rewrite E, chain_finds. unfold assigned.
    set (c1 := match extract (kind_of p) rest with Some v => set_val c p v | None => c end).
    assert (V1 : c_val c1 p = match extract (kind_of p) rest with Some v => v | None => c_val c p end) by (unfold c1; destruct (extract _ _); [cbn; rewrite beq_refl|]; reflexivity).
    assert (V2 : forall q, q <> p -> c_val c1 q = c_val c q) by (intros q Hq; unfold c1; destruct (extract _ _); [cbn; rewrite beq_neq by exact Hq|]; reflexivity).
    assert (V3 : c_set c1 = c_set c) by (unfold c1; destruct (extract _ _); reflexivity). assert (V4 : c_ids c1 = c_ids c) by (unfold c1; destruct (extract _ _); reflexivity).
    clearbody c1. destruct (index_of p) as [i|] eqn:Ei.
    - assert (Hi : (i < 7)%nat) by (destruct p; cbn in Ei; try discriminate; injection Ei as <-; lia).
      destruct (upd_spec (c_set c1) i true ltac:(rewrite V3, HL; exact Hi)) as (b & -> & HB & HN). eexists. split; [reflexivity|]. cbn [c_val c_set c_ids].
      split; [exact V1|]. split; [exact V2|]. split; [exact V4|]. split; [rewrite HB, V3; exact HL|]. intros j. rewrite HN, V3. apply index_compulsory in Ei.
      destruct (Nat.eqb_spec j i) as [->|Hj]; [rewrite Ei, beq_refl; reflexivity|]. destruct (nth_error compulsory j) as [q|] eqn:Eq; [|reflexivity].
      rewrite beq_neq; [reflexivity|]. intros ->. apply index_compulsory in Ei, Eq. congruence.
    - exists c1. split; [reflexivity|]. split; [exact V1|]. split; [exact V2|]. split; [exact V4|]. split; [rewrite V3; exact HL|]. intros j. rewrite V3.
      destruct (nth_error compulsory j) as [q|] eqn:Eq; [|reflexivity]. rewrite beq_neq; [reflexivity|]. intros ->. apply index_compulsory in Eq. congruence.
  Qed.
  Lemma set_param_list c line rest : take_word (skip_ws line) = (list_name, rest) ->
    set_parameter c line = Accepted (mkconfig (c_val c) (c_set c) (c_ids c ++ read_list (S (List.length rest)) rest)).
  Proof.
    intros E. unfold Config.set_parameter. rewrite E. rewrite (proj2 (chain_missed list_name) list_not_name). change (txt "SnapshotIdList") with list_name. rewrite text_eqb_refl. reflexivity.
  Qed.
  Lemma set_param_unknown c line name rest : take_word (skip_ws line) = (name, rest) -> (forall p, name <> txt (name_of p)) -> name <> list_name ->
    set_parameter c line = Unrecognised name.
  Proof.
    intros E H1 H2. unfold Config.set_parameter. rewrite E, (proj2 (chain_missed name) H1). destruct (text_eqb name (txt "SnapshotIdList")) eqn:E2; [|reflexivity].
    apply text_eqb_spec in E2. contradiction.
  Qed.

  (** ** A sequence of lines *)
  Definition heads (l : text) : text * text := take_word (skip_ws (strip l)).
  Definition recognised (l : text) : Prop := strip l = [] \/ fst (heads l) = list_name \/ exists p, fst (heads l) = txt (name_of p).
  Definition rests (p : param) (ls : list text) : list text := flat_map (fun l => if text_eqb (fst (heads l)) (txt (name_of p)) then [snd (heads l)] else []) ls.
  Definition id_rests (ls : list text) : list text := flat_map (fun l => if text_eqb (fst (heads l)) list_name then [snd (heads l)] else []) ls.

  Lemma name_nonempty p : txt (name_of p) <> [].
  Proof. apply (proj1 (name_word p)). Qed.
  Lemma blank_heads l : strip l = [] -> heads l = ([], []).
  Proof. intros E. unfold heads. rewrite E. reflexivity. Qed.
  Lemma text_neqb a b : a <> b -> text_eqb a b = false.
  Proof. intros H. destruct (text_eqb a b) eqn:E; [|reflexivity]. apply text_eqb_spec in E. contradiction. Qed.
  Lemma recognised_dec l : recognised l \/ ~ recognised l.
  Proof.
    unfold recognised. destruct (strip l); [left; left; reflexivity|]. destruct (text_eqb (fst (heads l)) list_name) eqn:E1; [left; right; left; apply text_eqb_spec; exact E1|].
    destruct (find (fun e => text_eqb (fst (heads l)) (txt (fst (fst e)))) chain) as [e|] eqn:E2.
    - left. right. right. apply chain_found in E2 as [_ E2]. eauto.
    - right. intros [H|[H|[p H]]]; [discriminate| |]; [rewrite H, text_eqb_refl in E1; discriminate|]. exact (proj1 (chain_missed _) E2 p H).
  Qed.

  Lemma parse_lines_ok ls : Forall recognised ls -> forall c, List.length (c_set c) = 7%nat ->
    exists c', parse_lines c ls = Accepted c' /\ List.length (c_set c') = 7%nat /\
      (forall p, c_val c' p = fold_left (fun v rest => assigned v p rest) (rests p ls) (c_val c p)) /\
      c_ids c' = c_ids c ++ flat_map (fun rest => read_list (S (List.length rest)) rest) (id_rests ls) /\
      (forall i, nth_error (c_set c') i = match nth_error compulsory i with
                                         | Some q => match rests q ls with [] => nth_error (c_set c) i | _ => Some true end
                                         | None => nth_error (c_set c) i end).
  Proof.
    induction 1 as [|l ls Hl Hls IH]; intros c HL.
    - exists c. split; [reflexivity|]. split; [exact HL|]. split; [reflexivity|]. split; [cbn; rewrite app_nil_r; reflexivity|]. intros i. destruct (nth_error compulsory i); reflexivity.
    - cbn [Config.parse_lines]. unfold rests, id_rests. cbn [flat_map]. fold (id_rests ls). destruct (strip l) as [|x t] eqn:Es.
      + rewrite (blank_heads l Es). cbn [fst]. destruct (IH c HL) as (c' & E & H1 & H2 & H3 & H4). exists c'. split; [exact E|]. split; [exact H1|].
        split; [intros p; rewrite text_neqb by (intros G; symmetry in G; exact (name_nonempty p G)); apply H2|]. split; [rewrite text_neqb by discriminate; exact H3|].
        intros i. rewrite H4. destruct (nth_error compulsory i) as [q|]; [|reflexivity]. rewrite text_neqb by (intros G; symmetry in G; exact (name_nonempty q G)). reflexivity.
      + rewrite <- Es. destruct (heads l) as [w rest] eqn:Eh. unfold heads in Eh. destruct Hl as [Hl|Hl]; [congruence|].
        destruct Hl as [Hl|[p Hl]]; unfold heads in Hl; rewrite Eh in Hl; cbn [fst] in Hl; subst w.
        * rewrite (set_param_list c (strip l) rest Eh). destruct (IH (mkconfig (c_val c) (c_set c) (c_ids c ++ read_list (S (List.length rest)) rest)) HL) as (c' & E & H1 & H2 & H3 & H4).
          cbn [c_val c_set c_ids] in *. exists c'. split; [exact E|]. split; [exact H1|]. cbn [fst snd].
          split; [intros p; rewrite text_neqb by apply list_not_name; apply H2|]. split; [rewrite text_eqb_refl; cbn [app flat_map]; rewrite app_assoc; exact H3|].
          intros i. rewrite H4. destruct (nth_error compulsory i) as [q|]; [|reflexivity]. rewrite text_neqb by apply list_not_name. reflexivity.
        * destruct (set_param_named c p (strip l) rest Eh HL) as (c1 & -> & V1 & V2 & V3 & V4 & V5). destruct (IH c1 V4) as (c' & E & H1 & H2 & H3 & H4).
          exists c'. split; [exact E|]. split; [exact H1|]. cbn [fst snd]. split; [|split].
          -- intros q. rewrite H2. destruct (text_eqb (txt (name_of p)) (txt (name_of q))) eqn:Eq.
             ++ apply text_eqb_spec, name_inj in Eq. subst q. cbn [app fold_left]. rewrite V1. reflexivity.
             ++ cbn [app]. rewrite V2; [reflexivity|]. intros ->. rewrite text_eqb_refl in Eq. discriminate.
          -- rewrite H3, V3. rewrite text_neqb by (intros G; exact (list_not_name p (eq_sym G))). reflexivity.
          -- intros i. rewrite H4, V5. destruct (nth_error compulsory i) as [q|]; [|reflexivity]. destruct (text_eqb (txt (name_of p)) (txt (name_of q))) eqn:Eq.
             ++ apply text_eqb_spec, name_inj in Eq. subst q. rewrite beq_refl. cbn [app]. fold (rests p ls). destruct (rests p ls); reflexivity.
             ++ cbn [app]. rewrite beq_neq; [reflexivity|]. intros ->. rewrite text_eqb_refl in Eq. discriminate.
  Qed.
  Lemma parse_lines_accepted ls : forall c c', List.length (c_set c) = 7%nat -> parse_lines c ls = Accepted c' -> Forall recognised ls.
  Proof.
    induction ls as [|l ls IH]; intros c c' HL E; [constructor|]. cbn [Config.parse_lines] in E. destruct (strip l) as [|x t] eqn:Es.
    - constructor; [left; exact Es|]. exact (IH c c' HL E).
    - rewrite <- Es in E. destruct (recognised_dec l) as [Hr|Hr].
      + constructor; [exact Hr|]. pose proof Hr as [G|[G|[p G]]]; [congruence| |]; destruct (heads l) as [w rest] eqn:Eh; unfold heads in Eh; cbn [fst] in G; subst w.
        * rewrite (set_param_list c _ rest Eh) in E. eapply IH; [|exact E]. exact HL.
        * destruct (set_param_named c p (strip l) rest Eh HL) as (c1 & E1 & _ & _ & _ & HL1 & _). rewrite E1 in E. exact (IH c1 c' HL1 E).
      + exfalso. destruct (heads l) as [w rest] eqn:Eh. pose proof Eh as Eh'. unfold heads in Eh. rewrite (set_param_unknown c (strip l) w rest Eh) in E; [discriminate| |].
        * intros p ->. apply Hr. right. right. exists p. rewrite Eh'. reflexivity.
        * intros ->. apply Hr. right. left. rewrite Eh'. reflexivity.
  Qed.

  Lemma first_unset_none b : forall i, first_unset i b = None <-> Forall (fun x => x = true) b.
  Proof. induction b as [|[] b IH]; intros i; cbn; split; intros H; try discriminate; try reflexivity; try constructor; auto. - apply IH in H. exact H. - inversion H; subst. apply IH. assumption. - inversion H; discriminate. Qed.

  Lemma adjust_val c p : c_val (adjust c) p = if param_beq p ParticleIdNeedHash then (match c_val c ParticleIdRankStyle with VBool true => VBool false | _ => c_val c ParticleIdNeedHash end) else c_val c p.
  Proof. unfold adjust. destruct (param_beq p ParticleIdNeedHash) eqn:E; [apply beq_spec in E; subst p|]; destruct (c_val c ParticleIdRankStyle) as [| | | |[]]; cbn; rewrite ?E; try reflexivity. Qed.
  Lemma adjust_ids c : c_ids (adjust c) = c_ids c.
  Proof. unfold adjust. destruct (c_val c ParticleIdRankStyle) as [| | | |[]]; reflexivity. Qed.

  (** The value a file gives to a parameter before the adjustment. *)
  Definition final (p : param) (file : text) : value := fold_left (fun v rest => assigned v p rest) (rests p (getlines file)) (default_val p).
  Definition final_ids (file : text) : list Z := flat_map (fun rest => read_list (S (List.length rest)) rest) (id_rests (getlines file)).

  Lemma parse_config_accepted file c : parse_config file = Accepted c ->
    Forall recognised (getlines file) /\ (forall p, In p compulsory -> rests p (getlines file) <> []) /\
    (forall p, p <> ParticleIdNeedHash -> c_val c p = final p file) /\
    c_val c ParticleIdNeedHash = (match final ParticleIdRankStyle file with VBool true => VBool false | _ => final ParticleIdNeedHash file end) /\
    c_ids c = final_ids file /\ (c_ids c = [] \/ c_val c MaxSnapshotIndex = VInt (Z.of_nat (List.length (c_ids c)) - 1)).
  Proof.
    unfold Config.parse_config. destruct (parse_lines default_config (getlines file)) as [c1| | | |] eqn:E; try discriminate.
    pose proof (parse_lines_accepted _ default_config c1 eq_refl E) as HR.
    destruct (parse_lines_ok _ HR default_config eq_refl) as (c1' & E' & HL & H2 & H3 & H4). rewrite E in E'. injection E' as <-. cbn [default_config c_val c_set c_ids app] in H2, H3, H4.
    unfold check_unset. destruct (first_unset 0 (c_set c1)) eqn:EF; try discriminate. apply first_unset_none in EF.
    assert (HC : forall p, In p compulsory -> rests p (getlines file) <> []).
    { intros p Hp E0. apply In_nth_error in Hp as [i Hi]. specialize (H4 i). rewrite Hi, E0 in H4.
      assert (Hi7 : (i < 7)%nat) by (change 7%nat with (List.length compulsory); apply nth_error_Some; congruence).
      assert (Hf : nth_error (repeat false 7) i = Some false) by (destruct i as [|[|[|[|[|[|[|i]]]]]]]; try reflexivity; lia). rewrite Hf in H4.
      apply nth_error_In in H4. rewrite Forall_forall in EF. specialize (EF _ H4). discriminate. }
    intros HA.
    assert (HX : c = adjust c1 /\ (c_ids c1 = [] \/ c_val c1 MaxSnapshotIndex = VInt (Z.of_nat (List.length (c_ids c1)) - 1))).
    { destruct (c_ids c1) as [|z t] eqn:Ei; [injection HA as <-; split; [reflexivity|left; reflexivity]|]. destruct (value_eqZ _ _) eqn:Ev; [|discriminate]. injection HA as <-. split; [reflexivity|]. right.
      unfold value_eqZ in Ev. destruct (c_val c1 MaxSnapshotIndex); try discriminate. apply Z.eqb_eq in Ev. congruence. }
    destruct HX as [-> HX]. split; [exact HR|]. split; [exact HC|]. split; [|split; [|split]].
    - intros p Hp. rewrite adjust_val, beq_neq by exact Hp. apply H2.
    - rewrite adjust_val, beq_refl. rewrite !H2. reflexivity.
    - rewrite adjust_ids. exact H3.
    - rewrite adjust_ids, adjust_val. exact HX.
  Qed.
  Lemma parse_config_ok file : Forall recognised (getlines file) -> (forall p, In p compulsory -> rests p (getlines file) <> []) ->
    (final_ids file = [] \/ final MaxSnapshotIndex file = VInt (Z.of_nat (List.length (final_ids file)) - 1)) -> exists c, parse_config file = Accepted c.
  Proof.
    intros HR HC HI. destruct (parse_lines_ok _ HR default_config eq_refl) as (c1 & E & HL & H2 & H3 & H4). cbn [default_config c_val c_set c_ids app] in H2, H3, H4.
    unfold Config.parse_config. rewrite E. unfold check_unset.
    assert (EF : first_unset 0 (c_set c1) = None).
    { apply first_unset_none. apply Forall_forall. intros b Hb. apply In_nth_error in Hb as [i Hi]. specialize (H4 i). rewrite Hi in H4.
      assert (Hi7 : (i < 7)%nat) by (rewrite <- HL; apply nth_error_Some; congruence).
      destruct (nth_error compulsory i) as [q|] eqn:Eq; [|apply nth_error_None in Eq; cbn in Eq; lia]. specialize (HC q (nth_error_In _ _ Eq)). destruct (rests q (getlines file)); [contradiction|congruence]. }
    rewrite EF. fold (final_ids file) in H3. rewrite <- H3 in HI. destruct (c_ids c1) as [|z t]; [eauto|]. destruct HI as [HI|HI]; [discriminate|].
    rewrite H2. fold (final MaxSnapshotIndex file). rewrite HI. cbn [value_eqZ]. rewrite Z.eqb_refl. eauto.
  Qed.

  (** ** Comments *)
  Definition code_lines (ls : list text) : list text := filter (fun s => match s with [] => false | _ => true end) (map strip ls).
  Lemma parse_code ls ls' : code_lines ls = code_lines ls' -> forall c, parse_lines c ls = parse_lines c ls'.
  Proof.
    set (F := fix F (c : config) (l : list text) : parsed := match l with [] => Accepted c | s :: r => match set_parameter c s with Accepted c' => F c' r | e => e end end).
    assert (G : forall l c, parse_lines c l = F c (code_lines l)).
    { induction l as [|x l IH]; intros c; [reflexivity|]. cbn [Config.parse_lines]. unfold code_lines. cbn [map filter]. destruct (strip x) as [|a t]; [apply IH|].
      cbn. destruct (set_parameter c (a :: t)); try reflexivity. apply IH. }
    intros E c. rewrite !G, E. reflexivity.
  Qed.
  Fixpoint split (s : text) : list text :=
    match s with [] => [[]] | c :: r => if Ascii.eqb c nl then [] :: split r else match split r with [] => [[c]] | l :: ls => (c :: l) :: ls end end.
  Lemma split_lines s : split s <> [] /\ (split s = getlines s \/ (exists ls, split s = ls ++ [[]] /\ getlines s = ls)).
  Proof.
    induction s as [|c s (Hn & IH)]; [split; [discriminate|right; exists []; split; reflexivity]|]. cbn [split getlines]. destruct (Ascii.eqb c nl).
    - split; [discriminate|]. destruct IH as [->|(ls & -> & ->)]; [left; reflexivity|]. right. exists ([] :: ls). split; reflexivity.
    - destruct (split s) as [|l t] eqn:E; [contradiction|]. split; [discriminate|]. destruct IH as [<-|(ls & E2 & ->)]; [left; reflexivity|].
      destruct ls as [|l' ls]; cbn in E2; injection E2 as -> ->; [left; reflexivity|]. right. exists ((c :: l') :: ls). split; reflexivity.
  Qed.
  Lemma split_code s : code_lines (split s) = code_lines (getlines s).
  Proof.
    destruct (split_lines s) as (_ & [->|(ls & -> & ->)]); [reflexivity|]. unfold code_lines. rewrite map_app, filter_app. cbn. rewrite app_nil_r. reflexivity.
  Qed.
  Definition hashed (l l' : text) : Prop := l = l' \/ exists c h, l = l' ++ h :: c /\ mem h ["#"; "["]%char = true.
  Lemma trim_hash s h c g : mem h g = true -> trim_trailing (s ++ h :: c) g = trim_trailing s g.
  Proof. intros H. induction s as [|x s IH]; cbn; [rewrite H; reflexivity|]. rewrite IH. reflexivity. Qed.
  Lemma hashed_strip l l' : hashed l l' -> strip l = strip l'.
  Proof. intros [->|(c & h & -> & H)]; [reflexivity|]. unfold strip. rewrite trim_hash by exact H. reflexivity. Qed.
  Lemma split_hash h c post : mem h ["#"; "["]%char = true -> ~ In nl c -> (post = [] \/ exists r, post = nl :: r) ->
    forall pre, Forall2 hashed (split (pre ++ h :: c ++ post)) (split (pre ++ post)).
  Proof.
    intros Hh Hc Hp. assert (F2 : forall l, Forall2 hashed l l) by (induction l; constructor; [left; reflexivity|assumption]).
    induction pre as [|x pre IH].
    - cbn [app split]. assert (Eh : Ascii.eqb h nl = false) by (destruct (Ascii.eqb_spec h nl) as [->|]; [discriminate|reflexivity]). rewrite Eh.
      assert (Es : forall s, ~ In nl s -> exists t, split (s ++ post) = (s ++ hd [] (split post)) :: t /\ tl (split post) = t).
      { induction s as [|a s IH]; intros Ha; cbn [app].
        - destruct Hp as [->|(r & ->)]; cbn; eauto.
        - destruct (IH ltac:(intros H; apply Ha; right; exact H)) as (t & E1 & E2). cbn [split]. assert (Ea : Ascii.eqb a nl = false) by (destruct (Ascii.eqb_spec a nl) as [->|]; [exfalso; apply Ha; left; reflexivity|reflexivity]).
          rewrite Ea, E1. eauto. }
      destruct (Es c Hc) as (t & E1 & E2). rewrite E1. destruct Hp as [->|(r & ->)]; cbn in E2 |- *; subst t; constructor; try apply F2; right; exists c, h; rewrite app_nil_r; split; try reflexivity; exact Hh.
    - cbn [app split]. destruct (Ascii.eqb x nl); [constructor; [left; reflexivity|exact IH]|].
      destruct (split (pre ++ h :: c ++ post)) as [|l1 t1]; inversion IH as [|? l2 ? t2 Hl Ht E1 E2]; subst; [constructor; [left; reflexivity|constructor]|].
      constructor; [|exact Ht]. destruct Hl as [->|(c0 & h0 & -> & H0)]; [left; reflexivity|right; exists c0, h0; split; [reflexivity|exact H0]].
  Qed.
  Lemma comment_ignored pre h c post : mem h ["#"; "["]%char = true -> ~ In nl c -> (post = [] \/ exists r, post = nl :: r) ->
    parse_config (pre ++ h :: c ++ post) = parse_config (pre ++ post).
  Proof.
    intros Hh Hc Hp. unfold Config.parse_config. rewrite (parse_code (getlines (pre ++ h :: c ++ post)) (getlines (pre ++ post))); [reflexivity|].
    rewrite <- !split_code. pose proof (split_hash h c post Hh Hc Hp pre) as HF. unfold code_lines. f_equal.
    induction HF as [|l l' r r' Hl Hr IH]; [reflexivity|]. cbn. rewrite (hashed_strip _ _ Hl), IH. reflexivity.
  Qed.
  (** Lines of a text put together. *)
  Lemma getlines_app l s : ~ In nl l -> getlines (l ++ nl :: s) = l :: getlines s.
  Proof.
    induction l as [|c l IH]; intros Hn; [reflexivity|]. cbn [app getlines]. destruct (Ascii.eqb_spec c nl) as [->|]; [exfalso; apply Hn; left; reflexivity|].
    rewrite IH by (intros H; apply Hn; right; exact H). reflexivity.
  Qed.
  Definition unlines (ls : list text) : text := List.concat (map (fun l => l ++ [nl]) ls).
  Lemma getlines_unlines ls : Forall (fun l => ~ In nl l) ls -> forall s, getlines (unlines ls ++ s) = ls ++ getlines s.
  Proof. induction 1 as [|l ls Hl Hls IH]; intros s; [reflexivity|]. unfold unlines. cbn [map List.concat]. rewrite <- !app_assoc. cbn [app]. rewrite getlines_app by exact Hl. rewrite IH. reflexivity. Qed.
End P.
