(** Proofs about HDF5 compound types. *)
From Coq Require Import List Arith ZArith Bool String Lia.
From Verif.Model Require Import MpiTypes HdfTypes.
From Verif.Spec Require Import MpiTypes HdfTypes.
From Verif.Proofs Require Import ListMemProofs ListExtra MpiTypeProofs.
Import ListNotations.
Local Open Scope nat_scope.
Notation length := List.length.

Lemma size_member b f : m_size b (as_member f) = f_size b f.
Proof. reflexivity. Qed.

(** ** Leaving out members leaves a layout *)
Fixpoint keep {A} (p : member -> bool) (ms : list member) (l : list A) : list A :=
  match ms, l with m :: ms, a :: l => if p m then a :: keep p ms l else keep p ms l | _, _ => [] end.
Lemma laid_later b : forall ms start start' offs extent, start' <= start -> laid_out b start ms offs extent -> laid_out b start' ms offs extent.
Proof. intros [|m ms] start start' [|o offs] extent Hle H; cbn in *; try contradiction; [lia|]. destruct H as [H1 H2]. split; [lia|exact H2]. Qed.
Lemma laid_keep b p : forall ms start offs extent, laid_out b start ms offs extent -> laid_out b start (filter p ms) (keep p ms offs) extent.
Proof.
  induction ms as [|m ms IH]; intros start [|o offs] extent H; cbn [laid_out] in H; try contradiction; [exact H|]. destruct H as [H1 H2]. cbn [filter keep]. destruct (p m).
  - split; [exact H1|apply IH; exact H2].
  - apply (laid_later b _ (o + m_size b m)); [lia|]. apply IH. exact H2.
Qed.
Lemma keep_combine {A} p : forall ms (l : list A) m a, length l = length ms -> In (m, a) (combine (filter p ms) (keep p ms l)) <-> In (m, a) (combine ms l) /\ p m = true.
Proof.
  induction ms as [|m0 ms IH]; intros [|a0 l] m a HL; cbn in HL; try discriminate; [cbn; tauto|]. injection HL as HL. cbn [filter keep combine]. destruct (p m0) eqn:Ep; cbn [combine In]; rewrite (IH l m a HL).
  - split; [intros [E|[H1 H2]]; [injection E as -> ->; auto|auto]|]. intros [[E|H] Hp]; auto.
  - split; [intros [H1 H2]; auto|]. intros [[E|H] Hp]; [injection E as -> ->; congruence|auto].
Qed.
Lemma keep_length {A} p : forall ms (l : list A), length l = length ms -> length (keep p ms l) = length (filter p ms).
Proof. induction ms as [|m ms IH]; intros [|a l] HL; cbn in *; try discriminate; [reflexivity|]. injection HL as HL. destruct (p m); cbn; rewrite (IH l HL); reflexivity. Qed.

Lemma offset_in : forall ms (offs : list nat) m o, NoDup (map m_name ms) -> In (m, o) (combine ms offs) -> offset_of (m_name m) ms offs = Some o.
Proof.
  induction ms as [|m0 ms IH]; intros [|o0 offs] m o ND H; cbn in H; try contradiction. cbn [map] in ND. apply NoDup_cons_iff in ND as [Hn ND]. cbn [offset_of]. destruct H as [H|H].
  - injection H as -> ->. rewrite String.eqb_refl. reflexivity.
  - destruct (m_name m0 =? m_name m)%string eqn:E; [|apply IH; assumption]. apply String.eqb_eq in E. exfalso. apply Hn. rewrite E. apply in_map. apply (in_combine_l _ _ _ _ H).
Qed.

(** ** Insertion *)
Lemma insert_appends b ms offs extent : forall fs os start acc,
  laid_out b start (map as_member fs) os extent -> NoDup (map (fun e => f_name (fst e)) acc ++ map f_name fs) ->
  (forall e, In e acc -> snd e + f_size b (fst e) <= start) ->
  (forall f o, In (f, o) (combine fs os) -> offset_of (f_name f) ms offs = Some o) ->
  insert_members b ms offs extent fs acc = Some (acc ++ combine fs os).
Proof.
  induction fs as [|f fs IH]; intros [|o os] start acc HL ND Hacc Ho; cbn [map laid_out] in HL; try contradiction; [cbn; rewrite app_nil_r; reflexivity|]. destruct HL as [H1 H2]. cbn [insert_members combine].
  rewrite (Ho f o) by (left; reflexivity).
  assert (E : H5Tinsert b extent acc (f, o) = acc ++ [(f, o)]).
  { unfold H5Tinsert. cbn [fst snd]. replace (existsb _ acc) with false.
    - pose proof (laid_end b _ _ _ _ H2) as HE. rewrite size_member in HE. destruct (Nat.ltb_spec extent (o + f_size b f)); [lia|reflexivity].
    - symmetry. apply not_true_iff_false. intros HE. apply existsb_exists in HE as (e & He & HE). apply orb_true_iff in HE as [HE|HE].
      + apply String.eqb_eq in HE. cbn [map] in ND. apply NoDup_remove_2 in ND. apply ND. apply in_app_iff. left. rewrite <- HE. apply (in_map (fun e => f_name (fst e))). exact He.
      + apply andb_true_iff in HE as [_ HE]. apply Nat.ltb_lt in HE. specialize (Hacc e He). lia. }
  rewrite E. rewrite (IH os (o + f_size b f) (acc ++ [(f, o)])).
  - rewrite <- app_assoc. reflexivity.
  - rewrite size_member in H2. exact H2.
  - rewrite map_app, <- app_assoc. cbn [map app fst]. exact ND.
  - intros e He. apply in_app_iff in He as [He|[<-|[]]]; [specialize (Hacc e He); lia|cbn; lia].
  - intros f' o' H. apply Ho. right. exact H.
Qed.

Lemma sort_ascending b : forall fs os start extent, laid_out b start (map as_member fs) os extent ->
  sort_members (combine fs os) = combine fs os /\ forall e, In e (combine fs os) -> start <= snd e.
Proof.
  induction fs as [|f fs IH]; intros [|o os] start extent HL; cbn [map laid_out] in HL; try contradiction; [split; [reflexivity|intros e []]|]. destruct HL as [H1 H2].
  destruct (IH _ _ _ H2) as [I1 I2]. cbn [combine]. split.
  - unfold sort_members in *. cbn [fold_right]. rewrite I1. destruct (combine fs os) as [|e r] eqn:E; [reflexivity|]. cbn [by_offset snd]. specialize (I2 e (or_introl eq_refl)). destruct (Nat.leb_spec o (snd e)); [reflexivity|lia].
  - intros e [<-|He]; [exact H1|]. specialize (I2 e He). lia.
Qed.
Lemma map_fst_combine {A C} : forall (l : list A) (l' : list C), length l = length l' -> map fst (combine l l') = l.
Proof. induction l as [|x l IH]; intros [|y l'] H; cbn in *; try discriminate; [reflexivity|]. rewrite IH by lia. reflexivity. Qed.
Lemma pack_gapless b : forall fs start, gapless b start (pack b start fs).
Proof. induction fs as [|f fs IH]; intros start; cbn [pack gapless]; [exact I|]. split; [reflexivity|]. rewrite size_member. apply IH. Qed.
Lemma pack_fields b : forall fs start, map fst (pack b start fs) = fs.
Proof. induction fs as [|f fs IH]; intros start; cbn [pack map fst]; [reflexivity|]. rewrite IH. reflexivity. Qed.

(** ** The record *)
Section Bytes.
  Context {B : Type}.
  Lemma bytes_part o n (l : list B) : bytes_at o n l = part o n l.
  Proof. reflexivity. Qed.
  Lemma part_length o n (l : list B) : o + n <= length l -> length (part o n l) = n.
  Proof. intros H. unfold part. rewrite firstn_length, skipn_length. lia. Qed.
  Lemma part_skip (pre l : list B) o n : length pre <= o -> part o n (pre ++ l) = part (o - length pre) n l.
  Proof. intros H. unfold part. rewrite skipn_app. rewrite (skipn_all2 pre) by exact H. reflexivity. Qed.
  Lemma part_here (l r : list B) : part 0 (length l) (l ++ r) = l.
  Proof. unfold part. cbn [skipn]. rewrite firstn_app, Nat.sub_diag, firstn_all. cbn [firstn]. apply app_nil_r. Qed.

  Lemma record_field b (src : list B) : forall fs os start extent base, laid_out b start (map as_member fs) os extent -> extent <= length src -> NoDup (map f_name fs) ->
    forall f o, In (f, o) (combine fs os) -> exists fo, find_field (f_name f) (pack b base fs) = Some (f, fo) /\ base <= fo /\
      part (fo - base) (f_size b f) (flat_map (fun e => bytes_at (snd e) (f_size b (fst e)) src) (combine fs os)) = part o (f_size b f) src.
  Proof.
    induction fs as [|g fs IH]; intros [|o' os] start extent base HL Hext ND f o Hin; cbn [map laid_out] in HL; try contradiction. destruct HL as [H1 H2]. cbn [map] in ND. apply NoDup_cons_iff in ND as [Hng ND].
    cbn [combine flat_map pack fst snd]. rewrite bytes_part. pose proof (laid_end b _ _ _ _ H2) as HE. rewrite size_member in HE. assert (Hlen : length (part o' (f_size b g) src) = f_size b g) by (apply part_length; lia).
    unfold find_field. cbn [find fst]. cbn [combine In] in Hin. destruct (f_name g =? f_name f)%string eqn:En.
    - destruct Hin as [Hin|Hin]; [|exfalso; apply Hng; apply String.eqb_eq in En; rewrite En; apply in_map; apply (in_combine_l _ _ _ _ Hin)]. injection Hin as -> ->.
      exists base. split; [reflexivity|]. split; [lia|]. rewrite Nat.sub_diag. transitivity (part 0 (length (part o (f_size b f) src)) (part o (f_size b f) src ++ flat_map (fun e => bytes_at (snd e) (f_size b (fst e)) src) (combine fs os))); [rewrite Hlen; reflexivity|apply part_here].
    - destruct Hin as [Hin|Hin]; [injection Hin as -> ->; rewrite String.eqb_refl in En; discriminate|].
      destruct (IH os (o' + f_size b g) extent (base + f_size b g) H2 Hext ND f o Hin) as (fo & E1 & E2 & E3). exists fo. split; [exact E1|]. split; [lia|].
      rewrite part_skip by (rewrite Hlen; lia). rewrite Hlen. replace (fo - base - f_size b g) with (fo - (base + f_size b g)) by lia. exact E3.
  Qed.
  Lemma find_none name b fs base : ~ In name (map f_name fs) -> find_field name (pack b base fs) = None.
  Proof.
    revert base. induction fs as [|f fs IH]; intros base H; [reflexivity|]. unfold find_field. cbn [pack find fst]. destruct (f_name f =? name)%string eqn:E; [apply String.eqb_eq in E; exfalso; apply H; left; exact E|].
    apply IH. intros Hin. apply H. right. exact Hin.
  Qed.

  (** ** Storing *)
  Lemma store_length o (bytes dst : list B) : o + length bytes <= length dst -> length (store o bytes dst) = length dst.
  Proof. intros H. unfold store. rewrite !app_length, firstn_length, skipn_length. lia. Qed.
  Lemma store_same o (bytes dst : list B) : o + length bytes <= length dst -> part o (length bytes) (store o bytes dst) = bytes.
  Proof. intros H. unfold store. rewrite part_skip by (rewrite firstn_length; lia). rewrite firstn_length. replace (o - Nat.min o (length dst)) with 0 by lia. apply part_here. Qed.
  Lemma store_other o (bytes dst : list B) q n : o + length bytes <= length dst -> q + n <= o \/ o + length bytes <= q -> part q n (store o bytes dst) = part q n dst.
  Proof.
    intros H Hd. apply part_eq. intros p Hp. unfold store. destruct Hd as [Hd|Hd].
    - rewrite nth_error_app1 by (rewrite firstn_length; lia). rewrite nth_firstn. destruct (Nat.ltb_spec p o); [reflexivity|lia].
    - rewrite nth_error_app2 by (rewrite firstn_length; lia). rewrite nth_error_app2 by (rewrite firstn_length; lia). rewrite nth_skipn, firstn_length. f_equal. lia.
  Qed.
End Bytes.

Section Read.
  Context {B : Type}.
  Variable conv : h5type -> build -> build -> list B -> list B.
  Variable b b' : build.
  Variable fs : list field.
  Variable os : list nat.
  Variable extent : nat.
  Variable src : list B.
  Hypothesis Hconv : forall t l, length l mod csize b (ctype_of t) = 0 -> length (conv t b b' l) = csize b' (ctype_of t) * (length l / csize b (ctype_of t)).
  Hypothesis HL : laid_out b 0 (map as_member fs) os extent.
  Hypothesis Hext : extent <= length src.
  Hypothesis ND : NoDup (map f_name fs).
  Let record := flat_map (fun e => bytes_at (snd e) (f_size b (fst e)) src) (combine fs os).
  Let file := pack b 0 fs.

  Lemma csize_pos (bb : build) t : 0 < csize bb (ctype_of t).
  Proof. destruct t; cbn; [destruct (int8 bb)|destruct (real8 bb)| |]; lia. Qed.
  Lemma convert_length f o : In (f, o) (combine fs os) -> length (convert conv (f_type f) b b' (part o (f_size b f) src)) = f_size b' f.
  Proof using All.
    intros Hin. assert (Hp : length (part o (f_size b f) src) = f_size b f).
    { destruct (in_combine_nth _ _ _ _ Hin) as (i & Hi & Ho). destruct (laid_gap b _ _ _ _ _ _ HL Ho) as [_ G]. rewrite (skipn_cons i _ (as_member f)) in G by (rewrite nth_error_map, Hi; reflexivity).
      rewrite total_cons, size_member in G. apply part_length. lia. }
    unfold convert. destruct (Nat.eqb_spec (csize b (ctype_of (f_type f))) (csize b' (ctype_of (f_type f)))) as [E|E]; [rewrite Hp; unfold f_size; rewrite E; reflexivity|].
    pose proof (csize_pos b (f_type f)). rewrite Hconv.
    - rewrite Hp. unfold f_size. rewrite Nat.mul_comm, (Nat.mul_comm (csize b _)), Nat.div_mul by lia. lia.
    - rewrite Hp. unfold f_size. rewrite Nat.mul_comm. apply Nat.mod_mul. lia.
  Qed.

  (** The fields read have the shape they have in the file. *)
  Lemma read_ok : forall gs qs start extent' dst, laid_out b' start (map as_member gs) qs extent' -> length dst = extent' ->
    (forall g f, In g gs -> In f fs -> f_name g = f_name f -> g = f) ->
    exists dst', read_record conv b b' file record (combine gs qs) dst = Some dst' /\ length dst' = length dst /\
      (forall f o q, In (f, q) (combine gs qs) -> In (f, o) (combine fs os) -> part q (f_size b' f) dst' = convert conv (f_type f) b b' (part o (f_size b f) src)) /\
      (forall q n, (forall g q', In (g, q') (combine gs qs) -> In (f_name g) (map f_name fs) -> q + n <= q' \/ q' + f_size b' g <= q) -> part q n dst' = part q n dst).
  Proof using All.
    induction gs as [|g gs IH]; intros [|q qs] start extent' dst HG Hd Hsame; cbn [map laid_out] in HG; try contradiction.
    - exists dst. cbn [combine read_record]. split; [reflexivity|]. split; [reflexivity|]. split; [intros f o q []|reflexivity].
    - destruct HG as [G1 G2]. cbn [combine read_record]. pose proof (laid_end b' _ _ _ _ G2) as HE. rewrite size_member in HE, G2.
      assert (Hafter : forall g' q', In (g', q') (combine gs qs) -> q + f_size b' g <= q').
      { intros g' q' Hin. destruct (sort_ascending b' _ _ _ _ G2) as [_ Hs]. apply (Hs (g', q')). exact Hin. }
      destruct (in_dec string_dec (f_name g) (map f_name fs)) as [Hin|Hout].
      + apply in_map_iff in Hin as (f & Ef & Hf). pose proof (Hsame g f (or_introl eq_refl) Hf (eq_sym Ef)) as E. subst f.
        assert (Hlen : length os = length fs) by (rewrite (laid_length b _ _ _ _ HL), map_length; reflexivity).
        assert (Ho : exists o, In (g, o) (combine fs os)). { apply In_nth_error in Hf as (i & Hi). destruct (nth_error_in_range os i) as [o Ho]; [apply nth_error_lt in Hi; lia|]. exists o. clear - Hi Ho. revert os i Hi Ho. induction fs as [|x l IH]; intros [|y l'] [|i] Hi Ho; cbn in *; try discriminate; [left; congruence|right; eapply IH; eassumption]. }
        destruct Ho as (o & Ho). destruct (record_field b src fs os 0 extent 0 HL Hext ND g o Ho) as (fo & E1 & E2 & E3). unfold file, record. rewrite E1.
        assert (Ess : same_shape g g = true) by (unfold same_shape; destruct (list_eq_dec Nat.eq_dec (f_dims g) (f_dims g)); [destruct (f_type g); reflexivity|congruence]). rewrite Ess.
        rewrite bytes_part. rewrite Nat.sub_0_r in E3. rewrite E3. set (v := convert conv (f_type g) b b' (part o (f_size b g) src)). assert (Hv : length v = f_size b' g) by (apply convert_length; exact Ho).
        assert (Hfit : q + length v <= length dst) by (rewrite Hv; lia).
        destruct (IH qs (q + f_size b' g) extent' (store q v dst) G2) as (dst' & I1 & I2 & I3 & I4); [rewrite store_length; assumption|intros g' f' Hg' Hf' En; apply Hsame; [right; exact Hg'|exact Hf'|exact En]|].
        exists dst'. split; [exact I1|]. split; [rewrite I2; apply store_length; exact Hfit|]. split.
        * intros f' o' q' [Hh|Ht] Ho'; [|apply I3; assumption]. injection Hh as <- <-. assert (o' = o).
          { pose proof (record_field b src fs os 0 extent 0 HL Hext ND). clear - ND Ho Ho'. revert os Ho Ho' ND. induction fs as [|x l IH]; intros [|y l'] Ho Ho' ND; cbn in *; try contradiction. apply NoDup_cons_iff in ND as [Hx ND].
            destruct Ho as [Ho|Ho], Ho' as [Ho'|Ho']; [congruence| | |eapply IH; eassumption].
            - injection Ho as -> ->. exfalso. apply Hx. apply in_map. apply (in_combine_l _ _ _ _ Ho').
            - injection Ho' as -> ->. exfalso. apply Hx. apply in_map. apply (in_combine_l _ _ _ _ Ho). }
          subst o'. rewrite I4; [rewrite <- Hv; apply store_same; exact Hfit|]. intros g' q' Hin _. left. apply (Hafter g'). exact Hin.
        * intros q' n Hdis. rewrite I4 by (intros g' q'' Hin Hn; apply (Hdis g' q''); [right; exact Hin|exact Hn]). apply store_other; [exact Hfit|]. rewrite Hv. apply (Hdis g q (or_introl eq_refl)). apply in_map. exact Hf.
      + unfold file. rewrite (find_none _ b fs 0 Hout). destruct (IH qs (q + f_size b' g) extent' dst G2 Hd) as (dst' & I1 & I2 & I3 & I4); [intros g' f' Hg' Hf' En; apply Hsame; [right; exact Hg'|exact Hf'|exact En]|].
        exists dst'. split; [exact I1|]. split; [exact I2|]. split.
        * intros f' o' q' [Hh|Ht] Ho'; [|apply I3; assumption]. injection Hh as <- <-. exfalso. apply Hout. apply in_map. apply (in_combine_l _ _ _ _ Ho').
        * intros q' n Hdis. apply I4. intros g' q'' Hin Hn. apply (Hdis g' q''); [right; exact Hin|exact Hn].
  Qed.
End Read.
