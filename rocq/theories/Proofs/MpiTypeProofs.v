(** Proofs about MPI datatypes. *)
From Coq Require Import List Arith Bool String Lia.
From Verif.Model Require Import MpiTypes.
From Verif.Spec Require Import MpiTypes.
From Verif.Proofs Require Import ListMemProofs ListExtra.
Import ListNotations.
Local Open Scope nat_scope.
Notation length := List.length.

(** ** Layouts *)
Definition total (b : build) (ms : list member) : nat := list_sum (map (m_size b) ms).
Fixpoint index_of (name : string) (ms : list member) : option nat :=
  match ms with [] => None | m :: r => if (m_name m =? name)%string then Some 0 else option_map S (index_of name r) end.

Lemma total_cons b m ms : total b (m :: ms) = m_size b m + total b ms.
Proof. reflexivity. Qed.
Lemma total_nil b : total b [] = 0.
Proof. reflexivity. Qed.

Section Layout.
  Variable b : build.
  Lemma laid_length : forall ms start offs extent, laid_out b start ms offs extent -> length offs = length ms.
  Proof. induction ms as [|m ms IH]; intros start [|o offs] extent H; cbn in *; try contradiction; [reflexivity|]. destruct H as [_ H]. f_equal. eapply IH, H. Qed.
  Lemma laid_end : forall ms start offs extent, laid_out b start ms offs extent -> start + total b ms <= extent.
  Proof.
    induction ms as [|m ms IH]; intros start [|o offs] extent H; cbn [laid_out] in H; try contradiction; [rewrite total_nil; lia|]. destruct H as [H1 H2]. apply IH in H2. rewrite total_cons. lia.
  Qed.
  (** Between member [k] and member [u] there are at least the members between. *)
  Lemma laid_gap : forall ms start offs extent k o, laid_out b start ms offs extent -> nth_error offs k = Some o -> start + total b (firstn k ms) <= o /\ o + total b (skipn k ms) <= extent.
  Proof.
    induction ms as [|m ms IH]; intros start [|o' offs] extent k o H Hk; cbn in H; try contradiction; [destruct k; discriminate|]. destruct H as [H1 H2]. destruct k as [|k]; cbn [nth_error] in Hk.
    - injection Hk as ->. cbn [firstn skipn]. rewrite total_nil, total_cons. apply laid_end in H2. lia.
    - destruct (IH _ _ _ _ _ H2 Hk) as [G1 G2]. cbn [firstn skipn]. rewrite total_cons. lia.
  Qed.
  Lemma laid_skip : forall k ms start offs extent o, laid_out b start ms offs extent -> nth_error offs k = Some o -> laid_out b o (skipn k ms) (skipn k offs) extent.
  Proof.
    induction k as [|k IH]; intros [|m ms] start [|o' offs] extent o H Hk; cbn in H; try contradiction; try discriminate; cbn [nth_error skipn] in *.
    - injection Hk as ->. cbn. split; [lia|apply H].
    - destruct H as [_ H]. eapply IH; eassumption.
  Qed.
  Lemma laid_between ms offs extent k u o o' : laid_out b 0 ms offs extent -> nth_error offs k = Some o -> nth_error offs u = Some o' -> k <= u -> o + total b (firstn (u - k) (skipn k ms)) <= o'.
  Proof.
    intros H Hk Hu Hle. pose proof (laid_skip k ms 0 offs extent o H Hk) as Hs. assert (Hu' : nth_error (skipn k offs) (u - k) = Some o') by (rewrite nth_skipn; replace (k + (u - k)) with u by lia; exact Hu).
    destruct (laid_gap _ _ _ _ _ _ Hs Hu') as [G _]. exact G.
  Qed.

  Lemma index_some : forall ms name k, index_of name ms = Some k -> exists m, nth_error ms k = Some m /\ m_name m = name.
  Proof.
    induction ms as [|m ms IH]; intros name k H; cbn in H; [discriminate|]. destruct (m_name m =? name)%string eqn:E.
    - injection H as <-. exists m. split; [reflexivity|apply String.eqb_eq, E].
    - destruct (index_of name ms) as [k'|] eqn:E'; [|discriminate]. injection H as <-. apply (IH name k' E').
  Qed.
  Lemma offset_index : forall ms offs name, length offs = length ms -> offset_of name ms offs = match index_of name ms with Some k => nth_error offs k | None => None end.
  Proof.
    induction ms as [|m ms IH]; intros [|o offs] name HL; cbn in *; try discriminate; [reflexivity|]. destruct (m_name m =? name)%string; [reflexivity|].
    injection HL as HL. rewrite (IH offs name HL). destruct (index_of name ms); reflexivity.
  Qed.

  Lemma map_some ms offs : length offs = length ms -> forall l, forallb (fun a => match index_of (a_name a) ms with Some _ => true | None => false end) l = true ->
    exists t, type_map b ms offs l = Some t /\ Forall2 (fun a e => exists k, index_of (a_name a) ms = Some k /\ nth_error offs k = Some (fst e) /\ snd e = a_size b a) l t.
  Proof.
    intros HL. induction l as [|a l IH]; intros H; cbn in *.
    - exists []. split; [reflexivity|constructor].
    - apply andb_true_iff in H. destruct H as [H1 H2]. destruct (IH H2) as (t & Et & Ft). rewrite Et, (offset_index ms offs _ HL). destruct (index_of (a_name a) ms) as [k|] eqn:Ek; [|discriminate].
      destruct (index_some _ _ _ Ek) as (m & Hm & _). apply nth_error_lt in Hm. destruct (nth_error_in_range offs k ltac:(lia)) as [o Ho]. rewrite Ho.
      exists ((o, a_size b a) :: t). split; [reflexivity|]. constructor; [exists k; auto|exact Ft].
  Qed.
End Layout.

(** ** Transfer *)
Lemma nth_map_combine {B} (f : nat -> B -> B -> B) : forall (src dst : list B) a p x y, length src = length dst -> nth_error src p = Some x -> nth_error dst p = Some y ->
  nth_error (map (fun z => f (fst z) (fst (snd z)) (snd (snd z))) (combine (seq a (length src)) (combine src dst))) p = Some (f (a + p) x y).
Proof.
  induction src as [|x0 src IH]; intros [|y0 dst] a p x y HL Hx Hy; try discriminate; [destruct p; discriminate|]. cbn [length seq combine map]. destruct p as [|p]; cbn [nth_error] in *.
  - injection Hx as ->. injection Hy as ->. rewrite Nat.add_0_r. reflexivity.
  - rewrite (IH dst (S a) p x y); [|cbn in HL; lia|assumption|assumption]. f_equal. f_equal. lia.
Qed.

Lemma transfer_some {B} t (src dst : list B) : length src = length dst -> (forall e, In e t -> fst e + snd e <= length src) ->
  exists d, transfer t src dst = Some d /\ length d = length dst /\ forall p, nth_error d p = if existsb (covers p) t then nth_error src p else nth_error dst p.
Proof.
  intros HL Ht. unfold transfer. replace (length src =? length dst) with true by (symmetry; apply Nat.eqb_eq, HL).
  replace (forallb _ t) with true. 2:{ symmetry. apply forallb_forall. intros e He. apply Nat.leb_le, Ht, He. }
  cbn [andb]. eexists. split; [reflexivity|]. split. { rewrite map_length, !combine_length, seq_length. lia. }
  intros p. destruct (Nat.lt_ge_cases p (length src)) as [Hp|Hp].
  - destruct (nth_error_in_range src p Hp) as [x Hx]. destruct (nth_error_in_range dst p ltac:(lia)) as [y Hy].
    rewrite (nth_map_combine (fun q u v => if existsb (covers q) t then u else v) src dst 0 p x y HL Hx Hy). cbn [Nat.add]. rewrite Hx, Hy. destruct (existsb (covers p) t); reflexivity.
  - replace (nth_error src p) with (@None B) by (symmetry; apply nth_error_None; lia). replace (nth_error dst p) with (@None B) by (symmetry; apply nth_error_None; lia).
    destruct (existsb (covers p) t); apply nth_error_None; rewrite map_length, !combine_length, seq_length; lia.
Qed.

Lemma part_eq {B} o n (l l' : list B) : (forall p, o <= p < o + n -> nth_error l p = nth_error l' p) -> part o n l = part o n l'.
Proof.
  intros H. apply nth_error_ext. intros i. unfold part. rewrite !nth_firstn, !nth_skipn. destruct (i <? n) eqn:E; [|reflexivity]. apply Nat.ltb_lt in E. apply H. lia.
Qed.

(** ** A check that needs no layout *)
Definition reach (b : build) (ms : list member) (k u : nat) : nat := total b (firstn (u - k) (skipn k ms)).
Definition attr_ok (b : build) (ms : list member) (kept : string -> bool) (a : attr) : bool :=
  match index_of (a_name a) ms with
  | None => false
  | Some k => (a_size b a <=? total b (skipn k ms)) &&
      forallb (fun u => match nth_error ms u with Some m => negb (kept (m_name m)) || (u <? k) || (a_size b a <=? reach b ms k u) | None => true end) (seq 0 (length ms))
  end.
Definition sent_ok (b : build) (s : struct) (sent : string -> bool) : bool :=
  forallb (fun k => match nth_error (members s) k with
    | Some m => negb (sent (m_name m)) || existsb (fun a => match index_of (a_name a) (members s) with Some k' => (k' =? k) && (m_size b m <=? a_size b a) | None => false end) (attrs s)
    | None => true end) (seq 0 (length (members s))).
Definition check (b : build) (s : struct) (sent kept : string -> bool) : bool := forallb (attr_ok b (members s) kept) (attrs s) && sent_ok b s sent.

Lemma in_combine_nth {A C} : forall (l : list A) (l' : list C) x y, In (x, y) (combine l l') -> exists i, nth_error l i = Some x /\ nth_error l' i = Some y.
Proof.
  induction l as [|a l IH]; intros [|c l'] x y H; cbn in H; try contradiction. destruct H as [H|H]; [injection H as -> ->; exists 0; auto|]. destruct (IH _ _ _ H) as (i & Hi). exists (S i). exact Hi.
Qed.
Lemma Forall2_in_r {A C} (R : A -> C -> Prop) l l' y : Forall2 R l l' -> In y l' -> exists x, In x l /\ R x y.
Proof. induction 1 as [|x z l l' Hxz _ IH]; intros Hy; [contradiction|]. destruct Hy as [<-|Hy]; [exists x; cbn; auto|]. destruct (IH Hy) as (x' & Hx' & HR). exists x'. cbn. auto. Qed.
Lemma Forall2_in_l {A C} (R : A -> C -> Prop) l l' x : Forall2 R l l' -> In x l -> exists y, In y l' /\ R x y.
Proof. induction 1 as [|z y l l' Hxz _ IH]; intros Hx; [contradiction|]. destruct Hx as [<-|Hx]; [exists y; cbn; auto|]. destruct (IH Hx) as (y' & Hy' & HR). exists y'. cbn. auto. Qed.

Lemma check_arrives b s sent kept : check b s sent kept = true -> arrives b s sent kept.
Proof.
  intros HC B offs extent src dst HLay Hs Hd. apply andb_true_iff in HC. destruct HC as [HA HS]. pose proof (laid_length b _ _ _ _ HLay) as HL.
  rewrite forallb_forall in HA. assert (Hidx : forallb (fun a => match index_of (a_name a) (members s) with Some _ => true | None => false end) (attrs s) = true).
  { apply forallb_forall. intros a Ha. specialize (HA a Ha). unfold attr_ok in HA. destruct (index_of (a_name a) (members s)); [reflexivity|discriminate]. }
  destruct (map_some b (members s) offs HL (attrs s) Hidx) as (t & Et & Ft). exists t.
  assert (Hent : forall e, In e t -> exists a k, In a (attrs s) /\ index_of (a_name a) (members s) = Some k /\ nth_error offs k = Some (fst e) /\ snd e = a_size b a /\
    a_size b a <= total b (skipn k (members s)) /\ forall u m, nth_error (members s) u = Some m -> kept (m_name m) = true -> k <= u -> a_size b a <= reach b (members s) k u).
  { intros e He. destruct (Forall2_in_r _ _ _ _ Ft He) as (a & Ha & k & Hk & Ho & Hn). exists a, k. specialize (HA a Ha). unfold attr_ok in HA. rewrite Hk in HA. apply andb_true_iff in HA. destruct HA as [H1 H2].
    repeat split; auto; [apply Nat.leb_le, H1|]. intros u m Hm Hkept Hle. rewrite forallb_forall in H2. specialize (H2 u ltac:(apply in_seq; apply nth_error_lt in Hm; lia)). cbn beta in H2. rewrite Hm, Hkept in H2.
    cbn [negb orb] in H2. apply orb_true_iff in H2. destruct H2 as [H2|H2]; [apply Nat.ltb_lt in H2; lia|apply Nat.leb_le, H2]. }
  destruct (transfer_some t src dst ltac:(congruence)) as (d & Ed & Ld & Hd').
  { intros e He. destruct (Hent e He) as (a & k & _ & _ & Ho & Hn & Hle & _). destruct (laid_gap b _ _ _ _ _ _ HLay Ho) as [_ G]. lia. }
  exists d. split; [exact Et|]. split; [exact Ed|]. split; [congruence|]. intros m o Hmo. destruct (in_combine_nth _ _ _ _ Hmo) as (u & Hm & Ho). split.
  - intros Hsent. apply part_eq. intros p Hp. rewrite Hd'. replace (existsb (covers p) t) with true; [reflexivity|]. symmetry. apply existsb_exists. unfold sent_ok in HS. rewrite forallb_forall in HS.
    specialize (HS u ltac:(apply in_seq; apply nth_error_lt in Hm; lia)). cbn beta in HS. rewrite Hm, Hsent in HS. cbn [negb orb] in HS. apply existsb_exists in HS. destruct HS as (a & Ha & Hak).
    destruct (Forall2_in_l _ _ _ _ Ft Ha) as (e & He & k & Hk & Hoe & Hn). rewrite Hk in Hak. apply andb_true_iff in Hak. destruct Hak as [H1 H2]. apply Nat.eqb_eq in H1. subst k. apply Nat.leb_le in H2.
    rewrite Ho in Hoe. injection Hoe as Hoe. exists e. split; [exact He|]. unfold covers. rewrite Hn. apply andb_true_iff. split; [apply Nat.leb_le|apply Nat.ltb_lt]; lia.
  - intros Hkept. apply part_eq. intros p Hp. rewrite Hd'. replace (existsb (covers p) t) with false; [reflexivity|]. symmetry. apply not_true_iff_false. intros HE. apply existsb_exists in HE.
    destruct HE as (e & He & Hc). destruct (Hent e He) as (a & k & _ & Hki & Hoe & Hn & _ & Hreach). unfold covers in Hc. apply andb_true_iff in Hc. destruct Hc as [C1 C2]. apply Nat.leb_le in C1. apply Nat.ltb_lt in C2.
    destruct (Nat.le_gt_cases k u) as [Hle|Hgt].
    + specialize (Hreach u m Hm Hkept Hle). pose proof (laid_between b _ _ _ _ _ _ _ HLay Hoe Ho Hle) as G. unfold reach in Hreach. lia.
    + pose proof (laid_between b _ _ _ _ _ _ _ HLay Ho Hoe ltac:(lia)) as G. assert (m_size b m <= total b (firstn (k - u) (skipn u (members s)))); [|lia].
      destruct (k - u) as [|n] eqn:En; [lia|]. rewrite (skipn_cons u (members s) m Hm). cbn [firstn]. rewrite total_cons. lia.
Qed.

(** ** Legality *)
Definition legal_check (b : build) (s : struct) : bool :=
  forallb (fun a => match index_of (a_name a) (members s) with
    | Some k => match nth_error (members s) k with
                | Some m => (match m_type m, c_of (a_type a) with HBTInt, HBTInt | HBTReal, HBTReal | Float, Float | Int, Int | Unsigned, Unsigned | Double, Double => true | _, _ => false end) && (a_count a <=? m_count m)
                | None => false end
    | None => false end) (attrs s).
Lemma same_index_name ms n n' k : index_of n ms = Some k -> index_of n' ms = Some k -> n = n'.
Proof. intros H H'. destruct (index_some _ _ _ H) as (m & Hm & <-). destruct (index_some _ _ _ H') as (m' & Hm' & <-). congruence. Qed.
Lemma Forall2_nth_r {A C} (R : A -> C -> Prop) : forall l l' i y, Forall2 R l l' -> nth_error l' i = Some y -> exists x, nth_error l i = Some x /\ R x y.
Proof. intros l l' i y H. revert i. induction H as [|x z l l' Hxz _ IH]; intros [|i] Hy; try discriminate; cbn in *; [injection Hy as <-; exists x; auto|apply IH, Hy]. Qed.

Lemma check_legal b s : legal_check b s = true -> NoDup (map a_name (attrs s)) -> legal b s.
Proof.
  intros HC HN. unfold legal_check in HC. rewrite forallb_forall in HC.
  assert (Hm : forall a, In a (attrs s) -> exists k m, index_of (a_name a) (members s) = Some k /\ nth_error (members s) k = Some m /\ m_type m = c_of (a_type a) /\ a_count a <= m_count m).
  { intros a Ha. specialize (HC a Ha). cbn beta in HC. destruct (index_of (a_name a) (members s)) as [k|]; [|discriminate]. destruct (nth_error (members s) k) as [m|] eqn:Em; [|discriminate]. exists k, m.
    apply andb_true_iff in HC. destruct HC as [H1 H2]. repeat split; auto; [|apply Nat.leb_le, H2]. destruct (m_type m), (a_type a); cbn in *; congruence. }
  split.
  - intros a Ha. destruct (Hm a Ha) as (k & m & Hk & Hkm & Ht & Hc). exists m. destruct (index_some _ _ _ Hk) as (m' & Hm' & Hn). rewrite Hkm in Hm'. injection Hm' as <-.
    repeat split; auto. eapply nth_error_In, Hkm.
  - intros offs extent t HLay Et i j e e' p Hi Hj Hp Hp'. pose proof (laid_length b _ _ _ _ HLay) as HL.
    destruct (map_some b (members s) offs HL (attrs s)) as (t' & Et' & Ft). { apply forallb_forall. intros a Ha. destruct (Hm a Ha) as (k & m & Hk & _). rewrite Hk. reflexivity. }
    rewrite Et in Et'. injection Et' as <-.
    destruct (Forall2_nth_r _ _ _ _ _ Ft Hi) as (a & Hai & k & Hk & Ho & Hn). destruct (Forall2_nth_r _ _ _ _ _ Ft Hj) as (a' & Haj & k' & Hk' & Ho' & Hn').
    assert (Hb : forall a k o m, In a (attrs s) -> index_of (a_name a) (members s) = Some k -> nth_error (members s) k = Some m -> nth_error offs k = Some o -> a_size b a <= m_size b m).
    { intros a0 k0 o0 m0 Ha0 Hk0 Hm0 _. destruct (Hm a0 Ha0) as (k1 & m1 & Hk1 & Hm1 & Ht & Hc). rewrite Hk0 in Hk1. injection Hk1 as <-. rewrite Hm0 in Hm1. injection Hm1 as <-.
      unfold a_size, m_size. rewrite Ht. apply Nat.mul_le_mono_l, Hc. }
    assert (Hlt : forall a a' k k' (e e' : nat * nat), In a (attrs s) -> In a' (attrs s) -> index_of (a_name a) (members s) = Some k -> index_of (a_name a') (members s) = Some k' -> nth_error offs k = Some (fst e) -> nth_error offs k' = Some (fst e') ->
      snd e = a_size b a -> k < k' -> fst e <= p < fst e + snd e -> fst e' <= p -> False).
    { intros a0 a1 k0 k1 e0 e1 Ha0 Ha1 Hk0 Hk1 Ho0 Ho1 Hn0 Hlt Hp0 Hp1. destruct (Hm a0 Ha0) as (k2 & m & Hk2 & Hkm & _). rewrite Hk0 in Hk2. injection Hk2 as <-.
      pose proof (Hb a0 k0 (fst e0) m Ha0 Hk0 Hkm Ho0). pose proof (laid_between b _ _ _ _ _ _ _ HLay Ho0 Ho1 ltac:(lia)) as G.
      assert (m_size b m <= total b (firstn (k1 - k0) (skipn k0 (members s)))); [|lia]. destruct (k1 - k0) as [|n] eqn:En; [lia|]. rewrite (skipn_cons k0 (members s) m Hkm). cbn [firstn]. rewrite total_cons. lia. }
    pose proof (nth_error_In _ _ Hai) as Ia. pose proof (nth_error_In _ _ Haj) as Ja. destruct (Nat.lt_trichotomy k k') as [H|[H|H]].
    + exfalso. apply (Hlt a a' k k' e e'); auto. lia.
    + subst k'. pose proof (same_index_name _ _ _ _ Hk Hk') as En. apply (proj1 (NoDup_nth_error (map a_name (attrs s))) HN).
      * rewrite map_length. eapply nth_error_lt, Hai.
      * rewrite (map_nth_error a_name _ _ Hai), (map_nth_error a_name _ _ Haj), En. reflexivity.
    + exfalso. apply (Hlt a' a k' k e' e); auto. lia.
Qed.

Fixpoint distinct (l : list string) : bool := match l with [] => true | x :: r => negb (existsb (String.eqb x) r) && distinct r end.
Lemma distinct_ok : forall l, distinct l = true -> NoDup l.
Proof.
  induction l as [|x l IH]; intros H; [constructor|]. cbn in H. apply andb_true_iff in H. destruct H as [H1 H2]. constructor; [|apply IH, H2].
  intros Hx. apply negb_true_iff in H1. rewrite <- not_true_iff_false, existsb_exists in H1. apply H1. exists x. split; [exact Hx|apply String.eqb_refl].
Qed.
