From Coq Require Import List ZArith Bool String Ascii DecimalString DecimalFacts DecimalPos DecimalZ Decimal Lia.
From Verif.Model Require Import FileNames.
Import ListNotations.
Local Open Scope string_scope.

(** * Strings *)
Lemma app_inv_l s a b : s ++ a = s ++ b -> a = b.
Proof. induction s as [|c s IH]; cbn; intros H; [exact H|]. apply IH. congruence. Qed.
Lemma app_assoc_s a b c : (a ++ b) ++ c = a ++ b ++ c.
Proof. induction a as [|x a IH]; [reflexivity|]. cbn. rewrite IH. reflexivity. Qed.
Lemma app_len a b : String.length (a ++ b) = (String.length a + String.length b)%nat.
Proof. induction a as [|x a IH]; [reflexivity|]. cbn. rewrite IH. reflexivity. Qed.
Lemma app_same_len a : forall b x y, String.length a = String.length b -> a ++ x = b ++ y -> a = b /\ x = y.
Proof.
  induction a as [|c a IH]; intros [|d b] x y L H; try discriminate; [split; [reflexivity|exact H]|]. cbn in L, H. injection L as L. injection H as -> H.
  destruct (IH _ _ _ L H) as [-> ->]. split; reflexivity.
Qed.
Lemma app_inv_r s a b : a ++ s = b ++ s -> a = b.
Proof. intros H. apply (app_same_len a b s s); [|exact H]. apply (f_equal String.length) in H. rewrite !app_len in H. lia. Qed.
(** [c] does not occur. *)
Fixpoint free (c : ascii) (s : string) : Prop := match s with "" => True | String d r => d <> c /\ free c r end.
Lemma free_in c s : ~ In c (list_ascii_of_string s) -> free c s.
Proof. induction s as [|d s IH]; cbn; [tauto|]. intros H. split; [tauto|]. apply IH. tauto. Qed.
Lemma free_app c a b : free c (a ++ b) <-> free c a /\ free c b.
Proof. induction a as [|d a IH]; cbn; [tauto|]. rewrite IH. tauto. Qed.
Lemma split_first c a : forall b x y, free c a -> free c b -> a ++ String c x = b ++ String c y -> a = b /\ x = y.
Proof.
  induction a as [|d a IH]; intros [|e b] x y Fa Fb H; cbn in *.
  - injection H as ->. split; reflexivity.
  - injection H as -> H. tauto.
  - injection H as -> H. tauto.
  - injection H as -> H. destruct (IH b x y ltac:(tauto) ltac:(tauto) H) as [-> ->]. split; reflexivity.
Qed.
Lemma split_last c a : forall b x y, free c x -> free c y -> a ++ String c x = b ++ String c y -> a = b /\ x = y.
Proof.
  induction a as [|d a IH]; intros [|e b] x y Fx Fy H; cbn in *.
  - injection H as ->. split; reflexivity.
  - injection H as -> H. subst x. apply free_app in Fx as [_ Fx]. cbn in Fx. tauto.
  - injection H as -> H. subst y. apply free_app in Fy as [_ Fy]. cbn in Fy. tauto.
  - injection H as -> H. destruct (IH b x y Fx Fy H) as [-> ->]. split; reflexivity.
Qed.

(** * Numbers *)
Lemma decimal_inj a b : decimal a = decimal b -> a = b.
Proof.
  unfold decimal. intros H. assert (N : forall z, NilZero.int_of_string (NilZero.string_of_int (Z.to_int z)) = Some (Z.to_int z)).
  { intros z. apply NilZero.isi. - destruct z; try discriminate; cbn; intros E; injection E as E; eapply DecimalPos.Unsigned.to_uint_nonnil; exact E. - destruct z; try discriminate. cbn. intros E. injection E as E. eapply DecimalPos.Unsigned.to_uint_nonnil; exact E. }
  apply DecimalZ.to_int_inj. pose proof (N a) as Na. rewrite H, N in Na. congruence.
Qed.
(** The characters of a number. *)
Definition sep (c : ascii) : Prop := c = "/"%char \/ c = "."%char \/ c = "_"%char.
Lemma uint_free c u : sep c -> free c (NilEmpty.string_of_uint u).
Proof. intros Hc. induction u; cbn; try exact I; (split; [|exact IHu]); intros <-; destruct Hc as [Hc|[Hc|Hc]]; discriminate. Qed.
Lemma nuint_free c u : sep c -> free c (NilZero.string_of_uint u).
Proof. intros Hc. destruct u; try (apply (uint_free c); exact Hc). cbn. split; [|exact I]. intros <-. destruct Hc as [Hc|[Hc|Hc]]; discriminate. Qed.
Lemma decimal_free c z : sep c -> free c (decimal z).
Proof.
  intros Hc. unfold decimal. destruct (Z.to_int z) as [u|u]; cbn [NilZero.string_of_int]; [apply nuint_free; exact Hc|]. cbn. split; [|apply nuint_free; exact Hc].
  intros <-. destruct Hc as [Hc|[Hc|Hc]]; discriminate.
Qed.
Lemma zeros_free c n : sep c -> free c (zeros n).
Proof. intros Hc. induction n as [|n IH]; cbn; [exact I|]. split; [|exact IH]. intros <-. destruct Hc as [Hc|[Hc|Hc]]; discriminate. Qed.
Lemma setw3_free c z : sep c -> free c (setw3 (decimal z)).
Proof. intros Hc. apply free_app. split; [apply zeros_free|apply decimal_free]; exact Hc. Qed.
(** No leading zeros. *)
Definition lead (s : string) : Prop := s = "0" \/ match s with String c _ => c <> "0"%char | "" => False end.
Lemma pos_lead p : match Pos.to_uint p with D0 _ | Nil => False | _ => True end.
Proof.
  pose proof (DecimalPos.Unsigned.to_uint_nonzero p) as NZ. pose proof (DecimalPos.Unsigned.to_uint_nonnil p) as NN.
  assert (E : nzhead (Pos.to_uint p) = Pos.to_uint p).
  { pose proof (DecimalZ.to_of (Decimal.Pos (Pos.to_uint p))) as T. cbn [Z.of_int] in T. unfold Z.of_uint in T. rewrite DecimalPos.Unsigned.of_to in T. cbn [Z.of_N Z.to_int norm] in T. injection T as T.
    unfold unorm in T. destruct (nzhead (Pos.to_uint p)) eqn:En; try (symmetry; exact T). exfalso. congruence. }
  destruct (Pos.to_uint p) as [|u|u|u|u|u|u|u|u|u|u] eqn:Eu; try exact I; [congruence|]. cbn [nzhead] in E.
  assert (G : forall v w, nzhead v <> D0 w). { induction v; intros w; try discriminate. cbn. apply IHv. }
  apply (G _ _ E).
Qed.
Lemma decimal_lead z : lead (decimal z).
Proof.
  unfold lead, decimal. destruct z as [|p|p]; [left; reflexivity| |].
  - right. cbn [Z.to_int NilZero.string_of_int]. pose proof (pos_lead p) as H. destruct (Pos.to_uint p); cbn in *; try tauto; discriminate.
  - right. cbn. discriminate.
Qed.
Lemma zeros_add a b : zeros (a + b) = zeros a ++ zeros b.
Proof. induction a as [|a IH]; [reflexivity|]. cbn. rewrite IH. reflexivity. Qed.
Lemma padded m n s t : lead s -> lead t -> m <= n -> zeros n ++ s = zeros m ++ t -> n = m \/ t = "0".
Proof.
  intros Hs Ht Hmn H. replace n with (m + (n - m)) in H by lia. rewrite zeros_add, app_assoc_s in H. apply app_inv_l in H. destruct (n - m) as [|k] eqn:E; [left; lia|]. right.
  cbn in H. subst t. destruct Ht as [Ht|Ht]; [exact Ht|]. cbn in Ht. congruence.
Qed.
Lemma setw_inj n a b : zeros (n - String.length (decimal a)) ++ decimal a = zeros (n - String.length (decimal b)) ++ decimal b -> a = b.
Proof.
  assert (W : forall a b, n - String.length (decimal b) <= n - String.length (decimal a) -> zeros (n - String.length (decimal a)) ++ decimal a = zeros (n - String.length (decimal b)) ++ decimal b -> a = b).
  { intros x y Hm H. apply decimal_inj. destruct (padded _ _ _ _ (decimal_lead x) (decimal_lead y) Hm H) as [E|E].
    - rewrite E in H. apply app_inv_l in H. exact H.
    - pose proof H as H'. apply (f_equal String.length) in H'. rewrite !app_len in H'. assert (Lz : forall k, String.length (zeros k) = k) by (induction k as [|k IH]; cbn; [reflexivity|]; rewrite IH; reflexivity). rewrite !Lz, E in H'. cbn [String.length] in H'.
      assert (Lx : 1 <= String.length (decimal x)). { destruct (decimal_lead x) as [->|G]; [cbn; lia|]. destruct (decimal x); [tauto|cbn; lia]. }
      rewrite E in H, Hm. cbn [String.length] in H, Hm. assert (Eq : n - String.length (decimal x) = n - 1) by lia. rewrite Eq in H. apply app_inv_l in H. congruence. }
  intros H. destruct (Nat.le_ge_cases (n - String.length (decimal b)) (n - String.length (decimal a))) as [L|L]; [apply W; assumption|]. symmetry. apply W; [exact L|]. symmetry. exact H.
Qed.
Lemma setw3_inj a b : setw3 (decimal a) = setw3 (decimal b) -> a = b.
Proof. apply setw_inj. Qed.
Lemma percent_inj a b : percent03d a = percent03d b -> a = b.
Proof.
  assert (NS : forall z r, (0 <= z)%Z -> setw3 (decimal z) <> String "-" r).
  { intros z r Hz H. unfold setw3 in H. destruct (3 - String.length (decimal z)) as [|k]; cbn in H; [|discriminate]. unfold decimal in H. destruct z as [|p|p]; [discriminate| |lia]. cbn [Z.to_int NilZero.string_of_int] in H.
    pose proof (pos_lead p) as G. destruct (Pos.to_uint p); cbn in *; try tauto; discriminate. }
  unfold percent03d. destruct (Z.ltb_spec a 0) as [Ha|Ha], (Z.ltb_spec b 0) as [Hb|Hb]; intros H.
  - apply (app_inv_l "-") in H. apply (setw_inj 2) in H. lia.
  - cbn [append] in H. symmetry in H. apply NS in H; [tauto|exact Hb].
  - cbn [append] in H. apply NS in H; [tauto|exact Ha].
  - apply setw3_inj. exact H.
Qed.
Lemma percent_free c z : sep c -> free c (percent03d z).
Proof.
  intros Hc. unfold percent03d. destruct (z <? 0)%Z; [|apply setw3_free; exact Hc]. apply free_app. split; [cbn; split; [|exact I]; intros <-; destruct Hc as [Hc|[Hc|Hc]]; discriminate|].
  apply free_app. split; [apply zeros_free|apply decimal_free]; exact Hc.
Qed.
Lemma slash : sep "/". Proof. left. reflexivity. Qed.
Lemma dot : sep ".". Proof. right. left. reflexivity. Qed.

(** * Names *)
Lemma sub_name_inj path a i t b j u : sub_file_name path a i t = sub_file_name path b j u -> a = b /\ i = j /\ t = u.
Proof.
  unfold sub_file_name, sub_dir. intros H. rewrite !app_assoc_s in H. apply app_inv_l in H. apply (app_inv_l "/") in H.
  apply (split_first "/" _ _ _ _ (setw3_free _ _ slash) (setw3_free _ _ slash)) in H as [E H]. apply setw3_inj in E as ->. split; [reflexivity|].
  rewrite <- !app_assoc_s in H. apply app_inv_r in H. rewrite !app_assoc_s in H. 
  assert (G : forall s k, t ++ "Snap_" ++ s ++ "." ++ decimal k = (t ++ "Snap_" ++ s) ++ String "." (decimal k)) by (intros; rewrite !app_assoc_s; reflexivity).
  assert (G' : forall s k, u ++ "Snap_" ++ s ++ "." ++ decimal k = (u ++ "Snap_" ++ s) ++ String "." (decimal k)) by (intros; rewrite !app_assoc_s; reflexivity).
  rewrite G, G' in H. apply (split_last "." _ _ _ _ (decimal_free _ _ dot) (decimal_free _ _ dot)) in H as [H1 H2]. apply decimal_inj in H2. split; [exact H2|]. apply app_inv_r in H1. exact H1.
Qed.
Lemma numbered s t i j : s ++ "." ++ decimal i = t ++ "." ++ decimal j -> s = t /\ i = j.
Proof. intros H. apply (split_last "." _ _ _ _ (decimal_free _ _ dot) (decimal_free _ _ dot)) in H as [-> H]. apply decimal_inj in H as ->. split; reflexivity. Qed.
Lemma apostle_inj path m n i j s : free "/" m -> free "/" n -> apostle_file_name path m i = Some s -> apostle_file_name path n j = Some s -> m = n /\ i = j.
Proof.
  unfold apostle_file_name. intros Fm Fn Hm Hn. destruct (erase 4 4 m) as [m'|] eqn:Em; [|discriminate]. destruct (erase 4 4 n) as [n'|] eqn:En; [|discriminate].
  assert (H : path ++ "/" ++ m ++ "/" ++ m' ++ "." ++ decimal i ++ ".hdf5" = path ++ "/" ++ n ++ "/" ++ n' ++ "." ++ decimal j ++ ".hdf5") by congruence.
  apply app_inv_l in H. cbn [append] in H. injection H as H. apply (split_first "/" _ _ _ _ Fm Fn) in H as [-> H]. split; [reflexivity|]. assert (m' = n') by congruence. subst n'. apply app_inv_l in H. cbn [append] in H. injection H as H. apply app_inv_r, decimal_inj in H. exact H.
Qed.
