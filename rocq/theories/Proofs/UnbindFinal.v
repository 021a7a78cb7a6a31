(** Consequences of the unbinding loop. *)
From Coq Require Import List ZArith QArith Qround Bool Lia Sorting.Permutation Sorting.Sorted.
From Verif.Model Require Import ListMem Mpi Run Subhalo Unbind.
From Verif.Spec Require Import Unbinding.
From Verif.Proofs Require Import ListMemProofs MpiProofs ListExtra PartitionProofs UnbindProofs.
Import ListNotations.
Local Open Scope nat_scope.

Section F.
  Context {X R E : Type}.
  Local Notation entry := (nat * E)%type.
  Variables neg pos : E -> bool.
  Variable energy : list (Z * X) * R -> nat -> list entry -> nat -> E.
  Variable no_energy : E.
  Variables (min_part : nat) (converged : nat -> nat -> bool).
  Variable en : Z * X -> E.
  Variables (parts : list (Z * X)) (rest : R).
  Local Notation w := (parts, rest).
  (** The energy is a property of the particle. *)
  Hypothesis fixed : forall k l i e p, nth_error l i = Some e -> nth_error parts (fst e) = Some p -> energy w k l i = en p.
  Hypothesis no_zero : forall p, In p parts -> neg (en p) = negb (pos (en p)).
  Local Notation cut := (cut neg pos energy).
  Local Notation rounds := (rounds neg pos energy no_energy min_part converged).
  Definition f (pid : nat) : bool := match nth_error parts pid with Some p => neg (en p) | None => false end.

  Lemma cut_len k l n a b : cut w k l n a b -> length (a ++ b) = n.
  Proof. intros ((ev & H1 & _ & H3) & _). apply Permutation_length in H3. congruence. Qed.
  Lemma cut_fst k l n a b : n <= length l -> cut w k l n a b -> Permutation (map fst (a ++ b)) (map fst (firstn n l)).
  Proof.
    intros Hn ((ev & H1 & H2 & H3) & _). rewrite H3. replace (map fst ev) with (map fst (firstn n l)); [reflexivity|]. apply nth_error_ext. intros i. rewrite !nth_error_map, nth_firstn.
    destruct (Nat.ltb_spec i n) as [Hi|Hi].
    - destruct (nth_error_in_range l i) as [e He]; [lia|]. rewrite He, (H2 i e Hi He). reflexivity.
    - rewrite (proj2 (nth_error_None ev i)) by lia. reflexivity.
  Qed.
  Lemma cut_energy k l n a b e : n <= length l -> Forall (fun e => fst e < length parts) l -> cut w k l n a b -> In e (a ++ b) -> exists p, nth_error parts (fst e) = Some p /\ snd e = en p.
  Proof.
    intros Hn Hl ((ev & H1 & H2 & H3) & _) He. apply (Permutation_in _ H3) in He. apply in_nth_iff in He as [i Hi]. pose proof (nth_error_lt _ _ _ Hi). destruct (nth_error_in_range l i) as [x Hx]; [lia|].
    rewrite (H2 i x) in Hi by (assumption || lia). injection Hi as <-. cbn. rewrite Forall_forall in Hl. destruct (nth_error_in_range parts (fst x)) as [p Hp]; [apply Hl; eapply nth_error_In; eauto|].
    exists p. split; [exact Hp|]. eapply fixed; eauto.
  Qed.
  Definition keeps (l : list entry) (n : nat) : Prop :=
    n <= length l /\ Permutation (map fst l) (seq 0 (length parts)) /\ forall pid, f pid = true -> In pid (map fst (firstn n l)).
  Lemma keeps_range l n : keeps l n -> Forall (fun e => fst e < length parts) l.
  Proof. intros (_ & HP & _). apply Forall_forall. intros e He. apply (in_map fst) in He. apply (Permutation_in _ HP) in He. apply in_seq in He. lia. Qed.
  Lemma cut_keeps k l n a b : keeps l n -> cut w k l n a b -> forall pid, f pid = true -> In pid (map fst a).
  Proof.
    intros HK Hc pid Hp. assert (Hr := keeps_range l n HK). destruct HK as (Hn & HP & HK). apply HK in Hp as Hin. apply (Permutation_in _ (Permutation_sym (cut_fst k l n a b Hn Hc))) in Hin.
    rewrite map_app in Hin. apply in_app_or in Hin as [Hin|Hin]; [exact Hin|exfalso]. apply in_map_iff in Hin as (e & <- & He).
    destruct (cut_energy k l n a b e Hn Hr Hc (in_or_app _ _ _ (or_intror He))) as (p & H1 & H2). destruct Hc as (_ & _ & Hb). rewrite Forall_forall in Hb. specialize (Hb e He). unfold f in Hp. rewrite H1 in Hp. congruence.
  Qed.
  Lemma rounds_keep k l n : rounds w k l n -> keeps l n.
  Proof.
    intros HR. induction HR as [|k l n a b HR IH Hc Hm He].
    - split; [rewrite map_length, seq_length; reflexivity|]. rewrite map_map. cbn. rewrite map_id. split; [reflexivity|]. intros pid Hp.
      assert (Hlt : pid < length parts) by (unfold f in Hp; destruct (nth_error parts pid) eqn:E0; [eapply nth_error_lt; eauto|discriminate]).
      rewrite firstn_all2 by (rewrite map_length, seq_length; lia). rewrite map_map. cbn. rewrite map_id. apply in_seq. lia.
    - assert (Hk := cut_keeps k l n a b IH Hc). destruct IH as (Hn & HP & _). split; [rewrite app_length; lia|]. split.
      + rewrite <- HP, app_assoc, map_app, (cut_fst k l n a b Hn Hc), <- map_app, firstn_skipn. reflexivity.
      + intros pid Hp. rewrite firstn_app, Nat.sub_diag, firstn_all. cbn. rewrite app_nil_r. apply Hk. exact Hp.
  Qed.
  Lemma bound_set k l n a b : rounds w k l n -> cut w k l n a b -> Permutation (map fst a) (filter f (seq 0 (length parts))) /\ Forall (fun e => exists p, nth_error parts (fst e) = Some p /\ snd e = en p) a.
  Proof.
    intros HR Hc. assert (HK := rounds_keep k l n HR). assert (Hk := cut_keeps k l n a b HK Hc). assert (Hr := keeps_range l n HK). destruct HK as (Hn & HP & _).
    assert (HE : Forall (fun e => exists p, nth_error parts (fst e) = Some p /\ snd e = en p) a) by (apply Forall_forall; intros e He; eapply cut_energy; eauto; apply in_or_app; left; exact He).
    split; [|exact HE]. apply NoDup_Permutation.
    - apply (NoDup_app_remove_r _ (map fst b)). rewrite <- map_app. eapply Permutation_NoDup; [symmetry; apply (cut_fst k l n a b Hn Hc)|]. rewrite <- firstn_map. apply (NoDup_app_remove_r _ (skipn n (map fst l))). rewrite firstn_skipn. eapply Permutation_NoDup; [symmetry; exact HP|apply seq_NoDup].
    - apply NoDup_filter. apply seq_NoDup.
    - intros pid. rewrite filter_In, in_seq. split.
      + intros Hin. apply in_map_iff in Hin as (e & <- & He). rewrite Forall_forall in HE. destruct (HE e He) as (p & H1 & H2). split; [pose proof (nth_error_lt _ _ _ H1); lia|]. unfold f. rewrite H1, no_zero by (eapply nth_error_In; eauto).
        destruct Hc as (_ & Ha & _). rewrite Forall_forall in Ha. specialize (Ha e He). rewrite H2 in Ha. rewrite Ha. reflexivity.
      + intros [_ Hp]. apply Hk. exact Hp.
  Qed.
  Lemma filter_seq : Permutation (filter (fun p => neg (en p)) parts) (flat_map (fun i => match nth_error parts i with Some p => [p] | None => [] end) (filter f (seq 0 (length parts)))).
  Proof.
    unfold f. clear fixed no_zero. induction parts as [|x r IH]; [reflexivity|]. cbn [filter length seq nth_error]. rewrite <- seq_shift.
    assert (E1 : forall l, filter (fun pid => match nth_error (x :: r) pid with Some p => neg (en p) | None => false end) (map S l) = map S (filter (fun pid => match nth_error r pid with Some p => neg (en p) | None => false end) l)).
    { induction l as [|i l IHl]; [reflexivity|]. cbn. rewrite IHl. destruct (nth_error r i) as [p|]; [destruct (neg (en p))|]; reflexivity. }
    assert (E2 : forall l, flat_map (fun i => match nth_error (x :: r) i with Some p => [p] | None => [] end) (map S l) = flat_map (fun i => match nth_error r i with Some p => [p] | None => [] end) l).
    { induction l as [|i l IHl]; [reflexivity|]. cbn. rewrite IHl. reflexivity. }
    destruct (neg (en x)); cbn [flat_map nth_error app]; rewrite E1, E2, IH; reflexivity.
  Qed.
  Lemma picks_flat (l : list entry) ps : Forall2 (fun e p => nth_error parts (fst e) = Some p) l ps -> ps = flat_map (fun i => match nth_error parts i with Some p => [p] | None => [] end) (map fst l).
  Proof. intros H. induction H as [|e p l ps He H IH]; [reflexivity|]. cbn. rewrite He. cbn. congruence. Qed.
  Lemma count_f : length (filter f (seq 0 (length parts))) = length (filter (fun p => neg (en p)) parts).
  Proof.
    rewrite (Permutation_length filter_seq). assert (H : Forall (fun i => exists p, nth_error parts i = Some p) (filter f (seq 0 (length parts)))).
    { apply Forall_forall. intros i Hi. apply filter_In in Hi as [Hi _]. apply in_seq in Hi. apply nth_error_in_range. lia. }
    induction H as [|i l (p & Hp) H IH]; [reflexivity|]. cbn. rewrite Hp. cbn. congruence.
  Qed.
End F.

Section L.
  Context {X R : Type}.
  Variable unbind : Z -> sub X R -> sub X R -> Prop.
  Variable min_part : nat.
  Hypothesis min_ok : 2 <= min_part.
  Hypothesis out : forall snap s s', unbind snap s s' -> (min_part <= s_nbound s' /\ s_death s' = (-1)%Z) \/ (s_nbound s' <= 1 /\ s_death s' = if Z.eqb (s_death s) (-1) then snap else s_death s).
  Lemma life_snaps h s : life unbind h s -> Forall (fun x => 0 <= fst x)%Z h.
  Proof. intros H. induction H; [constructor|..]; apply Forall_app; (split; [assumption|constructor; [assumption|constructor]]). Qed.
  Lemma snoc_split {A} (h : list A) x h1 h2 : h ++ [x] = h1 ++ h2 -> (h2 = [] /\ h1 = h ++ [x]) \/ exists h2', h2 = h2' ++ [x] /\ h = h1 ++ h2'.
  Proof.
    intros E. destruct h2 as [|z h2]; [left; rewrite app_nil_r in E; auto|right]. destruct (exists_last (l := z :: h2) ltac:(discriminate)) as (h2' & y & E2). rewrite E2 in *. rewrite app_assoc in E. apply app_inj_tail in E as [-> ->]. exists h2'. auto.
  Qed.
  (** The snapshot of the first failure since the subhalo was last found bound. *)
  Lemma life_death h s : life unbind h s -> forall h1 h2, h = h1 ++ h2 -> (h1 = [] \/ exists h0 snap u, h1 = h0 ++ [(snap, u)] /\ min_part <= s_nbound u) ->
    Forall (fun x => s_nbound (snd x) < min_part) h2 -> s_death s = match h2 with [] => (-1)%Z | (snap, _) :: _ => snap end.
  Proof.
    intros H. induction H as [s0 H|h0 s0 s1 snap s' H IH Hd Hs Hu|h0 s0 s1 snap s' H IH Hd Hs Ha Hd' Hn]; intros h1 h2 E H1 H2.
    - symmetry in E. apply app_eq_nil in E as [-> ->]. exact H.
    - apply life_snaps in H. apply snoc_split in E as [[-> E1]|(h2' & -> & E)].
      + destruct H1 as [->|(hh & sn & u & -> & Hb)]; [destruct h0; discriminate|]. apply app_inj_tail in E1 as [-> E1]. injection E1 as -> ->. destruct (out _ _ _ Hu) as [[_ Ed]|[Hl _]]; [exact Ed|lia].
      + apply Forall_app in H2 as [H2 H3]. inversion H3 as [|? ? Hlast _]; subst. cbn in Hlast. destruct (out _ _ _ Hu) as [[Hb _]|[_ Ed]]; [lia|]. specialize (IH h1 h2' eq_refl H1 H2). rewrite Ed, Hd, IH.
        destruct h2' as [|[sn u] r]; [reflexivity|]. cbn. rewrite ?E in H. apply Forall_app in H as [_ H]. apply Forall_inv in H. cbn in H. destruct (Z.eqb_spec sn (-1)); [lia|reflexivity].
    - apply life_snaps in H. apply snoc_split in E as [[-> E1]|(h2' & -> & E)].
      + destruct H1 as [->|(hh & sn & u & -> & Hb)]; [destruct h0; discriminate|]. apply app_inj_tail in E1 as [-> E1]. injection E1 as -> ->. lia.
      + apply Forall_app in H2 as [H2 _]. specialize (IH h1 h2' E H1 H2). destruct h2' as [|[sn u] r]; [exact Hd'|]. cbn. rewrite Hd, IH in Ha. rewrite E in H. apply Forall_app in H as [_ H]. apply Forall_inv in H. cbn in H. lia.
  Qed.
End L.
