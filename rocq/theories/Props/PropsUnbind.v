(** Properties C32-C38: unbinding. *)
From Coq Require Import List ZArith QArith Qround Bool Lia Sorting.Permutation Sorting.Sorted.
From Verif.Model Require Import ListMem Mpi Run Hash Subhalo Tracks Nest UpdateTracks Mask Unbind.
From Verif.Spec Require Import Members Forest Nesting NestHistory Unbinding.
From Verif.Proofs Require Import ListMemProofs MpiProofs ListExtra MemberProofs CentralProofs NestProofs NestProofs2 LocalizeProofs HistorySteps HistorySteps2 HistoryProofs NestFinal GlueProofs GlueTree HaloWork PartitionProofs UnbindProofs UnbindFinal StripProofs RefineProofs.
From Verif.Props Require Import PropsNest.
Import ListNotations.
Local Open Scope nat_scope.

(** C32: the partition permutes the first [len] entries and leaves the others; what comes before the returned position is not
    positive, what comes after not negative; without zeros the position is the number of negative energies. *)
Theorem C32_partition : forall (E : Type) (neg pos : E -> bool) (l : list (nat * E)) len,
  (forall e, neg e = true -> pos e = false) -> len <= length l ->
  exists l' n, partition_energy neg pos l len = Done (l', n) /\ n <= len /\
    Permutation (firstn len l') (firstn len l) /\ skipn len l' = skipn len l /\
    Forall (fun e => pos (snd e) = false) (firstn n l') /\ Forall (fun e => neg (snd e) = false) (skipn n (firstn len l')) /\
    (Forall (fun e => neg (snd e) = true \/ pos (snd e) = true) (firstn len l) -> n = length (filter (fun e => neg (snd e)) (firstn len l))).
Proof.
  intros E neg pos l len Hs HL. destruct (partition_ok neg pos Hs l len HL) as (l' & n & EP & HP & HT & Hn & H1 & H2). exists l', n. split; [exact EP|]. split; [exact Hn|].
  assert (Hsk : skipn len l' = skipn len l) by (apply nth_error_ext; intros i; rewrite !nth_skipn; apply HT; lia).
  assert (HPf : Permutation (firstn len l') (firstn len l)) by (apply (Permutation_app_inv_r (skipn len l)); rewrite <- Hsk at 1; rewrite !firstn_skipn; exact HP).
  assert (Ha : Forall (fun e => pos (snd e) = false) (firstn n l')). { apply Forall_forall. intros e He. apply in_nth_iff in He as [i Hi]. rewrite nth_firstn in Hi. destruct (Nat.ltb_spec i n); [|discriminate]. eapply H1; eauto. }
  assert (Hb : Forall (fun e => neg (snd e) = false) (skipn n (firstn len l'))). { apply Forall_forall. intros e He. apply in_nth_iff in He as [i Hi]. rewrite nth_skipn, nth_firstn in Hi. destruct (Nat.ltb_spec (n + i) len); [|discriminate]. apply (H2 (n + i) e); [lia|exact Hi]. }
  split; [exact HPf|]. split; [exact Hsk|]. split; [exact Ha|]. split; [exact Hb|]. intros Hz.
  rewrite <- (Permutation_length (perm_filter _ _ _ HPf)). rewrite <- (firstn_skipn n (firstn len l')), filter_app, app_length. rewrite firstn_firstn, Nat.min_l by exact Hn.
  assert (Fa : filter (fun e => neg (snd e)) (firstn n l') = firstn n l').
  { assert (Hz' : Forall (fun e => neg (snd e) = true \/ pos (snd e) = true) (firstn n l')).
    { apply (Permutation_Forall (Permutation_sym HPf)) in Hz. rewrite Forall_forall in *. intros e He. apply Hz. replace (firstn n l') with (firstn n (firstn len l')) in He by (rewrite firstn_firstn, Nat.min_l by exact Hn; reflexivity). eapply firstn_incl; exact He. }
    clear -Ha Hz'. induction Ha as [|e r He Ha IH]; [reflexivity|]. inversion Hz' as [|? ? [H|H] Hr]; subst; [|congruence]. cbn. rewrite H. f_equal. auto. }
  assert (Fb : filter (fun e => neg (snd e)) (skipn n (firstn len l')) = []). { clear -Hb. induction Hb as [|e r He Hb IH]; [reflexivity|]. cbn. rewrite He. exact IH. }
  rewrite Fa, Fb, firstn_length. apply Permutation_length in HP. cbn. lia.
Qed.
Print Assumptions C32_partition.
Example C32_witness : partition_energy (fun e => e <? 0)%Z (fun e => 0 <? e)%Z [(0, 5%Z); (1, (-3)%Z); (2, 7%Z); (3, (-1)%Z); (4, (-9)%Z); (5, 2%Z)] 5 = Done ([(4, (-9)%Z); (1, (-3)%Z); (3, (-1)%Z); (0, 5%Z); (2, 7%Z); (5, 2%Z)], 3).
Proof. reflexivity. Qed.

Section Config.
  Context {X R E : Type}.
  Local Notation entry := (nat * E)%type.
  Variables neg pos : E -> bool.
  Variable lt : E -> E -> bool.
  Variable sorter : sort_site -> list entry -> list entry.
  Variable shuffle : list (Z * X) -> list (Z * X).
  Variable energy : list (Z * X) * R -> nat -> list entry -> nat -> E.
  Variable inner : list (Z * X) * R -> list entry -> nat -> E.
  Variable no_energy : E.
  Variable rest_of : list (Z * X) -> nat -> R -> R.
  Variable pmass : Z * X -> Q.
  Variables (min_part : nat) (converged : nat -> nat -> bool) (max_sample : nat) (refine : bool).
  Hypothesis one_sign : forall e, neg e = true -> pos e = false.
  Hypothesis sorter_ok : forall site l, Permutation (sorter site l) l /\ ascending lt snd (sorter site l).
  Hypothesis shuffle_ok : forall l, Permutation (shuffle l) l.
  Hypothesis converged_ok : forall n, converged n n = true.
  Local Notation unbind := (unbind neg pos sorter shuffle energy inner no_energy rest_of pmass min_part converged max_sample refine).
  Local Notation unbinding := (unbinding neg pos lt energy inner no_energy min_part converged max_sample refine).
  Local Notation stripped := (stripped neg pos lt energy inner no_energy min_part converged max_sample refine).

  (** C33: for any energies unbinding ends without undefined behaviour, after at most one round per particle. *)
  Theorem C33_unbinding_ends : forall snap s, 1 <= min_part -> exists s', unbind snap s = Done s'.
  Proof.
    intros snap s Hm. destruct (Nat.le_gt_cases 2 (length (s_parts s))) as [Hl|Hl].
    - destruct (unbind_ok neg pos lt sorter shuffle energy inner no_energy rest_of pmass min_part converged max_sample refine snap one_sign sorter_ok shuffle_ok Hm converged_ok s (or_intror Hl)) as (s' & A & _). eauto.
    - unfold Unbind.unbind, unbind_by. destruct (length (s_parts s) <? min_part); unfold die; destruct (alive s); cbn [s_parts set_death]; (destruct (s_parts s) as [|p [|q r]]; [eexists; reflexivity|eexists; reflexivity|cbn in Hl; lia]).
  Qed.

  (** C34: the particles are permuted; the bound ones are counted from the front; none are bound only if there are none, else
      one or at least the minimum. *)
  Theorem C34_unbinding_permutes : forall snap s s', 1 <= min_part -> unbind snap s = Done s' ->
    Permutation (s_parts s') (s_parts s) /\ s_nbound s' <= length (s_parts s') /\
    (s_nbound s' = 0 <-> s_parts s = []) /\ (s_parts s <> [] -> s_nbound s' = 1 \/ min_part <= s_nbound s') /\
    s_mass s' = fold_right (fun p q => (pmass p + q)%Q) 0%Q (firstn (s_nbound s') (s_parts s')) /\ same_otherwise s s'.
  Proof.
    intros snap s s' Hm Hu. destruct (Nat.le_gt_cases 2 (length (s_parts s))) as [Hl|Hl].
    - destruct (unbind_ok neg pos lt sorter shuffle energy inner no_energy rest_of pmass min_part converged max_sample refine snap one_sign sorter_ok shuffle_ok Hm converged_ok s (or_intror Hl)) as (s2 & A & B & C & D & F & G).
      assert (s2 = s') by congruence. subst s2. split; [exact C|]. split; [exact D|]. assert (Hne : s_parts s <> []) by (destruct (s_parts s); [cbn in Hl; lia|discriminate]).
      assert (Hnb : s_nbound s' = 1 \/ (1 <= s_nbound s' /\ min_part <= s_nbound s')).
      { destruct G as [[_ (? & ? & ? & ? & a & ? & ? & _ & _ & _ & _ & Ha & _ & _ & -> & _) _ _]|[_ Hn _ _ _]]; [right; lia|left]. rewrite Hn, Nat.min_l; lia. }
      split; [split; [lia|congruence]|]. split; [intros _; lia|]. split; [exact F|exact B].
    - unfold Unbind.unbind, unbind_by in Hu. destruct (length (s_parts s) <? min_part); unfold die in Hu; destruct (alive s); cbn [s_parts set_death] in Hu; (destruct s as [? ? ? ? ? ? ? ? ? ? ? ? ? [|p [|q r]] ? ?]; cbn in *; [| |lia]; injection Hu as <-; cbn).
      all: split; [reflexivity|]; split; [lia|]; split; [split; congruence|]; split; [intros; auto; congruence|]; split; reflexivity.
  Qed.

  (** C35: a subhalo found bound lists its bound particles in order of increasing energy, with the refined ones (at most
      [max_sample]) in front in the order of their refined energy; one not found bound has its old first particle in front. *)
  Theorem C35_bound_order : forall snap s s', 2 <= min_part -> unbind snap s = Done s' ->
    (1 < s_nbound s' -> bound_by neg pos lt energy inner no_energy min_part converged max_sample refine s s') /\
    (s_nbound s' <= 1 -> forall p r, s_parts s = p :: r -> exists p' r', s_parts s' = p' :: r' /\ fst p' = fst p).
  Proof.
    intros snap s s' Hm Hu. destruct (unbind_ok neg pos lt sorter shuffle energy inner no_energy rest_of pmass min_part converged max_sample refine snap one_sign sorter_ok shuffle_ok ltac:(lia) converged_ok s (or_introl Hm)) as (s2 & A & _ & _ & _ & _ & G).
    assert (s2 = s') by congruence. subst s2. destruct G as [[G1 G2 _ _]|[_ G2 G3 _ _]].
    - split; [intros _; exact G2|]. destruct G2 as (? & ? & ? & ? & a & ? & ? & _ & _ & _ & _ & Ha & _ & _ & -> & _). lia.
    - split; [rewrite G2; lia|]. intros _. exact G3.
  Qed.
  (** C35 for energies that belong to the particles and do not change: exactly the particles of negative energy are bound, in
      order of energy, or fewer than the minimum are and the subhalo is lost. *)
  Theorem C35_fixed_energies : forall (en : Z * X -> E) snap s s', 2 <= min_part ->
    (forall parts k l i e p, nth_error l i = Some e -> nth_error parts (fst e) = Some p -> energy (parts, s_rest s) k l i = en p) ->
    (forall p, In p (s_parts s) -> neg (en p) = negb (pos (en p))) -> refine = false -> unbind snap s = Done s' ->
    let bound := filter (fun p => neg (en p)) (s_parts s) in
    if min_part <=? length bound then s_nbound s' = length bound /\ Permutation (firstn (s_nbound s') (s_parts s')) bound /\ ascending lt en (firstn (s_nbound s') (s_parts s')) /\ s_death s' = (-1)%Z
    else s_nbound s' <= 1 /\ s_death s' = if Z.eqb (s_death s) (-1) then snap else s_death s.
  Proof.
    intros en snap s s' Hm Hen Hz Href Hu bound. destruct (unbind_ok neg pos lt sorter shuffle energy inner no_energy rest_of pmass min_part converged max_sample refine snap one_sign sorter_ok shuffle_ok ltac:(lia) converged_ok s (or_introl Hm)) as (s2 & A & _ & _ & _ & _ & G).
    assert (s2 = s') by congruence. subst s2. destruct G as [[G1 G2 G3 _]|[G1 G2 _ G4 _]].
    - destruct G2 as (parts & k & l & n & a & b & core & HP & _ & HR & Hc & Ha & _ & Hfo & Hnb & Hpk).
      destruct (bound_set neg pos energy no_energy min_part converged en parts (s_rest s) (fun k l i e p => Hen parts k l i e p)) with (k := k) (l := l) (n := n) (a := a) (b := b) as [B1 B2]; [intros p Hp; apply Hz; apply (Permutation_in _ HP); exact Hp|exact HR|exact Hc|].
      assert (Ecnt : length a = length bound). { rewrite <- (map_length fst a), (Permutation_length B1), (count_f neg energy converged en parts (s_rest s) (fun k l i e p => Hen parts k l i e p)). apply Permutation_length. apply perm_filter. exact HP. }
      rewrite (proj2 (Nat.leb_le _ _)) by lia. split; [lia|]. destruct Hfo as (sorted & P1 & S1 & Hfo). rewrite Href, andb_false_r in Hfo. cbn in Hfo. subst core.
      assert (Hfp : Forall2 (fun e p => nth_error parts (fst e) = Some p) sorted (firstn (s_nbound s') (s_parts s'))).
      { assert (Hls : length sorted = s_nbound s') by (rewrite Hnb; apply Permutation_length; exact P1). apply Forall2_app_inv_l in Hpk as (l1 & l2 & F1 & F2 & ->). rewrite <- Hls, (Forall2_length_eq _ _ _ F1), firstn_app, Nat.sub_diag, firstn_all. cbn. rewrite app_nil_r. exact F1. }
      split; [|split; [|exact G3]].
      + rewrite (picks_flat parts _ _ Hfp). unfold bound. rewrite <- (perm_filter _ _ _ HP). rewrite (filter_seq neg en parts). apply Permutation_flat_map. rewrite <- B1. apply Permutation_map. exact P1.
      + assert (HE : Forall (fun e => exists p, nth_error parts (fst e) = Some p /\ snd e = en p) sorted) by (eapply Permutation_Forall; [symmetry; exact P1|exact B2]).
        clear -S1 HE Hfp. unfold ascending in *. induction Hfp as [|e p es ps He Hf IH]; [constructor|]. inversion S1 as [|? ? S2 S3]; subst. inversion HE as [|? ? (p0 & Hp0 & E0) HE']; subst. constructor; [auto|].
        apply Forall_forall. intros q Hq. apply In_nth_error in Hq as [j Hj]. assert (exists e', nth_error es j = Some e') as [e' He'] by (apply nth_error_in_range; rewrite (Forall2_length_eq _ _ _ Hf); eapply nth_error_lt; eauto).
        rewrite Forall_forall in S3, HE'. specialize (S3 e' (nth_error_In _ _ He')). destruct (HE' e' (nth_error_In _ _ He')) as (q0 & Hq0 & E1). destruct (Forall2_nth _ _ _ j e' Hf He') as (q1 & Hq1 & E2). assert (p0 = p) by congruence. assert (q0 = q) by congruence. subst. rewrite <- E1, <- E0. exact S3.
    - assert (Hlt : length bound < min_part).
      { destruct G1 as [G1|(parts & k & l & n & a & b & HP & HR & Hc & Ha)].
        - unfold bound. enough (length (filter (fun p => neg (en p)) (s_parts s)) <= length (s_parts s)) by lia. clear. induction (s_parts s) as [|q r IH]; [cbn; lia|]. cbn. destruct (neg (en q)); cbn; lia.
        - destruct (bound_set neg pos energy no_energy min_part converged en parts (s_rest s) (fun k l i e p => Hen parts k l i e p)) with (k := k) (l := l) (n := n) (a := a) (b := b) as [B1 B2]; [intros p Hp; apply Hz; apply (Permutation_in _ HP); exact Hp|exact HR|exact Hc|].
          enough (length a = length bound) by lia. rewrite <- (map_length fst a), (Permutation_length B1), (count_f neg energy converged en parts (s_rest s) (fun k l i e p => Hen parts k l i e p)). apply Permutation_length. apply perm_filter. exact HP. }
      rewrite (proj2 (Nat.leb_gt _ _)) by exact Hlt. split; [rewrite G2; lia|exact G4].
  Qed.

  (** C36: the marks after one unbinding. *)
  Theorem C36_marks : forall snap s s', 2 <= min_part -> unbind snap s = Done s' ->
    (min_part <= s_nbound s' /\ s_death s' = (-1)%Z /\ s_sink s' = (-1)%Z /\ (s_sink s <> (-1)%Z -> s_snapsink s' = (-1)%Z)) \/
    (s_nbound s' <= 1 /\ s_death s' = (if Z.eqb (s_death s) (-1) then snap else s_death s) /\ s_sink s' = s_sink s /\ s_snapsink s' = s_snapsink s /\
     (length (s_parts s) < min_part \/ disrupted neg pos energy no_energy min_part converged s)).
  Proof.
    intros snap s s' Hm Hu. destruct (unbind_ok neg pos lt sorter shuffle energy inner no_energy rest_of pmass min_part converged max_sample refine snap one_sign sorter_ok shuffle_ok ltac:(lia) converged_ok s (or_introl Hm)) as (s2 & A & _ & _ & _ & _ & G).
    assert (s2 = s') by congruence. subst s2. destruct G as [[_ G2 G3 [G4 G5]]|[G1 G2 _ G4 [G5 G6]]].
    - left. destruct G2 as (? & ? & ? & ? & a & ? & ? & _ & _ & _ & _ & Ha & _ & _ & -> & _). split; [exact Ha|]. split; [exact G3|]. split; [exact G4|]. intros Hs. rewrite G5, (proj2 (Z.eqb_neq _ _) Hs). reflexivity.
    - right. split; [rewrite G2; lia|]. auto.
  Qed.
  (** C36 over any life: the mark is the snapshot of the first failure since the subhalo was last found bound. *)
  Theorem C36_death_snapshot : forall h1 h2 s, 2 <= min_part -> life (fun snap a b => unbind snap a = Done b) (h1 ++ h2) s ->
    (h1 = [] \/ exists h0 snap u, h1 = h0 ++ [(snap, u)] /\ min_part <= s_nbound u) -> Forall (fun x => s_nbound (snd x) < min_part) h2 ->
    s_death s = match h2 with [] => (-1)%Z | (snap, _) :: _ => snap end.
  Proof.
    intros h1 h2 s Hm HL H1 H2. eapply (life_death _ min_part Hm); [|exact HL|reflexivity|exact H1|exact H2].
    intros snap a b Hu. destruct (C36_marks snap a b Hm Hu) as [(A & B & _)|(A & B & _)]; [left|right]; auto.
  Qed.

  Variable allowed : nat -> nat.
  (** C37: after any history and any masking, in every order of the threads, RefineParticles ends; with [mid] the subhalos
      before truncation: every member of a host receives what its nested subhalos (and, for the central, the other heads)
      do not keep and is then unbound; the particles bound in any member of a host and those the central leaves are together
      those held before; field subhalos and new ones are unbound alone; tracks, ranks, nests and hosts stay. *)
  Theorem C37_refine : forall (H : Type) (before : list (list (sub X R))) (ps : list (@proc X R H)) p subs snap order order2, 2 <= min_part ->
    nest_history (H := H) before -> nest_begun before ps -> In p ps -> Forall2 (fun a b => exists kept, b = set_parts kept a) (p_nested p) subs ->
    Permutation order (seq 0 (length (p_halos p))) -> Permutation order2 (unnested (p_table p) subs) ->
    exists mid, refine_particles neg pos sorter shuffle energy inner no_energy rest_of pmass min_part converged max_sample refine allowed snap (length subs) order order2 (p_table p) (p_heads p) subs = Done (map (truncate allowed) mid) /\
      (forall h c rest, nth_error (p_table p) (S h) = Some (c :: rest) -> exists others, nth_error (p_heads p) h = Some (c :: others) /\
         (forall i s, In i (c :: rest) -> nth_error subs i = Some s -> stripped snap pmass mid (Z.of_nat i) s (if i =? c then s_nest s ++ map Z.of_nat others else s_nest s)) /\
         Permutation (flat_map (bound_parts mid) (map Z.of_nat (c :: rest)) ++ leftover mid (Z.of_nat c)) (flat_map (held_by subs) (map Z.of_nat (c :: rest)))) /\
      (forall i s, nth_error subs i = Some s -> (length (p_moved p) <= i \/ s_host s = (-1)%Z) -> exists u, nth_error mid i = Some u /\ unbinding snap pmass s u) /\
      Forall2 (fun a b => nesting_of a = nesting_of b /\ s_host a = s_host b) subs mid.
  Proof.
    intros H before ps p subs snap order order2 Hm HH HB Hp HF Hord Hord2. assert (Hk := Hp). apply In_nth_error in Hk as [k Hk]. destruct (begun_spec before ps (history_ok _ HH) HB) as [H1 _].
    destruct (H1 k p Hk) as (_ & (tn & HN) & Hh & _).
    assert (HS : Forall2 same_place (p_nested p) subs) by (eapply Forall2_impl; [|exact HF]; intros a b (kp & ->); split; reflexivity).
    assert (HN' := nested_as_ext _ _ _ _ _ _ HS HN).
    assert (Hh' : mapM (heads_of subs) (tl (p_table p)) = Some (p_heads p)).
    { rewrite <- Hh. clear -HS. assert (HE : forall g, heads_of subs g = heads_of (p_nested p) g).
      { intros g. unfold heads_of. assert (HE : forall j, option_map s_rank (nth_error subs j) = option_map s_rank (nth_error (p_nested p) j)).
        { intros j. destruct (nth_error (p_nested p) j) as [a|] eqn:Ea.
          - destruct (Forall2_nth _ _ _ j a HS Ea) as (b & Hb & E & _). rewrite Hb. cbn. apply nesting_fields in E as (_ & E & _). congruence.
          - destruct (nth_error subs j) as [b|] eqn:Eb; [|reflexivity]. apply nth_error_lt in Eb. rewrite <- (Forall2_length_eq _ _ _ HS) in Eb. apply nth_error_None in Ea. lia. }
        induction g as [|j g IH]; [reflexivity|]. cbn [mapM]. specialize (HE j). destruct (nth_error subs j) as [b|], (nth_error (p_nested p) j) as [a|]; try discriminate; [|reflexivity]. cbn in HE. injection HE as HE.
        destruct (mapM (nth_error subs) g) as [x|], (mapM (nth_error (p_nested p)) g) as [y|]; try discriminate; [|reflexivity]. cbn [combine filter snd]. rewrite HE. injection IH as IH. destruct (s_rank a =? 0)%Z; cbn [map fst]; congruence. }
      induction (tl (p_table p)) as [|g l IH]; [reflexivity|]. cbn. rewrite HE, IH. reflexivity. }
    assert (Hhosts : Forall (fun s => (-1 <= s_host s < Z.of_nat (length (p_halos p)))%Z) (p_moved p)) by (destruct HB as ((_ & Hf & _) & _); rewrite Forall_forall in Hf; apply (Hf p Hp)).
    destruct (refine_ok neg pos lt sorter shuffle energy inner no_energy rest_of pmass min_part converged max_sample refine allowed snap one_sign sorter_ok shuffle_ok Hm converged_ok _ _ _ _ _ _ HN' Hh' Hhosts (length subs) order order2 (le_n _) Hord Hord2) as (mid & A & _ & B & C & D).
    exists mid. split; [exact A|]. split; [|split; [exact C|exact D]]. intros h c rest Hg. destruct (B h c rest Hg) as (others & B1 & B2 & B3 & _). exists others. auto.
  Qed.
End Config.
Print Assumptions C33_unbinding_ends.
Print Assumptions C34_unbinding_permutes.
Print Assumptions C35_bound_order.
Print Assumptions C35_fixed_energies.
Print Assumptions C36_marks.
Print Assumptions C36_death_snapshot.
Print Assumptions C37_refine.

(** C33, C38: with exact arithmetic a precision of at most one and a multiple of at least one are as the theorems ask; floating point is
    in C81. *)
Theorem C33_exact_precision : forall precision, (precision <= 1)%Q -> (forall n, converged_q precision n n = true) /\
  (forall n nb, enough (converged_q precision) n nb <-> (inject_Z (Z.of_nat n) * precision <= inject_Z (Z.of_nat nb))%Q).
Proof. intros precision Hp. split; [exact (converged_q_ok precision Hp)|]. intros n nb. apply Qle_bool_iff. Qed.
Print Assumptions C33_exact_precision.
(** C38: truncation keeps the bound particles and a prefix of the others; at most the configured multiple remains, and no
    fewer than possible; of an orphan only the bound particle remains. *)
Theorem C38_truncation : forall (X R : Type) relax (s : sub X R), (1 <= relax)%Q -> s_nbound s <= length (s_parts s) ->
  exists n, truncate (allowed_q relax) s = set_parts (firstn n (s_parts s)) s /\ s_nbound s <= n <= length (s_parts s) /\ (s_nbound s <= 1 -> n = s_nbound s) /\
    (inject_Z (Z.of_nat n) <= inject_Z (Z.of_nat (s_nbound s)) * relax)%Q /\
    (1 < s_nbound s -> n = length (s_parts s) \/ (inject_Z (Z.of_nat (s_nbound s)) * relax < inject_Z (Z.of_nat (S n)))%Q).
Proof.
  intros X R relax s Hr HB. destruct (truncate_ok (allowed_q relax) (allowed_q_ok relax Hr) s HB) as (n & E & H1 & H2 & H3). exists n. split; [exact E|]. split; [exact H1|]. split; [exact H2|].
  set (b := s_nbound s) in *. pose proof (q_times_le relax Hr b) as Hb. destruct (Nat.le_gt_cases b 1) as [Hc|Hc].
  - rewrite (H2 Hc). split; [exact Hb|lia].
  - specialize (H3 Hc). unfold allowed_q in H3. set (w := Qfloor (inject_Z (Z.of_nat b) * relax)) in *.
    pose proof (Qfloor_le (inject_Z (Z.of_nat b) * relax)) as Hf. fold w in Hf. pose proof (Qlt_floor (inject_Z (Z.of_nat b) * relax)) as Hg. fold w in Hg.
    assert (Hw : (Z.of_nat b <= w)%Z). { unfold w. rewrite <- (Qfloor_Z (Z.of_nat b)) at 1. apply Qfloor_resp_le. exact Hb. }
    split; [eapply Qle_trans; [|exact Hf]; rewrite <- Zle_Qle; lia|]. intros _. destruct (Nat.le_gt_cases (length (s_parts s)) (Z.to_nat w)); [left; lia|right]. eapply Qlt_le_trans; [exact Hg|]. rewrite <- Zle_Qle. lia.
Qed.
Print Assumptions C38_truncation.

(** ** Instances.  Energies are integers, std::sort is insertion sort, the shuffle is [rev]. *)
Fixpoint e_insert (x : nat * Z) (l : list (nat * Z)) : list (nat * Z) :=
  match l with [] => [x] | y :: r => if (snd x <=? snd y)%Z then x :: l else y :: e_insert x r end.
Definition e_sort (_ : sort_site) (l : list (nat * Z)) : list (nat * Z) := fold_right e_insert [] l.
Lemma e_insert_perm x l : Permutation (e_insert x l) (x :: l).
Proof. induction l as [|y r IH]; [reflexivity|]. cbn. destruct (snd x <=? snd y)%Z; [reflexivity|]. rewrite IH. apply perm_swap. Qed.
Lemma e_sort_ok (site : sort_site) l : Permutation (e_sort site l) l /\ ascending Z.ltb snd (e_sort site l).
Proof.
  induction l as [|x l [IP IS]]; [split; [reflexivity|constructor]|]. change (e_sort site (x :: l)) with (e_insert x (e_sort site l)). split; [rewrite e_insert_perm, IP; reflexivity|].
  unfold ascending in *. clear IP. revert IS. generalize (e_sort site l). intros m IS. induction IS as [|y r Hr IH Hy]; [cbn; constructor; constructor|]. cbn. destruct (Z.leb_spec (snd x) (snd y)).
  - constructor; [constructor; assumption|]. constructor; [apply Z.ltb_ge; assumption|]. eapply Forall_impl; [|exact Hy]. cbv beta. intros z Hz. apply Z.ltb_ge in Hz. apply Z.ltb_ge. lia.
  - constructor; [exact IH|]. apply (Permutation_Forall (Permutation_sym (e_insert_perm x r))). constructor; [apply Z.ltb_ge; lia|exact Hy].
Qed.
Definition z_neg (e : Z) := (e <? 0)%Z.
Definition z_pos (e : Z) := (0 <? e)%Z.
Lemma z_sign e : z_neg e = true -> z_pos e = false.
Proof. unfold z_neg, z_pos. intros H. apply Z.ltb_lt in H. apply Z.ltb_ge. lia. Qed.
Lemma rev_ok {A} (l : list A) : Permutation (rev l) l.
Proof. symmetry. apply Permutation_rev. Qed.
Definition rest_same {A} (_ : list A) (n : nat) (_ : nat) : nat := n.
(** Each round lowers the binding of the particle with payload [x] by 3. *)
Definition loosening (w : list (Z * Z) * nat) (k : nat) (l : list (nat * Z)) (i : nat) : Z :=
  match nth_error l i with Some e => match nth_error (fst w) (fst e) with Some p => (snd p + 3 * Z.of_nat k)%Z | None => 0%Z end | None => 0%Z end.
Definition frozen (w : list (Z * Z) * nat) (k : nat) (l : list (nat * Z)) (i : nat) : Z := loosening w 0 l i.
Definition by_id (w : list (Z * Z) * nat) (l : list (nat * Z)) (i : nat) : Z :=
  match nth_error l i with Some e => match nth_error (fst w) (fst e) with Some p => fst p | None => 0%Z end | None => 0%Z end.
Definition unbind_1 (en : list (Z * Z) * nat -> nat -> list (nat * Z) -> nat -> Z) precision max_sample refine :=
  unbind z_neg z_pos e_sort (@rev (Z * Z)) en by_id 0%Z rest_same (fun p => inject_Z (fst p)) 3 (converged_q precision) max_sample refine.
Definition cluster : sub Z nat := set_sink 8 2 (set_death 4 (set_parts [(1, -10); (2, 5); (3, -3); (4, -20); (5, -1); (6, -5); (7, -30); (8, 9)]%Z (new_sub 0))).

(** Three rounds: 3 and 8 fall out first; with refinement the first three of the order are ordered by id. *)
Example C33_witness : option_map (fun s => (map fst (s_parts s), s_nbound s, s_death s, s_sink s)) (match unbind_1 loosening 1 0 false 6 cluster with Done s => Some s | _ => None end) = Some ([7; 4; 1; 6; 3; 5; 2; 8]%Z, 3, (-1)%Z, (-1)%Z).
Proof. vm_compute. reflexivity. Qed.
Example C34_witness : option_map (fun s => (map fst (s_parts s), s_nbound s, s_death s, s_sink s)) (match unbind_1 (fun w k l i => 15 + loosening w k l i)%Z 1 0 false 6 cluster with Done s => Some s | _ => None end) = Some ([1; 2; 3; 4; 5; 6; 7; 8]%Z, 1, 4%Z, 8%Z).
Proof. vm_compute. reflexivity. Qed.
Example C35_witness : option_map (fun s => (map fst (s_parts s), s_nbound s)) (match unbind_1 loosening (1 # 2) 3 true 6 cluster with Done s => Some s | _ => None end) = Some ([1; 4; 7; 6; 3; 5; 2; 8]%Z, 6) /\
  option_map (fun s => (map fst (s_parts s), s_nbound s)) (match unbind_1 loosening (1 # 2) 3 false 6 cluster with Done s => Some s | _ => None end) = Some ([7; 4; 1; 6; 3; 5; 2; 8]%Z, 6).
Proof. split; vm_compute; reflexivity. Qed.
Example C35_fixed_witness : (forall parts k l i e p, nth_error l i = Some e -> nth_error parts (fst e) = Some p -> frozen (parts, s_rest cluster) k l i = snd p) /\
  (forall p, In p (s_parts cluster) -> z_neg (snd p) = negb (z_pos (snd p))) /\ 3 <= length (filter (fun p => z_neg (snd p)) (s_parts cluster)).
Proof.
  split; [|split].
  - intros parts k l i e p He Hp. unfold frozen, loosening. cbn [fst]. rewrite He, Hp. lia.
  - intros p Hp. cbn in Hp. intuition; subst; reflexivity.
  - vm_compute. lia.
Qed.

(** C33 needs a precision of at most one: above, a subhalo from which nothing more is stripped is unbound again against the
    zero particles that were removed, from an empty tree. *)
Theorem C33_precision_above_one_refuted : exists (precision : Q) (s : sub Z nat), (1 < precision)%Q /\ unbind_1 frozen precision 0 false 6 s = Crash.
Proof. exists (3 # 2)%Q, cluster. split; vm_compute; reflexivity. Qed.
Print Assumptions C33_precision_above_one_refuted.

(** A subhalo lost at snapshot 5, still lost at 6, found bound at 7, lost at 9 and 10. *)
Definition step_1 (snap : Z) (s : sub Z nat) : sub Z nat := done cluster (unbind_1 frozen 1 0 false snap s).
Definition few : sub Z nat := set_parts (firstn 3 (s_parts cluster)) (new_sub 0).
Definition step_5 := step_1 5 few.
Definition step_6 := step_1 6 (set_parts [] step_5).
Definition step_7 := step_1 7 (set_parts (s_parts cluster) step_6).
Definition step_9 := step_1 9 (set_parts (s_parts few) step_7).
Definition step_10 := step_1 10 step_9.
Example C36_witness : life (fun snap a b => unbind_1 frozen 1 0 false snap a = Done b) ([(5%Z, step_5); (6%Z, step_6); (7%Z, step_7)] ++ [(9%Z, step_9); (10%Z, step_10)]) step_10 /\
  map s_nbound [step_5; step_6; step_7; step_9; step_10] = [1; 0; 6; 1; 1] /\ map s_death [step_5; step_6; step_7; step_9; step_10] = [5; 5; -1; 9; 9]%Z.
Proof.
  split; [|split; vm_compute; reflexivity].
  apply (life_unbind _ [_; _; _; _] step_9 step_9 10); [|reflexivity|lia|vm_compute; reflexivity].
  apply (life_unbind _ [_; _; _] step_7 (set_parts (s_parts few) step_7) 9); [|vm_compute; reflexivity|lia|vm_compute; reflexivity].
  apply (life_unbind _ [_; _] step_6 (set_parts (s_parts cluster) step_6) 7); [|vm_compute; reflexivity|lia|vm_compute; reflexivity].
  apply (life_unbind _ [_] step_5 (set_parts [] step_5) 6); [|vm_compute; reflexivity|lia|vm_compute; reflexivity].
  apply (life_unbind _ [] few few 5); [|reflexivity|lia|vm_compute; reflexivity].
  constructor. reflexivity.
Qed.

(** Process 0 of the third snapshot, after the masking of C31: particles whose id is a multiple of three are unbound in
    small subhalos, and go to the central. *)
Definition thirds (w : list (Z * Z) * nat) (k : nat) (l : list (nat * Z)) (i : nat) : Z :=
  if (length l <? 12) && (by_id w l i mod 3 =? 0)%Z then 1%Z else (by_id w l i - 100)%Z.
Example C37_witness : nest_history (H := Q) (map p_out sim1) /\ nest_begun (map p_out sim1) sim2 /\
  option_map (fun p => match mask_halos 3 [0%nat] (tl (p_table p)) (p_heads p) (p_nested p) with
     | Done subs => (p_heads p, map s_nest subs, map (fun s => map fst (s_parts s)) subs,
         match refine_particles z_neg z_pos e_sort (@rev (Z * Z)) thirds by_id 0%Z rest_same (fun p => inject_Z (fst p)) 2 (converged_q 1) 0 false (allowed_q 3) 2 3 [0] (unnested (p_table p) subs) (p_table p) (p_heads p) subs with
         | Done out => map (fun s => (s_nbound s, map fst (s_parts s))) out | _ => [] end)
     | _ => ([], [], [], []) end) (nth_error sim2 0) =
    Some ([[2; 0]], [[1]; []; []]%Z, [[10; 11; 12; 13; 14; 15]; [20; 21; 22]; [30; 16; 17; 18; 19; 23; 24; 25; 26; 27; 28; 29; 31; 32; 33; 34; 35; 36; 37]]%Z,
          [(4, [10; 11; 13; 14; 12; 15; 21]%Z); (2, [20; 22; 21]%Z); (22, [12; 15; 16; 17; 18; 19; 21; 23; 24; 25; 26; 27; 28; 29; 30; 31; 32; 33; 34; 35; 36; 37]%Z)]).
Proof. split; [apply sim_history|]. split; [apply sim2_run|]. vm_compute. reflexivity. Qed.
Example C38_witness : let s := set_nbound 2 cluster in truncate (allowed_q (5 # 2)) s = set_parts (firstn 5 (s_parts s)) s /\ truncate (allowed_q (5 # 2)) (set_nbound 1 s) = set_parts (firstn 1 (s_parts s)) (set_nbound 1 s).
Proof. split; reflexivity. Qed.
