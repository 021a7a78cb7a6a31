(** Proofs about energies and reference frames. *)
From Coq Require Import List ZArith QArith Qfield Bool Lia Lqa Sorting.Permutation.
From Verif.Model Require Import ListMem Mpi Run Mymath Tree Unbind Frames.
From Verif.Spec Require Import Basic Octree Chains Frames.
From Verif.Proofs Require Import ListMemProofs ListExtra MymathProofs MymathProofs2 MpiProofs TreeInsert TreeResults PartitionProofs LinkPara.
Import ListNotations.
Local Open Scope nat_scope.

(** *** Sums. *)
Lemma fold_qsum (g : nat -> Q) ids : forall a, (fold_left (fun a i => a + g i) ids a == a + qsum g ids)%Q.
Proof. unfold qsum. induction ids as [|i r IH]; intros a; cbn [fold_left fold_right]; [ring|]. rewrite IH. ring. Qed.
Lemma qsum_app g a b : (qsum g (a ++ b) == qsum g a + qsum g b)%Q.
Proof. unfold qsum. induction a as [|i r IH]; cbn [app fold_right]; [ring|]. rewrite IH. ring. Qed.
Lemma qsum_perm g a b : Permutation a b -> (qsum g a == qsum g b)%Q.
Proof. unfold qsum. induction 1; cbn [fold_right]; [reflexivity|rewrite IHPermutation; reflexivity|ring|rewrite IHPermutation1; exact IHPermutation2]. Qed.
Lemma qsum_ext g h ids : (forall i, In i ids -> g i == h i)%Q -> (qsum g ids == qsum h ids)%Q.
Proof. unfold qsum. induction ids as [|i r IH]; intros H; cbn [fold_right]; [reflexivity|]. rewrite IH by (intros k Hk; apply H; right; exact Hk). rewrite (H i) by (left; reflexivity). reflexivity. Qed.
Lemma qsum_bounds m g lo hi ids : (forall i, In i ids -> 0 <= m i /\ lo <= g i /\ g i <= hi)%Q -> (lo * qsum m ids <= qsum (fun i => m i * g i) ids <= hi * qsum m ids)%Q.
Proof.
  unfold qsum. induction ids as [|i r IH]; intros H; cbn [fold_right]; [split; lra|]. destruct (H i (or_introl eq_refl)) as (H1 & H2 & H3). destruct IH as [I1 I2]; [intros k Hk; apply H; right; exact Hk|]. split; nra.
Qed.
Lemma qsum_pos m ids : ids <> [] -> (forall i, In i ids -> 0 < m i)%Q -> (0 < qsum m ids)%Q.
Proof.
  unfold qsum. destruct ids as [|i r]; [congruence|]. intros _ H. cbn [fold_right]. assert (0 <= fold_right (fun i a => m i + a) 0 r)%Q. { assert (H' : forall k, In k r -> (0 < m k)%Q) by (intros k Hk; apply H; right; exact Hk). clear H. induction r as [|k r IH]; cbn [fold_right]; [lra|]. specialize (IH (fun k' Hk => H' k' (or_intror Hk))). specialize (H' k (or_introl eq_refl)). lra. }
  specialize (H i (or_introl eq_refl)). lra.
Qed.

(** *** Coordinates. *)
Lemma dot_coord a b : (dot a b == coord 0 a * coord 0 b + coord 1 a * coord 1 b + coord 2 a * coord 2 b)%Q.
Proof. destruct a as [[? ?] ?], b as [[? ?] ?]. reflexivity. Qed.
Lemma coord_vmap2 f a b j : coord j (vmap2 f a b) = f (coord j a) (coord j b).
Proof. destruct a as [[? ?] ?], b as [[? ?] ?]. destruct j as [|[|j]]; reflexivity. Qed.
Lemma coord_vmap f a j : coord j (vmap f a) = f (coord j a).
Proof. destruct a as [[? ?] ?]. destruct j as [|[|j]]; reflexivity. Qed.
Lemma nearest_unique L d e : (0 < L)%Q -> (- (3 # 2) * L <= d <= (3 # 2) * L)%Q -> same_image L e d -> (- (1 # 4) * L <= e <= (1 # 4) * L)%Q -> (nearest L d == e)%Q.
Proof.
  intros HL Hd He Hb. destruct (nearest_spec L d HL Hd) as [Hn Hi]. assert (Hs : same_image L (nearest L d) e) by (eapply same_image_trans; [exact Hi|apply same_image_sym; exact He]).
  destruct Hs as [k Hk]. assert (E2 : (L / 2 == L * (1 # 2))%Q) by (unfold Qdiv; change (/ 2)%Q with (1 # 2)%Q; reflexivity). rewrite E2 in Hn.
  assert (Hk0 : (k = 0)%Z). { assert (Hlt : (- L < inject_Z k * L < L)%Q) by lra. destruct (Z_lt_le_dec k 0) as [H|H]; [|destruct (Z_lt_le_dec 0 k) as [H'|H']; [|lia]].
    - exfalso. assert (inject_Z k <= -1)%Q by (change (-1)%Q with (inject_Z (-1)); rewrite <- Zle_Qle; lia). nra.
    - exfalso. assert (1 <= inject_Z k)%Q by (change 1%Q with (inject_Z 1); rewrite <- Zle_Qle; lia). nra. }
  subst k. rewrite Hk. change (inject_Z 0) with 0%Q. ring.
Qed.

(** *** Lists. *)
Lemma on_first_nth k e (l : list (nat * Q)) i : nth_error (on_first k e l) i = option_map (fun x => if i <? k then (fst x, e i x) else x) (nth_error l i).
Proof.
  unfold on_first. destruct (nth_error l i) as [x|] eqn:Ee; cbn.
  - pose proof (nth_error_lt _ _ _ Ee) as Hi. erewrite map_nth_error; [|apply combine_nth_error; [rewrite nth_seq; destruct (Nat.ltb_spec i (length l)); [reflexivity|lia]|exact Ee]]. reflexivity.
  - apply nth_error_None in Ee. apply nth_error_None. rewrite map_length, combine_length, seq_length. lia.
Qed.
Lemma on_first_length k e (l : list (nat * Q)) : length (on_first k e l) = length l.
Proof. unfold on_first. rewrite map_length, combine_length, seq_length. lia. Qed.
Lemma on_first_fst k e (l : list (nat * Q)) : map fst (on_first k e l) = map fst l.
Proof. apply nth_error_ext. intros i. rewrite !nth_error_map, on_first_nth. destruct (nth_error l i) as [x|]; [|reflexivity]. cbn [option_map]. destruct (i <? k); reflexivity. Qed.

Section F.
  Local Notation entry := (nat * Q)%type.
  Variable body : nat -> particle.
  Variables (periodic : bool) (L : Q).
  Variables (hubble unit soft : Q) (phi : vec -> vec -> Q).
  Variable sorter : sort_site -> list entry -> list entry.
  Variables (min_part : nat) (converged : nat -> nat -> bool) (max_sample : nat) (refine : bool).
  Variable c : vec.
  Hypothesis box_ok : periodic = true -> (0 < L)%Q.
  Definition placed (x : vec) : Prop := periodic = true -> gathered L c x.

  Local Notation rel_vel := (rel_vel periodic L hubble).
  Local Notation attraction := (attraction body unit soft phi).
  Local Notation binding := (binding body periodic L hubble unit soft phi).
  Local Notation energies := (energies body periodic L hubble unit soft phi max_sample).
  Local Notation turn := (turn body periodic L hubble unit soft phi sorter min_part converged max_sample refine).
  Local Notation average_frame := (average_frame body periodic L).

  Lemma apart_gathered x y j : placed x -> placed y -> periodic = true -> forall k k', 
    (- (1 # 8) * L <= coord j x + inject_Z k * L - coord j c <= (1 # 8) * L)%Q -> (- (1 # 8) * L <= coord j y + inject_Z k' * L - coord j c <= (1 # 8) * L)%Q ->
    (coord j (apart periodic L x y) == (coord j x + inject_Z k * L) - (coord j y + inject_Z k' * L))%Q.
  Proof.
    intros Hx Hy Hp k k' Hk Hk'. rewrite apart_coord, Hp. destruct (Hx Hp j) as [Bx _]. destruct (Hy Hp j) as [By _]. specialize (box_ok Hp). apply nearest_unique; [exact box_ok|lra| |lra].
    exists (k - k')%Z. unfold Z.sub. rewrite inject_Z_plus, inject_Z_opp. ring.
  Qed.
  Lemma apart_add x y z j : placed x -> placed y -> placed z -> (coord j (apart periodic L x z) == coord j (apart periodic L x y) + coord j (apart periodic L y z))%Q.
  Proof.
    intros Hx Hy Hz. destruct (Bool.bool_dec periodic true) as [Hp|Hp].
    - destruct (Hx Hp j) as (_ & kx & Kx). destruct (Hy Hp j) as (_ & ky & Ky). destruct (Hz Hp j) as (_ & kz & Kz).
      rewrite (apart_gathered x z j Hx Hz Hp kx kz Kx Kz), (apart_gathered x y j Hx Hy Hp kx ky Kx Ky), (apart_gathered y z j Hy Hz Hp ky kz Ky Kz). ring.
    - rewrite !apart_coord. destruct periodic; [congruence|]. ring.
  Qed.
  Lemma rel_vel_coord x v f j : (coord j (rel_vel x v f) == coord j v - coord j (snd f) + hubble * coord j (apart periodic L x (fst f)))%Q.
  Proof. unfold Frames.rel_vel. rewrite coord_vmap2, coord_vmap2. unfold scale. rewrite coord_vmap. reflexivity. Qed.
  (** The change of the kinetic energy. *)
  Lemma kinetic_change x v old f : placed x -> placed (fst old) -> placed (fst f) ->
    (norm2 (rel_vel x v f) * (1 # 2) == norm2 (rel_vel x v old) * (1 # 2) + (dot (rel_vel x v old) (rel_vel (fst old) (snd old) f) + (1 # 2) * norm2 (rel_vel (fst old) (snd old) f)))%Q.
  Proof.
    intros Hx Ho Hf. rewrite !norm2_coord, dot_coord, !rel_vel_coord. rewrite (apart_add x (fst old) (fst f) 0 Hx Ho Hf), (apart_add x (fst old) (fst f) 1 Hx Ho Hf), (apart_add x (fst old) (fst f) 2 Hx Ho Hf). ring.
  Qed.
  Lemma attraction_eq factor ids self x : (attraction factor ids self x == unit * (self / soft + qsum (fun i => p_m (body i) * factor * phi (p_x (body i)) x) ids))%Q.
  Proof. unfold Frames.attraction. rewrite (fold_qsum (fun i => p_m (body i) * factor * phi (p_x (body i)) x)%Q). reflexivity. Qed.
  (** The energy in a frame with the particles [set]. *)
  Definition direct (f : frame) (set : list nat) (p : nat) : Q := (binding 1 set (p_m (body p)) f (body p) + p_u (body p))%Q.
  Lemma direct_perm f a b p : Permutation a b -> (direct f a p == direct f b p)%Q.
  Proof. intros H. unfold direct, Frames.binding. rewrite !attraction_eq, (qsum_perm _ _ _ H). reflexivity. Qed.
  Lemma direct_change old f a b p : placed (p_x (body p)) -> placed (fst old) -> placed (fst f) ->
    (direct old (a ++ b) p + (dot (rel_vel (p_x (body p)) (p_v (body p)) old) (rel_vel (fst old) (snd old) f) + (1 # 2) * norm2 (rel_vel (fst old) (snd old) f) - attraction 1 b 0 (p_x (body p))) == direct f a p)%Q.
  Proof.
    intros Hx Ho Hf. unfold direct, Frames.binding. rewrite (kinetic_change _ (p_v (body p)) old f Hx Ho Hf), !attraction_eq, qsum_app. unfold Qdiv. ring.
  Qed.
  Lemma offset_apart x y j : placed x -> placed y -> least_offset periodic L (coord j x) (coord j y) (coord j (apart periodic L x y)).
  Proof.
    intros Hx Hy. rewrite apart_coord. unfold least_offset. destruct (Bool.bool_dec periodic true) as [Hp|Hp].
    - rewrite Hp. destruct (Hx Hp j) as [Bx _]. destruct (Hy Hp j) as [By _]. pose proof (box_ok Hp) as HL. assert (Hr : near_range L (coord j x) (coord j y)) by (unfold near_range; lra). split; [apply nearest_spec; [exact HL|exact Hr]|].
      intros e' He. pose proof (Qabs_sq _ _ (nearest_le L _ _ e' HL Hr He)). lra.
    - destruct periodic; [congruence|]. reflexivity.
  Qed.
  Lemma offset_unique x y j d : placed x -> placed y -> least_offset periodic L (coord j x) (coord j y) d -> (coord j (apart periodic L x y) == d)%Q.
  Proof.
    intros Hx Hy Hd. destruct (Bool.bool_dec periodic true) as [Hp|Hp].
    - destruct (Hx Hp j) as (Bx & kx & Kx). destruct (Hy Hp j) as (By & ky & Ky). pose proof (box_ok Hp) as HL. pose proof (apart_gathered x y j Hx Hy Hp kx ky Kx Ky) as HA. pose proof (offset_apart x y j Hx Hy) as HH.
      unfold least_offset in Hd, HH. rewrite Hp in Hd, HH, HA |- *. destruct HH as [Hi _]. destruct Hd as [Hi' Hmin]. specialize (Hmin _ Hi). rewrite apart_coord. rewrite apart_coord in HA, Hmin. apply nearest_unique; [exact HL|lra|exact Hi'|]. set (z := nearest L (coord j x - coord j y)) in *.
      assert (Hz : (- (1 # 4) * L <= z <= (1 # 4) * L)%Q) by lra. clearbody z. split; nra.
    - rewrite apart_coord. unfold least_offset in Hd. destruct periodic; [congruence|]. rewrite Hd. reflexivity.
  Qed.
  Lemma direct_unfold f set p : (direct f set p == let w := fun j => coord j (p_v (body p)) - coord j (snd f) + hubble * coord j (apart periodic L (p_x (body p)) (fst f)) in
    (1 # 2) * (w 0%nat * w 0%nat + w 1%nat * w 1%nat + w 2%nat * w 2%nat) + unit * (p_m (body p) / soft + qsum (fun i => p_m (body i) * phi (p_x (body i)) (p_x (body p))) set) + p_u (body p))%Q.
  Proof. cbn zeta. unfold direct, Frames.binding. rewrite attraction_eq, norm2_coord, !rel_vel_coord. rewrite (qsum_ext (fun i => p_m (body i) * 1 * phi (p_x (body i)) (p_x (body p)))%Q (fun i => p_m (body i) * phi (p_x (body i)) (p_x (body p)))%Q) by (intros; ring). ring. Qed.
  Lemma direct_energy f set p e : placed (fst f) -> placed (p_x (body p)) -> (e == direct f set p)%Q -> energy_in body periodic L hubble unit soft phi f set p e.
  Proof.
    intros Hf Hx He. exists (coord 0 (apart periodic L (p_x (body p)) (fst f))), (coord 1 (apart periodic L (p_x (body p)) (fst f))), (coord 2 (apart periodic L (p_x (body p)) (fst f))).
    split; [apply offset_apart; assumption|]. split; [apply offset_apart; assumption|]. split; [apply offset_apart; assumption|]. cbn zeta. rewrite He, direct_unfold. reflexivity.
  Qed.
  Lemma energy_direct f set p e : placed (fst f) -> placed (p_x (body p)) -> energy_in body periodic L hubble unit soft phi f set p e -> (e == direct f set p)%Q.
  Proof.
    intros Hf Hx (d0 & d1 & d2 & H0 & H1 & H2 & H3). rewrite direct_unfold. cbn zeta in *. cbv beta in *. rewrite (offset_unique _ _ 0 d0 Hx Hf H0), (offset_unique _ _ 1 d1 Hx Hf H1), (offset_unique _ _ 2 d2 Hx Hf H2). exact H3.
  Qed.

  Variable n : nat.
  Hypothesis sorter_ok : forall site l, Permutation (sorter site l) l.
  Hypothesis mass_ok : forall i, (i < n)%nat -> (0 < p_m (body i))%Q.
  Hypothesis body_ok : forall i, (i < n)%nat -> placed (p_x (body i)) /\ (periodic = true -> in_domain L (p_x (body i))).
  Hypothesis full : max_sample = 0 \/ n <= max_sample.
  (** *** Averages. *)
  Lemma fold_vadd (g : nat -> vec) ids j : forall a, (coord j (fold_left (fun a i => vadd a (g i) (p_m (body i))) ids a) == coord j a + qsum (fun i => p_m (body i) * coord j (g i)) ids)%Q.
  Proof.
    unfold qsum. induction ids as [|i r IH]; intros a; cbn [fold_left fold_right]; [ring|]. rewrite IH. unfold vadd. rewrite coord_vmap2. ring.
  Qed.
  Lemma weighted_mean g ids : (0 < qsum (fun i => p_m (body i)) ids)%Q -> mean (fun i => p_m (body i)) g ids (weighted body g ids).
  Proof.
    intros HM j. unfold weighted. rewrite coord_vmap, fold_vadd. assert (E : (mass_of body ids == qsum (fun i => p_m (body i)) ids)%Q) by (unfold mass_of; rewrite (fold_qsum (fun i => p_m (body i))); ring).
    rewrite E. assert (E0 : (coord j (0, 0, 0) == 0)%Q) by (destruct j as [|[|j]]; reflexivity). rewrite E0. field. intros H. rewrite H in HM. lra.
  Qed.
  Lemma average_placed ids before : (forall i, In i ids -> i < n) -> placed before -> placed (average_position body periodic L ids before).
  Proof.
    intros Hid Hb. unfold average_position. destruct ids as [|o [|o' r]]; [exact Hb|apply body_ok; apply Hid; left; reflexivity|]. set (ids := o :: o' :: r) in *. intros Hp. rewrite Hp.
    assert (Ho : o < n) by (apply Hid; left; reflexivity). destruct (body_ok o Ho) as [Po Do]. specialize (Do Hp). pose proof (box_ok Hp) as HL.
    assert (HM : (0 < qsum (fun i => p_m (body i)) ids)%Q) by (apply qsum_pos; [discriminate|intros i Hi; apply mass_ok, Hid, Hi]).
    intros j. rewrite coord_vmap2. set (X := coord j (weighted body (fun i => apart true L (p_x (body i)) (p_x (body o))) ids)).
    pose proof (weighted_mean (fun i => apart true L (p_x (body i)) (p_x (body o))) ids HM j) as HE. fold X in HE. destruct (Po Hp j) as (Bo & ko & Ko). specialize (Do j).
    destruct (qsum_bounds (fun i => p_m (body i)) (fun i => coord j (apart true L (p_x (body i)) (p_x (body o)))) (coord j c - (1 # 8) * L - (coord j (p_x (body o)) + inject_Z ko * L))%Q (coord j c + (1 # 8) * L - (coord j (p_x (body o)) + inject_Z ko * L))%Q ids) as [H1 H2].
    - intros i Hi. apply Hid in Hi. pose proof (mass_ok i Hi). destruct (body_ok i Hi) as [Pi _]. destruct (Pi Hp j) as (_ & ki & Ki). pose proof (apart_gathered _ _ j Pi Po Hp ki ko Ki Ko) as HA. rewrite Hp in HA. rewrite HA. split; [lra|]. split; lra.
    - rewrite <- HE in H1, H2. set (M := qsum (fun i => p_m (body i)) ids) in *. assert (G1 : (coord j c - (1 # 8) * L - (coord j (p_x (body o)) + inject_Z ko * L) <= X)%Q) by nra. assert (G2 : (X <= coord j c + (1 # 8) * L - (coord j (p_x (body o)) + inject_Z ko * L))%Q) by nra.
      split; [lra|]. exists ko. lra.
  Qed.

  (** *** The loop. *)
  Definition ids (l : list entry) (k : nat) : list nat := map fst (firstn k l).
  Definition inv (st : ustate) : Prop :=
    Permutation (map fst (u_list st)) (seq 0 n) /\ u_nb st <= n /\ placed (fst (u_ref st)) /\
    (u_corr st = true -> u_nb st <= u_last st <= n /\ placed (fst (u_old st)) /\
       forall i p e, i < u_nb st -> nth_error (u_list st) i = Some (p, e) -> (e == direct (u_old st) (ids (u_list st) (u_last st)) p)%Q).
  Lemma inv_length st : inv st -> length (u_list st) = n.
  Proof. intros (HP & _). apply Permutation_length in HP. rewrite map_length, seq_length in HP. exact HP. Qed.
  Lemma inv_pid st i p e : inv st -> nth_error (u_list st) i = Some (p, e) -> p < n.
  Proof. intros (HP & _) Hi. assert (Hin : In p (map fst (u_list st))) by (apply in_map_iff; exists (p, e); split; [reflexivity|eapply nth_error_In; eauto]). apply (Permutation_in _ HP) in Hin. apply in_seq in Hin. lia. Qed.
  Lemma energies_fst st : map fst (energies st) = map fst (u_list st).
  Proof. unfold Frames.energies, correct, evaluate_all. destruct (u_corr st); apply on_first_fst. Qed.
  Lemma energies_right st : inv st -> forall i p e, i < u_nb st -> nth_error (energies st) i = Some (p, e) -> p < n /\ (e == direct (u_ref st) (ids (u_list st) (u_nb st)) p)%Q.
  Proof.
    intros HI i p e Hi He. pose proof (inv_length st HI) as HL. assert (HI' := HI). destruct HI' as (HP & Hnb & Href & Hcorr). unfold Frames.energies in He. destruct (u_corr st) eqn:Ec.
    - unfold correct in He. rewrite on_first_nth in He. destruct (nth_error (u_list st) i) as [[p0 e0]|] eqn:E0; [|discriminate]. cbn [option_map] in He. destruct (Nat.ltb_spec i (u_nb st)); [|lia]. cbn [fst snd] in He.
      destruct (Hcorr eq_refl) as (Hlast & Hold & HE). assert (Hp0 := inv_pid st i p0 e0 HI E0). injection He as <- <-. split; [exact Hp0|]. rewrite (HE i p0 e0 Hi E0).
      rewrite <- (direct_change (u_old st) (u_ref st) (ids (u_list st) (u_nb st)) (map fst (firstn (u_last st - u_nb st) (skipn (u_nb st) (u_list st)))) p0); [|apply body_ok; exact Hp0|exact Hold|exact Href].
      apply Qplus_comp; [|reflexivity]. unfold ids. rewrite <- map_app. replace (firstn (u_nb st) (u_list st) ++ firstn (u_last st - u_nb st) (skipn (u_nb st) (u_list st))) with (firstn (u_last st) (u_list st)); [reflexivity|].
      rewrite <- (firstn_skipn (u_nb st) (firstn (u_last st) (u_list st))) at 1. rewrite firstn_firstn, Nat.min_l by lia. f_equal. rewrite skipn_firstn_comm. reflexivity.
    - unfold evaluate_all in He. assert (Es : (0 <? max_sample) && (max_sample <? u_nb st) = false). { destruct full as [->|Hm]; [reflexivity|]. destruct (Nat.ltb_spec max_sample (u_nb st)); [lia|]. apply andb_false_r. }
      rewrite Es in He. rewrite on_first_nth in He. destruct (nth_error (u_list st) i) as [[p0 e0]|] eqn:E0; [|discriminate]. cbn [option_map] in He. destruct (Nat.ltb_spec i (u_nb st)); [|lia]. cbn [fst snd] in He. injection He as <- <-.
      split; [apply (inv_pid st i p0 e0 HI E0)|]. unfold direct, Frames.binding. rewrite !attraction_eq. fold (ids (u_list st) (u_nb st)). unfold Qdiv. ring.
  Qed.
  Lemma turn_inv st st' : inv st -> turn st = Done (inl st') -> (u_corr st = true -> small_change max_sample (u_nb st) (u_nb st') = true) -> inv st'.
  Proof.
    intros HI HT Hs. pose proof (inv_length st HI) as HL. pose proof (energies_right st HI) as HR. assert (HI' := HI). destruct HI' as (HP & Hnb & Href & Hcorr).
    assert (HLe : length (energies st) = n) by (rewrite <- (map_length fst), energies_fst, map_length; exact HL).
    unfold Frames.turn in HT. destruct (if u_corr st then u_last st =? u_nb st else u_nb st =? 0) eqn:Ecr; [discriminate|].
    assert (Hone : forall e, Qneg e = true -> Qpos e = false). { intros e He. unfold Qneg, Qpos in *. apply Qgtb_spec in He. apply Qgtb_false. lra. }
    destruct (partition_ok Qneg Qpos Hone (energies st) (u_nb st)) as (l1 & m & EP & HP1 & HT1 & Hm & _); [lia|]. rewrite EP in HT. cbn [rbind] in HT. destruct (m <? min_part); [discriminate|].
    set (l2 := firstn m l1 ++ sorter SortUnbound (firstn (u_nb st - m) (skipn m l1)) ++ skipn (u_nb st) l1) in *. destruct (converged _ _); [destruct (of_opt _); discriminate|]. injection HT as <-. cbn [u_nb] in Hs.
    assert (HL1 : length l1 = n) by (rewrite (Permutation_length HP1); exact HLe).
    assert (Hab : firstn m l1 ++ firstn (u_nb st - m) (skipn m l1) = firstn (u_nb st) l1). { rewrite <- (firstn_skipn m (firstn (u_nb st) l1)) at 1. rewrite firstn_firstn, Nat.min_l by lia. f_equal. rewrite skipn_firstn_comm. reflexivity. }
    assert (Hsk : skipn (u_nb st) l1 = skipn (u_nb st) (energies st)). { apply nth_error_ext. intros i. rewrite !nth_skipn. apply HT1. lia. }
    assert (HPn : Permutation (firstn (u_nb st) l1) (firstn (u_nb st) (energies st))). { apply (Permutation_app_inv_r (skipn (u_nb st) l1)). rewrite Hsk at 2. rewrite !firstn_skipn. exact HP1. }
    assert (Hlm : length (firstn m l1) = m) by (rewrite firstn_length; lia).
    assert (Hls : length (sorter SortUnbound (firstn (u_nb st - m) (skipn m l1))) = u_nb st - m) by (rewrite (Permutation_length (sorter_ok _ _)), firstn_length, skipn_length; lia).
    assert (H2 : firstn (u_nb st) l2 = firstn m l1 ++ sorter SortUnbound (firstn (u_nb st - m) (skipn m l1))).
    { unfold l2. rewrite app_assoc, firstn_app, firstn_all2 by (rewrite app_length; lia). rewrite app_length, Hlm, Hls. replace (u_nb st - (m + (u_nb st - m))) with 0 by lia. cbn [firstn]. rewrite app_nil_r. reflexivity. }
    assert (HP2 : Permutation (firstn (u_nb st) l2) (firstn (u_nb st) (energies st))). { rewrite H2, <- HPn, <- Hab. apply Permutation_app_head. apply sorter_ok. }
    assert (HPl2 : Permutation l2 (energies st)). { unfold l2. rewrite app_assoc. rewrite <- (firstn_skipn (u_nb st) (energies st)). apply Permutation_app; [rewrite <- H2; exact HP2|rewrite Hsk; reflexivity]. }
    assert (HPf : Permutation (map fst l2) (seq 0 n)) by (rewrite HPl2, energies_fst; exact HP).
    split; [exact HPf|]. cbn [u_list u_nb u_ref u_corr u_last u_old]. split; [lia|]. split.
    - apply average_placed; [|exact Href]. intros i Hi. apply in_map_iff in Hi as ([p e] & <- & Hi). assert (Hin : In p (map fst l2)) by (apply in_map_iff; exists (p, e); split; [reflexivity|rewrite <- (firstn_skipn m l2); apply in_or_app; left; exact Hi]). apply (Permutation_in _ HPf) in Hin. apply in_seq in Hin. cbn [fst]. lia.
    - intros Hc. split; [lia|]. assert (Hsm : small_change max_sample (u_nb st) m = true) by (destruct (u_corr st); [apply Hs; reflexivity|exact Hc]). rewrite Hsm. split; [exact Href|].
      intros i p e Hi He. assert (Hin : In (p, e) (firstn (u_nb st) l2)). { apply nth_error_In with i. rewrite nth_firstn. destruct (Nat.ltb_spec i (u_nb st)); [exact He|lia]. }
      apply (Permutation_in _ HP2) in Hin. apply In_nth_error in Hin as (i' & Hi'). rewrite nth_firstn in Hi'. destruct (Nat.ltb_spec i' (u_nb st)) as [Hlt|]; [|discriminate].
      destruct (HR i' p e Hlt Hi') as [_ ->]. apply direct_perm. unfold ids. rewrite <- !firstn_map, <- (energies_fst st), !firstn_map. apply Permutation_map. symmetry. exact HP2.
  Qed.
  Lemma first_inv f old : placed (fst f) -> inv (first_state n f old).
  Proof. intros Hf. split; [cbn [first_state u_list]; rewrite map_map; cbn [fst]; rewrite map_id; reflexivity|]. cbn [first_state u_nb u_ref u_corr]. split; [lia|]. split; [exact Hf|discriminate]. Qed.
End F.
