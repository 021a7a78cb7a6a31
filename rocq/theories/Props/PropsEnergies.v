(** Property C80: the binding energies that are saved with the particles. *)
From Coq Require Import List ZArith QArith Bool Lia Sorting.Permutation Sorting.Sorted.
From Verif.Model Require Import ListMem Mpi Run Subhalo Unbind.
From Verif.Model Require Purge.
From Verif.Spec Require Import Unbinding.
From Verif.Proofs Require Import ListMemProofs MpiProofs ListExtra PartitionProofs UnbindProofs.
From Verif.Props Require Import PropsUnbind.
Import ListNotations.
Local Open Scope nat_scope.

Section Config.
  Context {X R E : Type}.
  Local Notation entry := (nat * E)%type.
  Variables neg pos : E -> bool.
  Variable lt : E -> E -> bool.
  Variable sorter : sort_site -> list entry -> list entry.
  Variable shuffle : list (Z * X) -> list (Z * X).
  Variable energy : list (Z * X) * R -> nat -> list entry -> nat -> E.
  Variable inner : list (Z * X) * R -> list entry -> nat -> E.
  Variable no_energy : E.
  Variable rest_of : list (Z * X) -> nat -> R -> R.
  Variable pmass : Z * X -> Q.
  Variables (min_part : nat) (converged : nat -> nat -> bool) (max_sample : nat) (refine : bool).
  Hypothesis one_sign : forall e, neg e = true -> pos e = false.
  Hypothesis sorter_ok : forall site l, Permutation (sorter site l) l /\ ascending lt snd (sorter site l).
  Hypothesis shuffle_ok : forall l, Permutation (shuffle l) l.
  Hypothesis converged_ok : forall n, converged n n = true.
  Local Notation unbind := (unbind neg pos sorter shuffle energy inner no_energy rest_of pmass min_part converged max_sample refine).
  Local Notation saved_energies := (saved_energies neg pos sorter shuffle energy inner no_energy min_part converged max_sample refine).
  Local Notation measured := (measured neg pos sorter shuffle energy inner no_energy min_part converged max_sample refine).
  Local Notation rounds := (rounds neg pos energy no_energy min_part converged).

  (** C80: there are as many energies as bound particles; the i-th is the energy that the i-th particle had in the last round, not
      positive; without refinement they ascend. *)
  Theorem C80_energies_of_particles : forall snap zero s s', 2 <= min_part -> unbind snap s = Done s' ->
    exists es, saved_energies zero s = Done es /\ length es = s_nbound s' /\
      (1 < s_nbound s' -> exists parts k l n, Permutation parts (s_parts s) /\ rounds (parts, s_rest s) k l n /\
         Forall2 (fun p e => exists j q, j < n /\ nth_error l j = Some q /\ nth_error parts (fst q) = Some p /\ e = energy (parts, s_rest s) k l j) (firstn (s_nbound s') (s_parts s')) es /\
         Forall (fun e => pos e = false) es /\
         (refine = false \/ max_sample = 0 \/ s_nbound s' <= max_sample -> ascending lt (fun e => e) es)).
  Proof using All.
    intros snap zero s s' Hm Hu. unfold Unbind.unbind, unbind_by in Hu. set (s0 := if length (s_parts s) <? min_part then die snap s else s) in Hu.
    assert (Ep : s_parts s0 = s_parts s) by (unfold s0, die; destruct (_ <? _); [destruct (alive s)|]; reflexivity).
    assert (Er : s_rest s0 = s_rest s) by (unfold s0, die; destruct (_ <? _); [destruct (alive s)|]; reflexivity).
    cbv zeta in Hu. rewrite Ep in Hu. unfold Unbind.saved_energies. destruct (s_parts s) as [|p0 [|p1 r]] eqn:Eparts.
    - injection Hu as <-. exists []. split; [reflexivity|]. split; [reflexivity|]. cbn. lia.
    - injection Hu as <-. exists [zero]. split; [reflexivity|]. split; [reflexivity|]. cbn. lia.
    - set (P := p0 :: p1 :: r) in *. set (n := length P) in *. assert (Hn : 2 <= n) by (unfold n, P; cbn; lia).
      set (sh := if (0 <? max_sample) && (max_sample <? n) then shuffle P else P) in *.
      assert (Psh : Permutation sh P) by (unfold sh; destruct (_ && _); [apply shuffle_ok|reflexivity]).
      assert (Ls : length sh = n) by (apply Permutation_length; exact Psh).
      cbn [s_rest set_parts] in Hu. rewrite Er in Hu. set (w := (sh, s_rest s)) in *.
      pose proof (rounds_start neg pos energy no_energy min_part converged w) as HR0. cbn [fst w] in HR0. rewrite Ls in HR0.
      destruct (loop_ok neg pos lt sorter energy inner no_energy rest_of min_part converged max_sample refine one_sign sorter_ok ltac:(lia) converged_ok w n 0 false _ 0 n HR0) as (e & Ee & He).
      { rewrite map_map. cbn [fst w]. rewrite map_id, Ls. apply Permutation_refl. } { lia. } { rewrite map_length, seq_length. lia. } { discriminate. } { lia. }
      rewrite Ee in Hu |- *. cbn [rbind] in Hu |- *. destruct e as [l'|l' nb'].
      + injection Hu as <-. exists (map snd (firstn 1 l')). split; [reflexivity|]. cbn [s_nbound set_rest set_mass set_parts set_nbound]. split; [|lia].
        destruct He as (k & l & m & a & b & A & B & C & ->). rewrite map_length, firstn_length.
        destruct B as ((ev & L1 & _ & L3) & _). apply Permutation_length in L3.
        assert (M : 1 <= m). { clear -A Hm Hn Ls. inversion A as [|? ? ? a0 b0 ? ? H]; subst; cbn in *; lia. }
        rewrite !app_length. rewrite app_length in L3. lia.
      + destruct He as (k & l & m & a & b & core & A1 & A2 & A3 & A4 & A5 & -> & El & A7 & A8).
        destruct (mapM (fun e => nth_error sh (fst e)) l') as [parts'|] eqn:HM; [|discriminate]. injection Hu as <-.
        exists (map snd (firstn (length a) l')). split; [reflexivity|].
        assert (Hl : firstn (length a) l' = core) by (rewrite El, <- (Permutation_length A8), firstn_app, Nat.sub_diag, firstn_all; apply app_nil_r).
        rewrite Hl. set (s3 := if trapped _ then _ else _). cbn [s_nbound s_parts set_rest set_mass set_parts set_nbound]. clearbody s3.
        split; [rewrite map_length; apply Permutation_length, A8|]. intros _. exists sh, k, l, m. split; [exact Psh|]. split; [exact A1|].
        assert (HF := mapM_F2 _ _ _ HM). rewrite El in HF. apply Forall2_app_inv_l in HF as (l1 & l2 & F1 & F2 & ->).
        assert (El1 : firstn (length a) (l1 ++ l2) = l1) by (rewrite <- (Permutation_length A8), (Forall2_length_eq _ _ _ F1), firstn_app, Nat.sub_diag, firstn_all; apply app_nil_r).
        rewrite El1. destruct A2 as ((ev & L1 & L2 & L3) & Fa & _).
        assert (Hin : forall q, In q core -> exists j q0, j < m /\ nth_error l j = Some q0 /\ fst q0 = fst q /\ snd q = energy w k l j).
        { intros q Hq. apply (Permutation_in _ A8) in Hq. assert (Hev : In q ev) by (apply (Permutation_in _ L3), in_or_app; left; exact Hq).
          apply In_nth_error in Hev as [j Hj]. assert (Lj : j < m) by (rewrite <- L1; eapply nth_error_lt; eauto).
          assert (HL : m <= length l).
          { clear -A1 Hm. inversion A1 as [|k0 l0 n0 a0 b0 ? ? ?]; subst; [rewrite map_length, seq_length; lia|rewrite app_length; lia]. }
          destruct (nth_error_in_range l j ltac:(lia)) as [q0 Hq0]. specialize (L2 j q0 Lj Hq0). exists j, q0. split; [exact Lj|]. split; [exact Hq0|].
          rewrite L2 in Hj. injection Hj as <-. auto. }
        split; [|split].
        * clear -F1 Hin. induction F1 as [|q p es ps Hq F1 IH]; [constructor|]. cbn [map]. constructor; [|apply IH; intros; apply Hin; right; assumption].
          destruct (Hin q (or_introl eq_refl)) as (j & q0 & H1 & H2 & H3 & H4). exists j, q0. rewrite H3. auto.
        * apply Forall_forall. intros e He. apply in_map_iff in He as (q & <- & Hq). rewrite Forall_forall in Fa. apply Fa. apply (Permutation_in _ A8), Hq.
        * intros Hr. destruct A5 as (sorted & P1 & S1 & HO).
          assert (HO' : core = sorted).
          { destruct ((0 <? max_sample) && refine && (max_sample <? length a)) eqn:B; [|exact HO]. exfalso. apply andb_true_iff in B as [B B3]. apply andb_true_iff in B as [B1 B2].
            apply Nat.ltb_lt in B1, B3. destruct Hr as [Hr|[Hr|Hr]]; [congruence|lia|lia]. }
          rewrite HO'. clear -S1. unfold ascending in *. induction S1 as [|x l S IH F]; [constructor|]. cbn [map]. constructor; [exact IH|].
          apply Forall_forall. intros e He. apply in_map_iff in He as (q & <- & Hq). rewrite Forall_forall in F. apply F, Hq.
  Qed.

  (** C80: the averages (C68) of a subhalo found bound are over its bound particles with the energies that are saved. *)
  Theorem C80_averaged_particles : forall snap zero s s', 2 <= min_part -> unbind snap s = Done s' -> 1 < s_nbound s' ->
    exists es, saved_energies zero s = Done es /\ measured s = Done (Some (combine (firstn (s_nbound s') (s_parts s')) es)).
  Proof using All.
    intros snap zero s s' Hm Hu H1. destruct (C80_energies_of_particles snap zero s s' Hm Hu) as (es & Hes & _ & _). exists es. split; [exact Hes|].
    unfold Unbind.unbind, unbind_by in Hu. set (s0 := if length (s_parts s) <? min_part then die snap s else s) in Hu.
    assert (Ep : s_parts s0 = s_parts s) by (unfold s0, die; destruct (_ <? _); [destruct (alive s)|]; reflexivity).
    assert (Er : s_rest s0 = s_rest s) by (unfold s0, die; destruct (_ <? _); [destruct (alive s)|]; reflexivity).
    cbv zeta in Hu. rewrite Ep in Hu. unfold Unbind.saved_energies in Hes. unfold Unbind.measured. destruct (s_parts s) as [|p0 [|p1 r]]; try (injection Hu as <-; cbn in H1; lia).
    cbn [s_rest set_parts] in Hu. rewrite Er in Hu. destruct (unbind_loop _ _ _ _ _ _ _ _ _ _ _ _ _ _ _ _) as [[l|l nb]| |]; try discriminate; cbn [rbind] in *.
    - injection Hu as <-. cbn in H1. lia.
    - destruct (mapM _ l) as [parts'|]; [|discriminate]. injection Hu as <-. injection Hes as <-. reflexivity.
  Qed.

  (** C80 when a particle has the same energy in all rounds: the saved energies are those of the saved particles. *)
  Theorem C80_fixed_energies : forall (en : Z * X -> E) snap zero s s', 2 <= min_part ->
    (forall parts k l i e p, nth_error l i = Some e -> nth_error parts (fst e) = Some p -> energy (parts, s_rest s) k l i = en p) ->
    unbind snap s = Done s' -> 1 < s_nbound s' -> saved_energies zero s = Done (map en (firstn (s_nbound s') (s_parts s'))).
  Proof using All.
    intros en snap zero s s' Hm Hen Hu H1. destruct (C80_energies_of_particles snap zero s s' Hm Hu) as (es & -> & _ & H). destruct (H H1) as (parts & k & l & n & _ & _ & F & _).
    f_equal. clear -F Hen. induction F as [|p e ps es (j & q & _ & A & B & ->) F IH]; [reflexivity|]. cbn [map]. f_equal; [eapply Hen; eassumption|exact IH].
  Qed.
End Config.
Print Assumptions C80_energies_of_particles.
Print Assumptions C80_fixed_energies.
Print Assumptions C80_averaged_particles.

Definition energies_1 (en : list (Z * Z) * nat -> nat -> list (nat * Z) -> nat -> Z) precision max_sample refine :=
  saved_energies z_neg z_pos e_sort (@rev (Z * Z)) en by_id 0%Z 3 (converged_q precision) max_sample refine 0%Z.
Example C80_witness : exists s', unbind_1 frozen 1 0 false 6 cluster = Done s' /\ s_nbound s' = 6 /\ energies_1 frozen 1 0 false cluster = Done (map snd (firstn 6 (s_parts s'))) /\
  energies_1 loosening 1 0 false cluster = Done [-21; -11; -1]%Z.
Proof. eexists. split; [vm_compute; reflexivity|]. repeat split; vm_compute; reflexivity. Qed.

(** Findings.  A subhalo that is disrupted keeps its old most bound particle, but the energy saved with it is that of another one, over which the averages are taken too. *)
Definition heated (w : list (Z * Z) * nat) (k : nat) (l : list (nat * Z)) (i : nat) : Z := (15 + frozen w k l i)%Z.
Theorem C80_disrupted_refuted : exists s s' p e q, unbind_1 heated 1 0 false 6 s = Done s' /\ firstn (s_nbound s') (s_parts s') = [p] /\ energies_1 heated 1 0 false s = Done [e] /\
  measured z_neg z_pos e_sort (@rev (Z * Z)) heated by_id 0%Z 3 (converged_q 1) 0 false s = Done (Some [(q, e)]) /\ q <> p /\
  (forall parts k l i q, nth_error l i = Some q -> nth_error parts (fst q) = Some p -> heated (parts, s_rest s) k l i <> e).
Proof.
  exists cluster. eexists. exists (1, -10)%Z, (-15)%Z. eexists. split; [vm_compute; reflexivity|]. split; [reflexivity|]. split; [vm_compute; reflexivity|]. split; [vm_compute; reflexivity|]. split; [discriminate|].
  intros parts k l i q Hq Hp. unfold heated, frozen, loosening. cbn [fst]. rewrite Hq, Hp. cbn. lia.
Qed.
Print Assumptions C80_disrupted_refuted.

(** The promotion of most bound particles (C71, INCLUSIVE_MASS) exchanges particles, not energies. *)
Theorem C80_promotion_refuted : exists s' es s2, unbind_1 frozen 1 0 false 6 cluster = Done s' /\ energies_1 frozen 1 0 false cluster = Done es /\
  es = map snd (firstn (s_nbound s') (s_parts s')) /\
  Purge.promote fst (fun _ => tt) (fun _ => tt) [] (Purge.mksub (Z.of_nat (s_nbound s')) (s_parts s') tt tt) 0 (s_parts s') = Some s2 /\
  map snd (firstn (s_nbound s') (Purge.u_parts s2)) <> es.
Proof. do 3 eexists. split; [vm_compute; reflexivity|]. split; [vm_compute; reflexivity|]. split; [reflexivity|]. split; [vm_compute; reflexivity|]. cbn. discriminate. Qed.
Print Assumptions C80_promotion_refuted.
