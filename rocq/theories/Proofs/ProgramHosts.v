(** The program: the halos after their update, the subhalos after theirs and after host finding. *)
From Coq Require Import List ZArith QArith Bool Lia Sorting.Sorted Sorting.Permutation.
From Verif.Model Require Import Run ListMem Mpi Mymath Hash Exchange ParticleExchange HaloExchange Hosts Subhalo Unbind Catalogue Program.
From Verif.Spec Require Import Exchange Query Members Hosts HaloUpdate Catalogue Program.
From Verif.Proofs Require Import ListMemProofs MpiProofs ListExtra QueryProofs2 HostProofs HaloExchangeProofs RestartProofs ProgramLoad.
From Verif.Props Require Import PropsHosts PropsHaloUpdate.
Import ListNotations.
Local Open Scope nat_scope.

Lemma find_perm {X} (l l' : list (Z * X)) id : NoDup (map fst l) -> Permutation l l' ->
  find (fun s => Z.eqb (fst s) id) l = find (fun s => Z.eqb (fst s) id) l'.
Proof.
  intros HN HP. assert (HN' : NoDup (map fst l')) by (eapply Permutation_NoDup; [apply Permutation_map; exact HP|exact HN]).
  destruct (find _ l) as [q|] eqn:E1.
  - apply find_some in E1 as [Hq Eq]. apply Z.eqb_eq in Eq. subst id. symmetry. apply find_unique; [exact HN'|]. eapply Permutation_in; eauto.
  - destruct (find _ l') as [q|] eqn:E2; [|reflexivity]. apply find_some in E2 as [Hq Eq]. pose proof (List.find_none _ _ E1 q (Permutation_in _ (Permutation_sym HP) Hq)). cbn in *. congruence.
Qed.
Lemma combine_snd {A B} (a : list A) (b : list B) : length a = length b -> map snd (combine a b) = b.
Proof. revert b; induction a as [|x a IH]; intros [|y b] HL; try discriminate; [reflexivity|]. cbn. rewrite IH; [reflexivity|]. cbn in HL. lia. Qed.
Lemma combine_fst {A B} (a : list A) (b : list B) : length a = length b -> map fst (combine a b) = a.
Proof. revert b; induction a as [|x a IH]; intros [|y b] HL; try discriminate; [reflexivity|]. cbn. rewrite IH; [reflexivity|]. cbn in HL. lia. Qed.

Section Hosts.
  Context {X R S E : Type}.
  Variable g : setup X R S E.
  Hypothesis Hg : sane g.
  Local Notation subhalo := (sub X R).
  Local Notation halo := (list (Z * X) * S)%type.
  Variables (W : nat) (snap : Z) (sps : list (snap_proc X)) (ranges : list Z).
  Hypothesis HW : 1 <= W.
  Hypothesis HV : valid_snapshot g W snap.
  Hypothesis HR : ready_snap g W snap sps ranges.
  Local Notation parts := (map sp_parts sps).

  Lemma now_record id : record_of parts id = now g snap id.
  Proof using HR. unfold record_of, now. apply find_perm; [apply (rs_unique _ _ _ _ _ HR)|apply (rs_parts _ _ _ _ _ HR)]. Qed.
  Lemma now_some id q : now g snap id = Some q -> In q (particles g snap) /\ fst q = id.
  Proof. intros H. apply find_some in H as [A B]. apply Z.eqb_eq in B. auto. Qed.
  Lemma now_known q : In q (particles g snap) -> now g snap (fst q) = Some q.
  Proof using HV. intros H. apply find_unique; [apply (vs_unique _ _ _ HV)|exact H]. Qed.
  Lemma present_remaining l : present parts l = remaining g snap l.
  Proof using HR. unfold present, remaining. induction l as [|p l IH]; [reflexivity|]. cbn [flat_map]. rewrite IH, now_record. reflexivity. Qed.
  Lemma remaining_in l q : In q (remaining g snap l) <-> In q (particles g snap) /\ In (fst q) (map fst l).
  Proof using HV.
    unfold remaining. rewrite in_flat_map. split.
    - intros (p & Hp & Hq). destruct (now g snap (fst p)) as [q'|] eqn:En; [|destruct Hq]. destruct Hq as [<-|[]]. apply now_some in En as [A B]. split; [exact A|]. rewrite B. apply in_map. exact Hp.
    - intros [Hq Hin]. apply in_map_iff in Hin as (p & Ep & Hp). exists p. split; [exact Hp|]. rewrite Ep, (now_known q Hq). left; reflexivity.
  Qed.

  Lemma remaining_nodup l : NoDup (map fst l) -> NoDup (map fst (remaining g snap l)).
  Proof using.
    clear HV HR. induction l as [|p l IH]; [constructor|]. cbn [map]. intros HN. inversion HN as [|? ? Hp Hl]; subst. unfold remaining. cbn [flat_map]. fold (remaining g snap l).
    destruct (now g snap (fst p)) as [q|] eqn:En; [|auto]. cbn [app map]. apply now_some in En as [_ Eq]. constructor; [|auto]. rewrite Eq. intros Hin. apply Hp.
    apply in_map_iff in Hin as (x & Ex & Hx). unfold remaining in Hx. apply in_flat_map in Hx as (y & Hy & Hx). destruct (now g snap (fst y)) as [x'|] eqn:Ey; [|destruct Hx]. destruct Hx as [<-|[]]. apply now_some in Ey as [_ Ey]. rewrite <- Ex, Ey. apply in_map. exact Hy.
  Qed.
  Lemma remaining_all l : (forall p, In p l -> now g snap (fst p) <> None) -> map fst (remaining g snap l) = map fst l.
  Proof using.
    clear HV HR. induction l as [|p l IH]; intros H; [reflexivity|]. unfold remaining. cbn [flat_map map]. fold (remaining g snap l). destruct (now g snap (fst p)) as [q|] eqn:En; [|exfalso; apply (H p); [left; reflexivity|exact En]].
    cbn [app map]. apply now_some in En as [_ ->]. rewrite IH; [reflexivity|]. intros x Hx. apply H. right; exact Hx.
  Qed.

  (** ** The halos *)
  Definition updates (h0 h : halo) : Prop :=
    (forall p, In p (fst h) -> In p (particles g snap)) /\ g_halo_id g (snd h) = g_halo_id g (snd h0) /\
    forall q, In q (particles g snap) -> (In (fst q) (map fst (fst h)) <-> contains h0 (fst q)).

  Lemma halos_ok : exists halos,
    update_halos (g_chunk g) (g_average g) (halo_cell (g_root g) (g_box g) (g_position g)) (g_sort_rank g) nothing
      (g_sort_local g) (g_sort_roam g) (g_full g) ranges sps (g_groups g snap) = Done halos /\ length halos = W /\
    (forall h, In h (concat halos) -> exists h0, In h0 (groups g snap) /\ updates h0 h) /\
    (forall h0, In h0 (groups g snap) -> exists h, In h (concat halos) /\ updates h0 h) /\
    Permutation (map (fun h => g_halo_id g (snd h)) (concat halos)) (map (fun h => g_halo_id g (snd h)) (groups g snap)) /\
    ((forall h, In h (groups g snap) -> NoDup (map fst (fst h))) -> forall h, In h (concat halos) -> NoDup (map fst (fst h))).
  Proof using Hg HV HR HW.
    destruct (g_full g) eqn:Ef.
    - exists (g_groups g snap). split; [reflexivity|]. split; [apply (vs_groups _ _ _ HV)|].
      assert (HU : forall h, In h (groups g snap) -> updates h h).
      { intros h Hh. split; [|split; [reflexivity|intros q _; reflexivity]]. intros p Hp. pose proof (vs_members _ _ _ HV h p Hh Hp) as Hm. rewrite Ef in Hm. exact Hm. }
      split; [|split; [|split; [reflexivity|auto]]]; intros h Hh; exists h; split; auto.
    - destruct (rs_span _ _ _ _ _ HR) as (lo & hi & Hlo & Hhi & Hspan).
      destruct (C59_halos_updated_and_distributed X S nothing eq_refl (g_chunk g) (sn_chunk _ Hg) (g_sort_local g) (fun l => proj1 (sn_local _ Hg l)) (fun l => proj2 (sn_local _ Hg l))
        (g_sort_roam g) (fun l => proj1 (sn_roam _ Hg l)) (fun l => proj2 (sn_roam _ Hg l)) (g_sort_rank g) (fun l => proj1 (sn_rank _ Hg l)) (fun l => proj2 (sn_rank _ Hg l))
        (g_root g) (proj1 (sn_root _ Hg)) (proj2 (sn_root _ Hg)) (g_box g) (sn_box _ Hg) (g_position g) (g_average g) ranges sps (g_groups g snap)) with (lo := lo) (hi := hi)
        as (out & Eo & Lo & Po & _).
      + rewrite (rs_length _ _ _ _ _ HR). symmetry. apply (vs_groups _ _ _ HV).
      + apply (rs_located _ _ _ _ _ HR).
      + apply (rs_unique _ _ _ _ _ HR).
      + apply (rs_tables _ _ _ _ _ HR).
      + apply (rs_null _ _ _ _ _ HR).
      + exact Hlo.
      + rewrite (vs_groups _ _ _ HV). exact Hhi.
      + intros hs h p Hhs Hh Hp. apply Hspan. pose proof (vs_members _ _ _ HV h p) as Hm. rewrite Ef in Hm. apply Hm; [|exact Hp]. apply in_concat. eauto.
      + exists out. split; [exact Eo|]. split; [rewrite Lo; apply (vs_groups _ _ _ HV)|].
        assert (HU : forall h0, updates h0 (present parts (fst h0), g_average g (present parts (fst h0)) (snd h0))).
        { intros h0. rewrite present_remaining. split; [|split].
          - cbn. intros p Hp. apply remaining_in in Hp. apply Hp.
          - cbn. apply (sn_average _ Hg).
          - cbn. intros q Hq. unfold contains. rewrite in_map_iff. split.
            + intros (p & Ep & Hp). apply remaining_in in Hp as [_ Hp]. rewrite Ep in Hp. exact Hp.
            + intros Hin. exists q. split; [reflexivity|]. apply remaining_in. auto. }
        split; [|split; [|split]].
        * intros h Hh. apply (Permutation_in _ Po) in Hh. apply in_map_iff in Hh as (h0 & <- & Hh0). exists h0. split; [exact Hh0|]. apply HU.
        * intros h0 Hh0. eexists. split; [|apply HU]. eapply Permutation_in; [apply Permutation_sym; exact Po|]. apply in_map_iff. exists h0. split; [reflexivity|exact Hh0].
        * rewrite (Permutation_map _ Po), map_map. cbn [snd]. erewrite map_ext; [reflexivity|]. intros h. apply (sn_average _ Hg).
        * intros HN h Hh. apply (Permutation_in _ Po) in Hh. apply in_map_iff in Hh as (h0 & <- & Hh0). cbn [fst]. rewrite present_remaining. apply remaining_nodup. apply HN. exact Hh0.
  Qed.

  (** ** The subhalos *)
  Local Notation renew := (renewed (derived g) parts).
  Lemma renewed_parts s : s_parts (renew s) = remaining g snap (s_parts s).
  Proof using HR.
    unfold renewed. unfold derived. cbn. unfold ids_of, remaining. induction (s_parts s) as [|p l IH]; [reflexivity|]. cbn [map flat_map]. rewrite IH, now_record. reflexivity.
  Qed.
  Lemma renewed_in s p : In p (s_parts (renew s)) -> In p (particles g snap).
  Proof using HR HV. rewrite renewed_parts. intros Hp. apply remaining_in in Hp. apply Hp. Qed.
  Lemma mass_sum_pos (l : list (Z * X)) : (forall p, In p l -> In p (particles g snap)) -> (0 <= mass_sum (g_pmass g) l)%Q.
  Proof using HV.
    intros Hl. induction l as [|p l IH]; cbn; [apply Qle_refl|]. rewrite <- (Qplus_0_l 0) at 1. apply Qplus_le_compat; [apply (vs_mass _ _ _ HV); apply Hl; left; reflexivity|apply IH; intros q Hq; apply Hl; right; exact Hq].
  Qed.
  Lemma renewed_mass s : (0 <= s_mass (renew s))%Q.
  Proof using HR HV.
    unfold renewed at 1. cbn. apply mass_sum_pos. intros p Hp. apply (renewed_in s p). unfold renewed. cbn.
    match type of Hp with In _ (firstn ?n ?l) => rewrite <- (firstn_skipn n l) end. apply in_or_app. left; exact Hp.
  Qed.

  (** ** Host finding *)
  Variable halos : list (list halo).
  Hypothesis HLh : length halos = W.
  Hypothesis Hin : forall h p, In h (concat halos) -> In p (fst h) -> In p (particles g snap).
  Definition hosted (hs : list halo) (s : subhalo) : Prop :=
    match s_parts s with
    | [] => s_host s = (-1)%Z
    | q :: _ => (exists k h, nth_error hs k = Some h /\ In (fst q) (map fst (fst h)) /\ s_host s = Z.of_nat k) \/
                ((forall h, In h (concat halos) -> ~ In (fst q) (map fst (fst h))) /\ s_host s = (-1)%Z)
    end.
  Lemma hosts_ok (cat : list (list subhalo)) : length cat = W -> (forall s p, In s (concat cat) -> In p (s_parts s) -> In p (particles g snap)) ->
    exists moved, assign_hosts (map (host_proc g) (combine sps halos)) (g_host_chunk g) cat = Some moved /\ length moved = W /\
      Permutation (map data (concat moved)) (map data (concat cat)) /\
      forall r l hs s, nth_error moved r = Some l -> nth_error halos r = Some hs -> In s l -> hosted hs s.
  Proof using Hg HV HR HW HLh Hin.
    intros HLc Hcat. set (procs := map (host_proc g) (combine sps halos)).
    assert (HLs := rs_length _ _ _ _ _ HR). assert (HLp : length procs = W) by (unfold procs; rewrite map_length, combine_length; lia).
    assert (Hnth : forall r sp hs, nth_error sps r = Some sp -> nth_error halos r = Some hs -> nth_error procs r = Some (host_proc g (sp, hs))).
    { intros r sp hs H1 H2. unfold procs. apply map_nth_error. apply combine_nth_error; assumption. }
    assert (Hinv : forall r p, nth_error procs r = Some p -> exists sp hs, nth_error sps r = Some sp /\ nth_error halos r = Some hs /\ p = host_proc g (sp, hs)).
    { intros r p H. unfold procs in H. rewrite nth_error_map in H. destruct (nth_error (combine sps halos) r) as [[sp hs]|] eqn:Ec; [|discriminate]. cbn in H. injection H as <-. apply combine_nth_error_inv in Ec as [A B]. eauto. }
    assert (Hsp : forall sp p, In sp sps -> In p (sp_parts sp) -> In p (particles g snap)).
    { intros sp p H1 H2. eapply Permutation_in; [apply (rs_parts _ _ _ _ _ HR)|]. apply in_concat. exists (sp_parts sp). split; [apply in_map; exact H1|exact H2]. }
    destruct (C22_hosts X R procs (g_host_chunk g) cat) as (moved & Em & Lm & Pm & Hp & _).
    - intros Ep. rewrite Ep in HLp. cbn in HLp. lia.
    - apply Forall_forall. intros p Hp. apply In_nth_error in Hp as [r Hr]. destruct (Hinv r p Hr) as (sp & hs & H1 & H2 & ->). assert (H1' := nth_error_In _ _ H1). assert (H2' := nth_error_In _ _ H2).
      assert (HT := rs_tables _ _ _ _ _ HR). rewrite Forall_forall in HT. specialize (HT sp H1'). assert (HK := rs_kind _ _ _ _ _ HR). rewrite Forall_forall in HK. specialize (HK sp H1').
      split; [split|split; [|split]]; cbn [pr_halos pr_ids pr_htable pr_ptable host_proc fst snd].
      + apply (sn_keys _ Hg).
      + unfold table_ok in HT. rewrite HK in HT. rewrite <- indexed_keys. destruct (g_need_hash g); exact HT.
      + apply Forall_forall. intros id Hid. apply in_concat in Hid as (l & Hl & Hid). apply in_map_iff in Hl as (h & <- & Hh). apply in_map_iff in Hid as (p & <- & Hp'). apply (vs_ids _ _ _ HV). eapply Hin; [|exact Hp']. apply in_concat. eauto.
      + apply Forall_forall. intros id Hid. apply in_map_iff in Hid as (p & <- & Hp'). apply (vs_ids _ _ _ HV). eapply Hsp; eauto.
      + assert (HN := rs_unique _ _ _ _ _ HR). rewrite concat_map in HN. eapply NoDup_concat_in; [exact HN|]. rewrite map_map. apply in_map_iff. eauto.
    - lia.
    - intros l s Hl Hs. unfold known. destruct (s_parts s) as [|q rest] eqn:Ep; [exact I|]. assert (Hq : In q (particles g snap)). { apply (Hcat s); [apply in_concat; eauto|rewrite Ep; left; reflexivity]. }
      apply (Permutation_in _ (Permutation_sym (rs_parts _ _ _ _ _ HR))) in Hq. apply in_concat in Hq as (y & Hy & Hq). apply in_map_iff in Hy as (sp & <- & Hsp'). apply In_nth_error in Hsp' as [r Hr].
      destruct (nth_error_in_range halos r) as [hs Hhs]; [apply nth_error_lt in Hr; lia|]. exists r. right. exists (host_proc g (sp, hs)). split; [apply Hnth; assumption|]. cbn. apply in_map. exact Hq.
    - exists moved. split; [exact Em|]. split; [lia|]. split; [exact Pm|]. intros r l hs s Hl Hhs Hs. specialize (Hp r l s Hl Hs). unfold right_place in Hp. unfold hosted. destruct (s_parts s) as [|q rest]; [exact Hp|].
      destruct Hp as [(k & (p & y & Hpr & Hy & Hq) & Eh)|(Hno & _ & Eh)].
      + left. destruct (Hinv r p Hpr) as (sp & hs' & _ & H2 & ->). assert (hs' = hs) by congruence. subst hs'. cbn [host_proc pr_halos snd] in Hy. rewrite nth_error_map in Hy. destruct (nth_error hs k) as [h|] eqn:Ek; [|discriminate]. injection Hy as <-. exists k, h. auto.
      + right. split; [|exact Eh]. intros h Hh Hq. apply in_concat in Hh as (hs' & Hhs' & Hh). apply In_nth_error in Hhs' as [r' Hr']. apply In_nth_error in Hh as [k Hk]. destruct (nth_error_in_range sps r') as [sp Hsp']; [apply nth_error_lt in Hr'; lia|].
        apply (Hno r' k). exists (host_proc g (sp, hs')), (map fst (fst h)). split; [apply Hnth; assumption|]. split; [|exact Hq]. cbn [host_proc pr_halos snd]. rewrite nth_error_map, Hk. reflexivity.
  Qed.
End Hosts.
