(** GlobalizeTrackReferences, all turns at the same time. *)
From Coq Require Import List ZArith QArith Bool Lia Sorting.Permutation.
From Verif.Model Require Import ListMem Mpi Run Subhalo Nest Threads UpdateThreads.
From Verif.Spec Require Import Races.
From Verif.Proofs Require Import ListMemProofs MpiProofs ListExtra MemberProofs TreeProofs NestProofs ThreadProofs WalkProofs HelperLoops.
Import ListNotations.
Local Open Scope Z_scope.

Lemma field_ok a b : field_eqb a b = true <-> a = b.
Proof.
  destruct a, b; cbn; try (split; [discriminate|intros H; discriminate H]); try (rewrite Z.eqb_eq; split; [intros ->; reflexivity|intros H; injection H as ->; reflexivity]).
  rewrite andb_true_iff, Z.eqb_eq, Nat.eqb_eq. split; [intros [-> ->]; reflexivity|intros H; injection H as -> ->; auto].
Qed.

Section Global.
  Context {X R : Type}.
  Variables (snap : Z) (subs out : list (sub X R)).
  Hypothesis done : globalize snap subs = Some out.
  Local Notation start := (fields subs).
  Local Notation final := (fields out).
  Lemma out_length : length out = length subs.
  Proof. eapply mapM_length. exact done. Qed.
  Lemma out_at t s : nth_error subs t = Some s -> exists o, nth_error out t = Some o /\ globalize_one snap subs s = Some o.
  Proof. intros Hs. destruct (mapM_nth _ _ _ _ _ done Hs) as (o & H1 & H2). eauto. Qed.
  Lemma one_fields s o : globalize_one snap subs s = Some o -> s_track o = s_track s /\ s_snapsink o = s_snapsink s /\
    (if s_snapsink s =? snap then exists w, zget subs (s_sink s) = Some w /\ s_sink o = s_track w else s_sink o = s_sink s) /\
    mapM (fun i => option_map s_track (zget subs i)) (s_nest s) = Some (s_nest o).
  Proof.
    unfold globalize_one. destruct (mapM _ (s_nest s)) as [l|]; [|destruct (s_snapsink s =? snap); [destruct (option_map _ (option_map _ _))|]; discriminate].
    destruct (s_snapsink s =? snap); [destruct (zget subs (s_sink s)) as [w|]; [|discriminate]|]; cbn; intros E; injection E as <-; cbn; eauto 6.
  Qed.
  Definition mine (t : nat) (l : field) : Prop := match l with FSink i | FElem i _ => i = Z.of_nat t | _ => False end.
  Definition global_rd (t : nat) (l : field) : Prop := match l with FSink i | FElem i _ => i = Z.of_nat t | _ => True end.
  Definition global_wr (t : nat) (l : field) (v : Z) : Prop := mine t l /\ final l = Some v.
  Lemma elems_wp t s o : nth_error subs t = Some s -> nth_error out t = Some o -> globalize_one snap subs s = Some o ->
    forall ks (x : field -> option Z), NoDup ks -> (forall k, In k ks -> (k < length (s_nest s))%nat) -> (forall k, In k ks -> x (FElem (Z.of_nat t) k) = start (FElem (Z.of_nat t) k)) -> (forall c, x (FTrack c) = start (FTrack c)) ->
    exists n, wp field_eqb (global_rd t) (global_wr t) (peach ks (fun k => Get (FElem (Z.of_nat t) k) (fun c => Get (FTrack c) (fun id => Put (FElem (Z.of_nat t) k) id (Ret tt))))) n x
      (fun _ y => (forall k, In k ks -> y (FElem (Z.of_nat t) k) = final (FElem (Z.of_nat t) k)) /\ forall l, (forall k, In k ks -> l <> FElem (Z.of_nat t) k) -> y l = x l).
  Proof.
    intros Hs Ho Hg. destruct (one_fields s o Hg) as (_ & _ & _ & Hn). unfold peach. induction ks as [|k ks IH]; intros x HN Hk Hx Ht.
    - exists O. split; [reflexivity|]. split; [intros k []|reflexivity].
    - inversion HN as [|? ? Hkn HN']; subst. destruct (nth_error_in_range (s_nest s) k) as [c Hc]; [apply Hk; left; reflexivity|]. destruct (mapM_nth _ _ _ _ _ Hn Hc) as (id & E1 & E2).
      assert (Hf : final (FElem (Z.of_nat t) k) = Some id) by (cbn; rewrite zget_of_nat, Ho; exact E2).
      destruct (IH (put field_eqb x (FElem (Z.of_nat t) k) id)) as [n Hn'].
      + exact HN'.
      + intros j Hj. apply Hk. right. exact Hj.
      + intros j Hj. rewrite (put_there field_eqb field_ok); [apply Hx; right; exact Hj|]. intros E. injection E as ->. contradiction.
      + intros d. rewrite (put_there field_eqb field_ok) by discriminate. apply Ht.
      + exists (S (S (S n))). cbn [pfold pbind wp]. exists (S (S n)), c. split; [reflexivity|]. split; [reflexivity|]. split; [rewrite Hx by (left; reflexivity); cbn; rewrite zget_of_nat, Hs; exact Hc|].
        exists (S n), id. split; [reflexivity|]. split; [exact Logic.I|]. split; [rewrite Ht; cbn; exact E1|]. exists n. split; [reflexivity|]. split; [split; [reflexivity|exact Hf]|]. split; [rewrite Hx by (left; reflexivity); cbn; rewrite zget_of_nat, Hs, Hc; discriminate|].
        eapply wp_mono; [|exact Hn']. cbn beta. intros _ y [H1 H2]. split.
        * intros j [<-|Hj]; [|apply H1; exact Hj]. rewrite H2; [rewrite (put_here field_eqb field_ok); symmetry; exact Hf|]. intros j Hj E. injection E as ->. contradiction.
        * intros l Hl. rewrite H2 by (intros j Hj; apply Hl; right; exact Hj). apply (put_there field_eqb field_ok). apply Hl. left. reflexivity.
  Qed.
  Lemma global_loop : safe_loop field_eqb race (global_turns snap (length subs)) start final.
  Proof.
    apply (together_free field_eqb field_ok global_rd global_wr).
    - intros t p Hp. unfold global_turns in Hp. apply (turns_at (global_turn snap) (length subs)) in Hp as [-> Ht]. destruct (nth_error_in_range subs t Ht) as [s Hs]. destruct (out_at t s Hs) as (o & Ho & Hg). destruct (one_fields s o Hg) as (E1 & E2 & E3 & E4).
      set (me := Z.of_nat t). assert (Hz : zget subs me = Some s) by (unfold me; rewrite zget_of_nat; exact Hs). assert (Hzo : zget out me = Some o) by (unfold me; rewrite zget_of_nat; exact Ho).
      assert (Hend : forall x : field -> option Z, (forall k, x (FElem me k) = start (FElem me k)) -> (forall c, x (FTrack c) = start (FTrack c)) -> x (FSize me) = start (FSize me) -> x (FSink me) = final (FSink me) ->
        exists n, wp field_eqb (global_rd t) (global_wr t) (Get (FSize me) (fun n => peach (seq 0 (Z.to_nat n)) (fun k => Get (FElem me k) (fun c => Get (FTrack c) (fun id => Put (FElem me k) id (Ret tt)))))) n x (reaches global_wr final t)).
      { intros x H1 H2 H3 H4. destruct (elems_wp t s o Hs Ho Hg (seq 0 (length (s_nest s))) x) as [n Hn]; [apply seq_NoDup|intros k Hk; apply in_seq in Hk; lia|intros k _; apply H1|exact H2|].
        exists (S n). cbn [wp]. exists n, (Z.of_nat (length (s_nest s))). split; [reflexivity|]. split; [exact Logic.I|]. split; [rewrite H3; cbn; rewrite Hz; reflexivity|]. rewrite Nat2Z.id. eapply wp_mono; [|exact Hn].
        cbn beta. intros _ y [Y1 Y2] l v [Hm Hv]. destruct l as [i|i|i|i|i k]; cbn in Hm; try contradiction; subst i.
        - rewrite Y2; [exact H4|discriminate].
        - apply Y1. cbn in Hv. fold me in Hv. rewrite Hzo in Hv. apply nth_error_lt in Hv. rewrite (mapM_length _ _ _ E4) in Hv. apply in_seq. lia. }
      assert (Hgoal : exists n, wp field_eqb (global_rd t) (global_wr t) (pbind (if s_snapsink s =? snap then Get (FSink me) (fun k => Get (FTrack k) (fun id => Put (FSink me) id (Ret tt))) else Ret tt)
        (fun _ => Get (FSize me) (fun n => peach (seq 0 (Z.to_nat n)) (fun k => Get (FElem me k) (fun c => Get (FTrack c) (fun id => Put (FElem me k) id (Ret tt))))))) n start (reaches global_wr final t)).
      { destruct (s_snapsink s =? snap).
        - destruct E3 as (w & Hw & Es). assert (Hf : final (FSink me) = Some (s_track w)) by (cbn; rewrite Hzo; cbn; congruence).
          destruct (Hend (put field_eqb start (FSink me) (s_track w))) as [n Hn]; [intros; apply (put_there field_eqb field_ok); discriminate|intros; apply (put_there field_eqb field_ok); discriminate|apply (put_there field_eqb field_ok); discriminate|rewrite (put_here field_eqb field_ok); symmetry; exact Hf|].
          exists (S (S (S n))). cbn [pbind wp]. exists (S (S n)), (s_sink s). split; [reflexivity|]. split; [reflexivity|]. split; [cbn; rewrite Hz; reflexivity|]. exists (S n), (s_track w). split; [reflexivity|]. split; [exact Logic.I|]. split; [cbn; rewrite Hw; reflexivity|].
          exists n. split; [reflexivity|]. split; [split; [reflexivity|exact Hf]|]. split; [cbn; rewrite Hz; discriminate|]. exact Hn.
        - cbn [pbind]. apply Hend; try reflexivity. cbn. rewrite Hz, Hzo. cbn. congruence. }
      destruct Hgoal as [n Hn]. exists (S n). unfold global_turn. cbn [wp]. exists n, (s_snapsink s). split; [reflexivity|]. split; [exact Logic.I|]. split; [fold me; cbn; rewrite Hz; reflexivity|exact Hn].
    - intros t u l v Hne [Hm _] Hr. destruct l; cbn in *; try contradiction; lia.
    - intros t u l v v' Hne [Hm _] [Hm' _]. exfalso. destruct l; cbn in *; try contradiction; lia.
    - intros l. assert (Hsame : forall i, (exists s o, zget subs i = Some s /\ zget out i = Some o /\ globalize_one snap subs s = Some o /\ 0 <= i < Z.of_nat (length subs)) \/ (zget subs i = None /\ zget out i = None)).
      { intros i. destruct (zget subs i) as [s|] eqn:Es; [left|right; split; [reflexivity|]; apply (none_iff2 out subs out_length); exact Es]. pose proof (zget_some _ _ _ Es) as Hr. rewrite zget_nat in Es by lia. destruct (out_at _ _ Es) as (o & Ho & Hg). exists s, o. rewrite zget_nat by lia. auto. }
      assert (Hw : forall i, (l = FSink i \/ exists k, l = FElem i k) -> (exists t v, (t < length (global_turns snap (length subs)))%nat /\ global_wr t l v) \/ final l = start l).
      { intros i Hl. unfold global_turns. rewrite map_length, seq_length. destruct (final l) as [v|] eqn:Ev.
        - left. destruct (Hsame i) as [(s & o & Es & Eo & _ & Hr)|[_ Eo]].
          + exists (Z.to_nat i), v. split; [lia|]. split; [|exact Ev]. destruct Hl as [->|[k ->]]; cbn; lia.
          + destruct Hl as [->|[k ->]]; cbn in Ev; rewrite Eo in Ev; discriminate.
        - right. destruct (Hsame i) as [(s & o & Es & Eo & Hg & Hr)|[Es _]].
          + destruct (one_fields s o Hg) as (_ & _ & _ & E4). destruct Hl as [->|[k ->]]; cbn in *; rewrite Es; rewrite Eo in Ev; cbn in *; [discriminate|]. symmetry. apply nth_error_None in Ev. apply nth_error_None. rewrite (mapM_length _ _ _ E4) in Ev. exact Ev.
          + destruct Hl as [->|[k ->]]; cbn; rewrite Es; reflexivity. }
      destruct l as [i|i|i|i|i k]; [right|right|apply (Hw i); left; reflexivity|right|apply (Hw i); right; eauto]; (destruct (Hsame i) as [(s & o & Es & Eo & Hg & _)|[Es Eo]]; cbn; rewrite Es, Eo; [|reflexivity]; cbn; f_equal; apply one_fields in Hg as (F1 & F2 & _ & F4)); [exact F1|exact F2|].
      rewrite (mapM_length _ _ _ F4). reflexivity.
    - intros t u l v v' Hne [Hm _] [Hm' _]. destruct l; cbn in *; try contradiction; lia.
  Qed.
End Global.
