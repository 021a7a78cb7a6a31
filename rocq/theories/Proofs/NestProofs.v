(** Recursive levelling-up of detached members, on trees. *)
From Coq Require Import List ZArith Bool Lia Sorting.Permutation.
From Verif.Model Require Import ListMem Mpi Run Subhalo Nest.
From Verif.Spec Require Import Forest.
From Verif.Proofs Require Import ListMemProofs ListExtra MemberProofs TreeProofs.
Import ListNotations.
Local Open Scope Z_scope.

Definition memb (i : Z) (l : list Z) : bool := existsb (Z.eqb i) l.
Lemma memb_spec i l : reflect (In i l) (memb i l).
Proof.
  apply iff_reflect. unfold memb. rewrite existsb_exists. split.
  - intros H. exists i. split; [exact H|apply Z.eqb_refl].
  - intros (x & Hx & E). apply Z.eqb_eq in E. subst. exact Hx.
Qed.
Lemma memb_true i l : In i l -> memb i l = true.
Proof. destruct (memb_spec i l); [reflexivity|contradiction]. Qed.
Lemma memb_false i l : ~ In i l -> memb i l = false.
Proof. destruct (memb_spec i l); [contradiction|reflexivity]. Qed.
Lemma memb_app i a b : memb i (a ++ b) = memb i a || memb i b.
Proof. apply existsb_app. Qed.

Lemma zmodify_get {A} (l l' : list A) i f j : zmodify l i f = Some l' ->
  zget l' j = if j =? i then option_map f (zget l j) else zget l j.
Proof.
  unfold zmodify. destruct (Z.ltb_spec i 0) as [Hi|Hi]; [discriminate|]. intros H. unfold zget. destruct (Z.ltb_spec j 0) as [Hj|Hj].
  - destruct (j =? i); reflexivity.
  - rewrite (modify_nth _ _ _ _ (Z.to_nat j) H). destruct (Z.eqb_spec j i) as [->|Hne].
    + rewrite Nat.eqb_refl. reflexivity.
    + destruct (Nat.eqb_spec (Z.to_nat j) (Z.to_nat i)); [lia|reflexivity].
Qed.
Lemma zmodify_length {A} (l l' : list A) i f : zmodify l i f = Some l' -> length l' = length l.
Proof. unfold zmodify. destruct (i <? 0); [discriminate|]. apply modify_length. Qed.
Lemma zmodify_some {A} (l : list A) i f x : zget l i = Some x -> exists l', zmodify l i f = Some l'.
Proof. unfold zget, zmodify. destruct (i <? 0); [discriminate|]. apply modify_some. Qed.
Lemma zget_ext {A} (l l' : list A) : (forall i, zget l i = zget l' i) -> l = l'.
Proof. intros H. apply nth_error_ext. intros i. specialize (H (Z.of_nat i)). rewrite !zget_nat, !Nat2Z.id in H by lia. exact H. Qed.
Lemma zget_of_nat {A} (l : list A) i : zget l (Z.of_nat i) = nth_error l i.
Proof. rewrite zget_nat, Nat2Z.id by lia. reflexivity. Qed.
Lemma zmodify_of_nat {A} (l : list A) i f : zmodify l (Z.of_nat i) f = modify l i f.
Proof. unfold zmodify. destruct (Z.ltb_spec (Z.of_nat i) 0); [lia|]. rewrite Nat2Z.id. reflexivity. Qed.

Definition local_nest {X R} (subs : list (sub X R)) (i : Z) (l : list Z) : Prop := exists s, zget subs i = Some s /\ s_nest s = l.

Lemma represents_ext (m m' : Z -> list Z -> Prop) t : represents m t -> (forall i l, In i (nodes t) -> m i l -> m' i l) -> represents m' t.
Proof.
  induction t as [i ts IH] using tree_rect'. intros HR Hm. inversion HR as [? ? H1 H2]; subst. constructor.
  - apply Hm; [left; reflexivity|exact H1].
  - rewrite Forall_forall in *. intros t Ht. apply IH; [exact Ht|apply H2; exact Ht|]. intros j l Hj. apply Hm. right. apply in_flat. eauto.
Qed.
Lemma represents_get {X R} (subs : list (sub X R)) t i : represents (local_nest subs) t -> In i (nodes t) -> exists s, zget subs i = Some s.
Proof.
  induction t as [j ts IH] using tree_rect'. intros HR Hi. inversion HR as [? ? (s & Hs & _) H2]; subst. destruct Hi as [<-|Hi]; [eauto|].
  apply in_flat in Hi as (t & Ht & Hi). rewrite Forall_forall in *. exact (IH t Ht (H2 t Ht) Hi).
Qed.
Lemma nodup_branch i ts t : NoDup (nodes (Node i ts)) -> In t ts -> NoDup (nodes t) /\ ~ In i (nodes t).
Proof.
  cbn. intros Hn Ht. inversion Hn as [|? ? H1 H2]; subst. split.
  - apply in_split in Ht as (a & b & ->). rewrite flat_map_app in H2. apply NoDup_app_remove_l in H2. cbn in H2. eapply NoDup_app_remove_r; eauto.
  - intros H. apply H1. apply in_flat. eauto.
Qed.
Lemma nodup_disjoint (ts1 : list tree) t ts2 x : NoDup (flat_map nodes (ts1 ++ t :: ts2)) -> In x (nodes t) -> ~ In x (flat_map nodes ts1) /\ ~ In x (flat_map nodes ts2).
Proof.
  rewrite flat_map_app. cbn. intros Hn Hx. split; intros Hy.
  - eapply NoDup_app_disjoint; [exact Hn|exact Hy|apply in_or_app; left; exact Hx].
  - apply NoDup_app_remove_l in Hn. eapply NoDup_app_disjoint; [exact Hn|exact Hx|exact Hy].
Qed.

Lemma max_le_fold (l : list nat) x : In x l -> (x <= fold_right Nat.max 0 l)%nat.
Proof. induction l as [|y l IH]; cbn; [intros []|]. intros [->|H]; [lia|]. specialize (IH H). lia. Qed.
Lemma height_branch i ts t : In t ts -> (height t < height (Node i ts))%nat.
Proof. intros H. cbn. apply Nat.lt_succ_r. apply max_le_fold. apply in_map. exact H. Qed.
Lemma height_le_nodes t : (height t <= length (nodes t))%nat.
Proof.
  induction t as [i ts IH] using tree_rect'. cbn. apply le_n_S. induction IH as [|t ts Ht HF IH]; cbn; [lia|]. rewrite app_length. lia.
Qed.

Section LevelUp.
  Context {X R : Type}.
  Variables host rk : Z -> Z.
  Definition lcut (p c : Z) : bool := negb (host c =? host p) || (rk c =? 0).
  Definition cutset (t : tree) : list Z := map snd (filter (fun e => lcut (fst e) (snd e)) (edges t)).
  Definition leveled (t : tree) (i : Z) (s : sub X R) : sub X R :=
    set_nest (filter (fun c => negb (lcut i c)) (s_nest s)) (if memb i (cutset t) then set_rank 0 s else s).
  Definition lpre (t : tree) (subs : list (sub X R)) : Prop :=
    represents (local_nest subs) t /\ NoDup (nodes t) /\
    (forall i s, In i (nodes t) -> zget subs i = Some s -> s_host s = host i) /\
    (forall i s, In i (map snd (edges t)) -> zget subs i = Some s -> s_rank s = rk i).
  Definition lpost (t : tree) (subs subs' : list (sub X R)) : Prop :=
    length subs' = length subs /\
    forall i, zget subs' i = if memb i (nodes t) then option_map (leveled t i) (zget subs i) else zget subs i.

  Lemma cutset_branch p ts1 t ts2 i : NoDup (nodes (Node p (ts1 ++ t :: ts2))) -> In i (nodes t) ->
    memb i (cutset (Node p (ts1 ++ t :: ts2))) = if i =? label t then lcut p i else memb i (cutset t).
  Proof.
    intros Hn Hi.
    assert (Hin : forall q, In (q, i) (edges (Node p (ts1 ++ t :: ts2))) <-> (q = p /\ i = label t) \/ In (q, i) (edges t)).
    { intros q. cbn [edges]. rewrite in_app_iff, in_map_iff, in_flat. split.
      - cbn in Hn. inversion Hn as [|? ? H1 H2]; subst. destruct (nodup_disjoint ts1 t ts2 i H2 Hi) as [D1 D2].
        intros [(u & E & Hu)|(u & Hu & He)].
        + injection E as <- E. apply in_app_or in Hu as [Hu|[<-|Hu]].
          * exfalso. apply D1. apply in_flat. exists u. split; [exact Hu|]. rewrite <- E. apply label_in.
          * left. auto.
          * exfalso. apply D2. apply in_flat. exists u. split; [exact Hu|]. rewrite <- E. apply label_in.
        + apply edge_nodes in He as He'. destruct He' as [_ He']. apply in_app_or in Hu as [Hu|[<-|Hu]].
          * exfalso. apply D1. apply in_flat. eauto.
          * right. exact He.
          * exfalso. apply D2. apply in_flat. eauto.
      - intros [[-> ->]|He].
        + left. exists t. split; [reflexivity|]. apply in_or_app. right; left; reflexivity.
        + right. exists t. split; [|exact He]. apply in_or_app. right; left; reflexivity. }
    assert (Hm : forall u, memb i (cutset u) = true <-> exists q, In (q, i) (edges u) /\ lcut q i = true).
    { intros u. unfold cutset. destruct (memb_spec i (map snd (filter (fun e => lcut (fst e) (snd e)) (edges u)))) as [H|H].
      - split; [|reflexivity]. intros _. apply in_map_iff in H as ([q j] & E & H). cbn in E. subst j. apply filter_In in H as [H1 H2]. exists q. split; assumption.
      - split; [discriminate|]. intros (q & H1 & H2). exfalso. apply H. apply in_map_iff. exists (q, i). split; [reflexivity|]. apply filter_In. split; assumption. }
    destruct (Z.eqb_spec i (label t)) as [->|Hne].
    - apply eq_true_iff_eq. rewrite Hm. split.
      + intros (q & Hq & Hc). apply Hin in Hq as [[-> _]|Hq]; [exact Hc|]. exfalso. eapply root_no_member; [|exact Hq].
        apply (proj1 (nodup_branch _ _ t Hn ltac:(apply in_or_app; right; left; reflexivity))).
      + intros Hc. exists p. split; [apply Hin; left; auto|exact Hc].
    - apply eq_true_iff_eq. rewrite !Hm. split; intros (q & Hq & Hc); exists q; (split; [|exact Hc]).
      + apply Hin in Hq as [[_ E]|Hq]; [contradiction|exact Hq].
      + apply Hin. right; exact Hq.
  Qed.

  Lemma level_up_tree t : forall fuel subs, (height t <= fuel)%nat -> lpre t subs -> exists subs', level_up fuel (label t) subs = Done subs' /\ lpost t subs subs'.
  Proof.
    induction t as [p ts IH] using tree_rect'. intros fuel subs Hf (HR & Hn & Hh & Hk). rewrite Forall_forall in IH.
    destruct fuel as [|f]; [cbn in Hf; lia|]. inversion HR as [? ? (s & Hs & Hnest) HRs]; subst.
    cbn [level_up label]. rewrite Hs.
    assert (Hsh : s_host s = host p) by (apply (Hh p s); [left; reflexivity|exact Hs]).
    set (T := Node p ts) in *.
    assert (Hloop : forall ts1 ts2 cur kept, ts = ts1 ++ ts2 -> length cur = length subs ->
      (forall i, zget cur i = if memb i (flat_map nodes ts1) then option_map (leveled T i) (zget subs i) else zget subs i) ->
      kept = rev (filter (fun c => negb (lcut p c)) (map label ts1)) ->
      exists subs', (fix members (l : list Z) (kept : list Z) (subs : list (sub X R)) : run (list (sub X R)) :=
               match l with
               | [] => of_opt (zmodify subs p (set_nest (rev kept)))
               | c :: r =>
                   match zget subs c with
                   | None => Crash
                   | Some sc =>
                       if negb (s_host sc =? s_host s) || (s_rank sc =? 0) then
                         match zmodify subs c (set_rank 0) with
                         | None => Crash
                         | Some subs1 => rbind (level_up f c subs1) (members r kept)
                         end
                       else rbind (level_up f c subs) (members r (c :: kept))
                   end
               end) (map label ts2) kept cur = Done subs' /\ lpost T subs subs').
    { intros ts1 ts2. revert ts1. induction ts2 as [|t ts2 IH2]; intros ts1 cur kept Ets HL Hcur Hkept.
      - rewrite app_nil_r in Ets. subst ts1. cbn [map].
        assert (Hp : ~ In p (flat_map nodes ts)) by (unfold T in Hn; cbn in Hn; inversion Hn; assumption).
        assert (Hcp : zget cur p = Some s) by (rewrite Hcur, (memb_false _ _ Hp); exact Hs).
        destruct (zmodify_some cur p (set_nest (rev kept)) s Hcp) as [subs' HU]. rewrite HU. exists subs'. split; [reflexivity|].
        split; [rewrite (zmodify_length _ _ _ _ HU); exact HL|]. intros i. rewrite (zmodify_get _ _ _ _ i HU). unfold T at 1. cbn [nodes memb existsb].
        destruct (Z.eqb_spec i p) as [->|Hne].
        + cbn [orb]. rewrite Hcp, Hs. cbn [option_map]. f_equal. unfold leveled. rewrite Hnest, Hkept, rev_involutive.
          rewrite (memb_false p (cutset T)); [reflexivity|]. intros Hin. unfold cutset in Hin. apply in_map_iff in Hin as ([q j] & E & Hin). cbn in E. subst j.
          apply filter_In in Hin as [Hin _]. eapply (root_no_member T); eauto.
        + cbn [orb]. rewrite Hcur. reflexivity.
      - cbn [map]. assert (Ht : In t ts) by (rewrite Ets; apply in_or_app; right; left; reflexivity).
        destruct (nodup_branch _ _ _ Hn Ht) as [Hnt Hpt].
        assert (Hnn : NoDup (flat_map nodes (ts1 ++ t :: ts2))) by (unfold T in Hn; rewrite Ets in Hn; cbn in Hn; inversion Hn; assumption).
        assert (Hout : forall i, In i (nodes t) -> zget cur i = zget subs i).
        { intros i Hi. rewrite Hcur, memb_false; [reflexivity|]. apply (nodup_disjoint ts1 t ts2 i Hnn Hi). }
        assert (HinT : forall i, In i (nodes t) -> In i (nodes T)) by (intros i Hi; unfold T; cbn; right; apply in_flat; eauto).
        rewrite Forall_forall in HRs. pose proof (HRs t Ht) as HRt.
        destruct (represents_get subs t (label t) HRt (label_in t)) as [sc Hsc]. rewrite (Hout _ (label_in t)), Hsc.
        assert (Hcut : negb (s_host sc =? s_host s) || (s_rank sc =? 0) = lcut p (label t)).
        { unfold lcut. rewrite Hsh, (Hh (label t) sc (HinT _ (label_in t)) Hsc). rewrite (Hk (label t) sc); [reflexivity| |exact Hsc].
          unfold T. cbn [edges]. rewrite map_app, map_map. apply in_or_app. left. apply in_map_iff. exists t. split; [reflexivity|exact Ht]. }
        rewrite Hcut.
        assert (Hpre : forall cur1, (forall i, zget cur1 i = if i =? label t then option_map (fun x => if lcut p (label t) then set_rank 0 x else x) (zget cur i) else zget cur i) -> lpre t cur1).
        { intros cur1 H1. split; [|split; [exact Hnt|split]].
          - eapply represents_ext; [exact HRt|]. intros i l Hi (si & Hsi & El). exists (if i =? label t then (if lcut p (label t) then set_rank 0 si else si) else si).
            rewrite H1, (Hout i Hi), Hsi. destruct (i =? label t); [|auto]. cbn. destruct (lcut p (label t)); auto.
          - intros i si Hi Hsi. rewrite H1, (Hout i Hi) in Hsi. destruct (represents_get subs t i HRt Hi) as [s0 Hs0]. rewrite Hs0 in Hsi.
            pose proof (Hh i s0 (HinT i Hi) Hs0). destruct (i =? label t); [|congruence]. cbn in Hsi. injection Hsi as <-. destruct (lcut p (label t)); assumption.
          - intros i si Hi Hsi. assert (Hi' : In i (nodes t)) by (eapply Permutation_in; [symmetry; apply nodes_edges|right; exact Hi]).
            rewrite H1, (Hout i Hi') in Hsi. destruct (Z.eqb_spec i (label t)) as [->|_].
            + exfalso. apply in_map_iff in Hi as ([q j] & E & He). cbn in E. subst j. eapply root_no_member; eauto.
            + apply (Hk i si); [|exact Hsi]. unfold T. cbn [edges]. rewrite map_app. apply in_or_app. right.
              apply in_map_iff in Hi as (e & <- & He). apply in_map. apply in_flat. eauto. }
        assert (Hft : (height t <= f)%nat) by (pose proof (height_branch p ts t Ht); unfold T in Hf; lia).
        assert (Hstep : forall cur1, (forall i, zget cur1 i = if i =? label t then option_map (fun x => if lcut p (label t) then set_rank 0 x else x) (zget cur i) else zget cur i) ->
          length cur1 = length cur -> exists cur2, level_up f (label t) cur1 = Done cur2 /\ length cur2 = length subs /\
            forall i, zget cur2 i = if memb i (flat_map nodes (ts1 ++ [t])) then option_map (leveled T i) (zget subs i) else zget subs i).
        { intros cur1 H1 HL1. destruct (IH t Ht f cur1 Hft (Hpre cur1 H1)) as (cur2 & E2 & HL2 & Hp2). exists cur2. split; [exact E2|]. split; [lia|].
          intros i. rewrite Hp2, flat_map_app. cbn [flat_map]. rewrite app_nil_r, memb_app. destruct (memb_spec i (nodes t)) as [Hi|Hi].
          - rewrite orb_true_r, H1, (Hout i Hi). destruct (represents_get subs t i HRt Hi) as [s0 Hs0]. rewrite Hs0.
            unfold leveled, T. rewrite Ets. rewrite (cutset_branch p ts1 t ts2 i); [|rewrite <- Ets; exact Hn|exact Hi].
            destruct (Z.eqb_spec i (label t)) as [->|Hne]; cbn [option_map].
            + rewrite (memb_false (label t) (cutset t)).
              * destruct (lcut p (label t)); reflexivity.
              * intros Hin. unfold cutset in Hin. apply in_map_iff in Hin as ([q j] & E & He). cbn in E. subst j. apply filter_In in He as [He _].
                eapply root_no_member; eauto.
            + reflexivity.
          - rewrite orb_false_r, H1. destruct (Z.eqb_spec i (label t)) as [->|_]; [exfalso; apply Hi; apply label_in|]. apply Hcur. }
        destruct (lcut p (label t)) eqn:Ec.
        + destruct (zmodify_some cur (label t) (set_rank 0) sc) as [cur1 HU]; [rewrite (Hout _ (label_in t)); exact Hsc|]. rewrite HU.
          destruct (Hstep cur1) as (cur2 & E2 & HL2 & Hc2).
          * intros i. apply (zmodify_get _ _ _ _ i HU).
          * apply (zmodify_length _ _ _ _ HU).
          * rewrite E2. cbn [rbind]. apply (IH2 (ts1 ++ [t])); [rewrite <- app_assoc; exact Ets|exact HL2|exact Hc2|].
            rewrite map_app, filter_app. cbn [map filter]. rewrite Ec. cbn. rewrite app_nil_r. exact Hkept.
        + destruct (Hstep cur) as (cur2 & E2 & HL2 & Hc2).
          * intros i. destruct (i =? label t); [|reflexivity]. destruct (zget cur i); reflexivity.
          * reflexivity.
          * rewrite E2. cbn [rbind]. apply (IH2 (ts1 ++ [t])); [rewrite <- app_assoc; exact Ets|exact HL2|exact Hc2|].
            rewrite map_app, filter_app. cbn [map filter]. rewrite Ec. cbn. rewrite rev_app_distr. cbn. f_equal. exact Hkept. }
    rewrite Hnest. apply (Hloop [] ts subs []); try reflexivity.
  Qed.
End LevelUp.
