(** ExtendCentralNest, AssignRanks and FillDepth for all halos of a process. *)
From Coq Require Import List ZArith Bool Lia Sorting.Permutation.
From Verif.Model Require Import ListMem Mpi Run Subhalo Nest.
From Verif.Spec Require Import Forest.
From Verif.Proofs Require Import ListMemProofs MpiProofs ListExtra MemberProofs TreeProofs NestProofs NestProofs2 NestProofs3.
Import ListNotations.
Local Open Scope Z_scope.

Lemma run_each_inv {A S} (P : list A -> S -> Prop) (body : A -> S -> run S) l : forall pre s, P pre s ->
  (forall p x q s, pre ++ l = p ++ x :: q -> P p s -> exists s', body x s = Done s' /\ P (p ++ [x]) s') ->
  exists s', run_each l body s = Done s' /\ P (pre ++ l) s'.
Proof.
  induction l as [|x l IH]; intros pre s HP Hstep; cbn.
  - exists s. split; [reflexivity|]. rewrite app_nil_r. exact HP.
  - destruct (Hstep pre x l s eq_refl HP) as (s1 & E1 & H1). rewrite E1. cbn. destruct (IH (pre ++ [x]) s1 H1) as (s2 & E2 & H2).
    + intros p y q s' E HPp. apply (Hstep p y q s'); [|exact HPp]. rewrite <- E, <- app_assoc. reflexivity.
    + exists s2. split; [exact E2|]. rewrite <- app_assoc in H2. exact H2.
Qed.

Lemma nth_app {A} (l m : list A) k : nth_error (l ++ m) k = if (k <? length l)%nat then nth_error l k else nth_error m (k - length l)%nat.
Proof. destruct (Nat.ltb_spec k (length l)); [apply nth_error_app1|apply nth_error_app2]; lia. Qed.

(** A member table: one duplicate-free list per host holding exactly its subhalos; element 0 is the field. *)
Definition table_for {X R} (subs : list (sub X R)) (nh : nat) (table : list (list nat)) : Prop :=
  length table = S nh /\
  (forall k g, nth_error table k = Some g -> NoDup g /\
     forall i, In i g <-> exists s, nth_error subs i = Some s /\ s_host s = Z.of_nat k - 1) /\
  (forall i s, nth_error subs i = Some s -> -1 <= s_host s < Z.of_nat nh).

Lemma same_but_host {X R} (a b : sub X R) : same_but_nest a b -> s_host a = s_host b.
Proof. unfold same_but_nest. intros H. apply (f_equal s_host) in H. exact H. Qed.
Lemma same_but_trans {X R} (a b c : sub X R) : same_but_nest a b -> same_but_nest b c -> same_but_nest a c.
Proof. unfold same_but_nest. congruence. Qed.
Lemma same_but_refl {X R} (a : sub X R) : same_but_nest a a.
Proof. reflexivity. Qed.

Section All.
  Context {X R : Type}.
  Variables (subs : list (sub X R)) (ts : list tree) (nh : nat) (table heads : list (list nat)) (fuel : nat).
  Let n := length subs.
  Hypothesis Hforest : is_forest (local_nest subs) (zs (seq 0 n)) ts.
  Hypothesis Hroots : forall i s, zget subs i = Some s -> (s_rank s = 0 <-> In i (map label ts)).
  Hypothesis Huni : forall t i, In t ts -> In i (nodes t) -> hostz subs i = hostz subs (label t).
  Hypothesis Htable : table_for subs nh table.
  Hypothesis Hheadsl : length heads = nh.
  Hypothesis Hheads : forall h g hs, nth_error table (S h) = Some g -> nth_error heads h = Some hs -> (2 <= length g)%nat ->
    Permutation (zs hs) (filter (fun i => hostz subs i =? Z.of_nat h) (map label ts)).
  Hypothesis Hfuel : (n <= fuel)%nat.

  Definition host_trees (h : Z) : list tree := filter (fun t => hostz subs (label t) =? h) ts.

  Lemma group_lt k g i : nth_error table k = Some g -> In i g -> (i < n)%nat.
  Proof. intros Hg Hi. destruct Htable as (_ & H & _). apply (H k g Hg) in Hi as (s & Hs & _). eapply nth_error_lt; eauto. Qed.
  Lemma group_length k g : nth_error table k = Some g -> (length g <= n)%nat.
  Proof.
    intros Hg. destruct Htable as (_ & H & _). destruct (H k g Hg) as [Hn _]. rewrite <- (seq_length n 0). apply NoDup_incl_length; [exact Hn|].
    intros i Hi. apply in_seq. pose proof (group_lt k g i Hg Hi). lia.
  Qed.
  Lemma in_group k g i s : nth_error table k = Some g -> nth_error subs i = Some s -> (In i g <-> s_host s = Z.of_nat k - 1).
  Proof. intros Hg Hs. destruct Htable as (_ & H & _). rewrite (proj2 (H k g Hg)). split; [intros (s' & Hs' & E); congruence|eauto]. Qed.
  Lemma hostz_get i s : nth_error subs i = Some s -> hostz subs (Z.of_nat i) = s_host s.
  Proof. intros H. unfold hostz. rewrite zget_of_nat, H. reflexivity. Qed.
  Lemma tree_ids t i : In t ts -> In i (nodes t) -> exists j s, i = Z.of_nat j /\ nth_error subs j = Some s.
  Proof.
    intros Ht Hi. destruct Hforest as [HF _]. rewrite Forall_forall in HF. destruct (represents_get subs t i (HF t Ht) Hi) as [s Hs].
    pose proof (zget_some _ _ _ Hs). exists (Z.to_nat i), s. split; [lia|]. rewrite zget_nat in Hs by lia. exact Hs.
  Qed.
  Lemma filter_split {A} (f : A -> bool) l : Permutation l (filter f l ++ filter (fun x => negb (f x)) l).
  Proof. induction l as [|x l IH]; cbn; [constructor|]. destruct (f x); cbn; [constructor; exact IH|]. rewrite <- Permutation_middle. constructor. exact IH. Qed.

  Lemma host_nodes k g : nth_error table k = Some g -> Permutation (flat_map nodes (host_trees (Z.of_nat k - 1))) (zs g).
  Proof.
    intros Hg. pose proof (nodup_all subs ts Hforest) as HN. apply NoDup_Permutation.
    - assert (HP := flat_map_perm nodes _ _ (filter_split (fun t => hostz subs (label t) =? Z.of_nat k - 1) ts)). rewrite flat_map_app in HP.
      eapply Permutation_NoDup in HN; [|exact HP]. eapply NoDup_app_remove_r; exact HN.
    - apply NoDup_map_inj; [intros x y _ _; apply Nat2Z.inj|]. apply Htable in Hg as [Hn _]. exact Hn.
    - intros i. split.
      + intros Hi. apply in_flat in Hi as (t & Ht & Hi). apply filter_In in Ht as [Ht Hh]. apply Z.eqb_eq in Hh. destruct (tree_ids t i Ht Hi) as (j & s & -> & Hs).
        apply in_zs. apply (in_group k g j s Hg Hs). rewrite <- (hostz_get j s Hs), (Huni t _ Ht Hi). exact Hh.
      + intros Hi. apply in_map_iff in Hi as (j & <- & Hj). destruct Htable as (_ & Htg & _). assert (Hj' := Hj). apply (Htg k g Hg) in Hj' as (s & Hs & Eh).
        destruct (in_some_tree subs ts Hforest (Z.of_nat j) s) as (t & Ht & Hi); [rewrite zget_of_nat; exact Hs|].
        apply in_flat. exists t. split; [|exact Hi]. apply filter_In. split; [exact Ht|]. apply Z.eqb_eq. rewrite <- (Huni t _ Ht Hi), (hostz_get j s Hs). exact Eh.
  Qed.

  (** ** ExtendCentralNest *)
  Definition covered (cur : list (sub X R)) (h : nat) : Prop :=
    forall g, nth_error table (S h) = Some g ->
      match g with [] => True | c0 :: _ => exists t, represents (local_nest cur) t /\ label t = Z.of_nat c0 /\ Permutation (nodes t) (zs g) end.
  Definition ext_inv (pre : list nat) (cur : list (sub X R)) : Prop :=
    length cur = n /\ (forall i s, zget subs i = Some s -> exists s', zget cur i = Some s' /\ same_but_nest s s') /\
    (forall i, ~ In (hostz subs i) (zs pre) -> zget cur i = zget subs i) /\
    (forall h, In h pre -> covered cur h).

  Lemma extend_nests_spec order : Permutation order (seq 0 nh) ->
    exists subs', extend_nests fuel order table heads subs = Done subs' /\ ext_inv (seq 0 nh) subs'.
  Proof.
    intros Hord. destruct (run_each_inv ext_inv (fun h l => match nth_error table (S h), nth_error heads h with
                               | Some g, Some hs => extend_one fuel g hs l | _, _ => Crash end) order [] subs) as (s' & E & HI).
    - split; [reflexivity|]. split; [intros i s Hs; exists s; split; [exact Hs|reflexivity]|]. split; [auto|]. intros h [].
    - intros p h q cur Eo (HL & Hb & Hout & Hcov). cbn in Eo.
      assert (Hh : (h < nh)%nat). { assert (In h (seq 0 nh)) as Hin by (apply (Permutation_in _ Hord); rewrite Eo; apply in_or_app; right; left; reflexivity). apply in_seq in Hin. lia. }
      assert (Hnp : ~ In h p).
      { intros Hin. assert (NoDup order) as Hno by (eapply Permutation_NoDup; [symmetry; exact Hord|apply seq_NoDup]). rewrite Eo in Hno.
        eapply NoDup_app_disjoint; [exact Hno|exact Hin|left; reflexivity]. }
      destruct Htable as (Htl & Htg & Hth). destruct (nth_error_in_range table (S h)) as [g Hg]; [lia|]. destruct (nth_error_in_range heads h) as [hs Hhs]; [lia|].
      rewrite Hg, Hhs. pose proof (host_nodes (S h) g Hg) as HP. replace (Z.of_nat (S h) - 1) with (Z.of_nat h) in HP by lia.
      assert (Hgh : forall i, In i (zs g) -> hostz subs i = Z.of_nat h).
      { intros i Hi. apply in_map_iff in Hi as (j & <- & Hj). apply (Htg (S h) g Hg) in Hj as (s & Hs & Eh). rewrite (hostz_get j s Hs). lia. }
      assert (Hsame : forall i, In i (zs g) -> zget cur i = zget subs i).
      { intros i Hi. apply Hout. rewrite (Hgh i Hi). rewrite in_zs. exact Hnp. }
      assert (Hus : exists us, Permutation us (host_trees (Z.of_nat h)) /\ ((2 <= length g)%nat -> zs hs = map label us)).
      { destruct (le_lt_dec 2 (length g)) as [H2|H2].
        - pose proof (Hheads h g hs Hg Hhs H2) as HH.
          assert (EH : filter (fun i => hostz subs i =? Z.of_nat h) (map label ts) = map label (host_trees (Z.of_nat h))).
          { unfold host_trees. clear. induction ts as [|t l IH]; cbn; [reflexivity|]. destruct (hostz subs (label t) =? Z.of_nat h); cbn; [f_equal|]; exact IH. }
          rewrite EH in HH. apply Permutation_map_inv in HH as (us & Eus & HPu). exists us. split; [symmetry; exact HPu|]. intros _. exact Eus.
        - exists (host_trees (Z.of_nat h)). split; [reflexivity|]. intros; lia. }
      destruct Hus as (us & HPu & Hlab).
      assert (Husin : forall t, In t us -> In t ts /\ hostz subs (label t) = Z.of_nat h).
      { intros t Ht. apply (Permutation_in _ HPu) in Ht. apply filter_In in Ht as [Ht Hh']. split; [exact Ht|lia]. }
      assert (HPn : Permutation (flat_map nodes us) (zs g)) by (rewrite (flat_map_perm nodes _ _ HPu); exact HP).
      destruct Hforest as [HF _]. rewrite Forall_forall in HF.
      destruct (extend_one_spec cur us g hs (Z.of_nat h) fuel) as (cur' & E' & (HL' & Hout' & Hb') & Hnew).
      + rewrite Forall_forall. intros t Ht. destruct (Husin t Ht) as [Ht1 _]. eapply represents_ext; [apply HF; exact Ht1|]. intros i l Hi (s & Hs & El). exists s.
        rewrite Hsame; [auto|]. eapply Permutation_in; [exact HPn|]. apply in_flat. eauto.
      + exact HPn.
      + apply (Htg _ _ Hg).
      + intros i s Hi Hs. rewrite Hsame in Hs by exact Hi. rewrite <- (Hgh _ Hi). unfold hostz. rewrite Hs. reflexivity.
      + intros i s Hi Hs. rewrite Hsame in Hs by exact Hi. rewrite (Hroots i s Hs). split; intros H; apply in_map_iff in H as (t & El & Ht); apply in_map_iff; exists t; (split; [exact El|]).
        * apply (Permutation_in _ (Permutation_sym HPu)). apply filter_In. split; [exact Ht|]. rewrite El, (Hgh i Hi). apply Z.eqb_refl.
        * apply Husin. exact Ht.
      + exact Hlab.
      + pose proof (group_length _ _ Hg). lia.
      + exists cur'. split; [exact E'|]. split; [lia|]. split; [|split].
        * intros i s Hs. destruct (Hb i s Hs) as (s1 & Hs1 & B1). destruct (Hb' i s1 Hs1) as (s2 & Hs2 & B2). exists s2. split; [exact Hs2|eapply same_but_trans; eauto].
        * intros i Hi. unfold zs in Hi. rewrite map_app, in_app_iff in Hi. cbn in Hi. rewrite Hout'.
          -- apply Hout. tauto.
          -- intros Hin. apply Hi. right; left. symmetry. apply Hgh. exact Hin.
        * intros k Hk g' Hg'. apply in_app_or in Hk as [Hk|[<-|[]]].
          -- specialize (Hcov k Hk g' Hg'). destruct g' as [|c0 rest]; [exact I|]. destruct Hcov as (t & HR & Hl & HPt). exists t. split; [|auto].
             eapply represents_ext; [exact HR|]. intros i l Hi (s & Hs & El). exists s. split; [|exact El]. rewrite Hout'; [exact Hs|].
             intros Hin. apply Hgh in Hin. assert (Hi' : In i (zs (c0 :: rest))) by (eapply Permutation_in; eauto). apply in_map_iff in Hi' as (j & <- & Hj).
             apply (Htg (S k) _ Hg') in Hj as (sj & Hsj & Eh). rewrite (hostz_get j sj Hsj) in Hin. apply Hnp. replace h with k by lia. exact Hk.
          -- rewrite Hg in Hg'. injection Hg' as <-. exact Hnew.
    - exists s'. split; [exact E|]. destruct HI as (H1 & H2 & H3 & H4). cbn in H3, H4. split; [exact H1|]. split; [exact H2|]. split.
      + intros i Hi. apply H3. intros Hin. apply Hi. unfold zs in *. apply in_map_iff in Hin as (j & Ej & Hj). rewrite <- Ej. apply in_map.
        eapply Permutation_in; eauto.
      + intros h Hh. apply H4. eapply Permutation_in; [symmetry; exact Hord|exact Hh].
  Qed.
End All.

(** ** AssignRanks *)
Definition ranks_only {X R} (a b : sub X R) : Prop := b = set_rank (s_rank b) a.
Lemma ranks_only_set {X R} r (a b : sub X R) : ranks_only a b -> ranks_only a (set_rank r b).
Proof. unfold ranks_only. intros ->. reflexivity. Qed.
Lemma ranks_only_refl {X R} (a : sub X R) : ranks_only a a.
Proof. unfold ranks_only. destruct a; reflexivity. Qed.
Lemma ranks_only_trans {X R} (a b c : sub X R) : ranks_only a b -> ranks_only b c -> ranks_only a c.
Proof. unfold ranks_only. intros -> ->. reflexivity. Qed.

Section Ranks.
  Context {X R : Type}.
  Lemma rank_group_spec g (subs : list (sub X R)) : NoDup g -> (forall i, In i g -> (i < length subs)%nat) ->
    exists subs', rank_group g subs = Some subs' /\ length subs' = length subs /\
      (forall i, ~ In i g -> nth_error subs' i = nth_error subs i) /\
      (forall k i s, nth_error g k = Some i -> nth_error subs i = Some s -> nth_error subs' i = Some (set_rank (Z.of_nat k) s)).
  Proof.
    intros Hn Hlt. unfold rank_group. set (l := combine g (map Z.of_nat (seq 0 (length g)))).
    assert (Hnth : forall k i r, nth_error l k = Some (i, r) <-> nth_error g k = Some i /\ r = Z.of_nat k).
    { intros k i r. unfold l. split.
      - intros H. apply combine_nth_error_inv in H as [H1 H2]. split; [exact H1|]. rewrite nth_error_map in H2. rewrite nth_seq in H2. destruct (k <? length g)%nat; [|discriminate].
        cbn in H2. injection H2 as <-. reflexivity.
      - intros [H1 ->]. apply combine_nth_error; [exact H1|]. rewrite nth_error_map. rewrite nth_seq. pose proof (nth_error_lt _ _ _ H1).
        destruct (Nat.ltb_spec k (length g)); [reflexivity|lia]. }
    destruct (for_each_inv (fun pre cur => length cur = length subs /\ (forall i, ~ In i (map fst pre) -> nth_error cur i = nth_error subs i) /\
        (forall k i r s, nth_error pre k = Some (i, r) -> nth_error subs i = Some s -> nth_error cur i = Some (set_rank r s)))
      l (fun ir cur => modify cur (fst ir) (set_rank (snd ir))) subs) as (s' & E & H1 & H2 & H3).
    - split; [reflexivity|]. split; [auto|]. intros [|k]; discriminate.
    - intros pre [i r] post cur El (H1 & H2 & H3). cbn [fst snd].
      assert (Hi : nth_error l (length pre) = Some (i, r)) by (rewrite El, nth_error_app2, Nat.sub_diag by lia; reflexivity).
      pose proof (proj1 (Hnth _ _ _) Hi) as [Hgi _].
      assert (Hip : ~ In i (map fst pre)).
      { intros Hin. apply in_map_iff in Hin as ([j r'] & Ej & Hin). cbn in Ej. subst j. apply In_nth_error in Hin as [k Hk].
        assert (nth_error l k = Some (i, r')) as Hl by (rewrite El, nth_error_app1; [exact Hk|eapply nth_error_lt; eauto]).
        apply Hnth in Hl as [Hgk _]. pose proof (nth_error_lt _ _ _ Hk). assert (k = length pre); [|lia]. eapply NoDup_nth_error; [exact Hn|eapply nth_error_lt; eauto|congruence]. }
      destruct (nth_error_in_range subs i) as [s Hs]; [apply Hlt; eapply nth_error_In; eauto|].
      assert (Hc : nth_error cur i = Some s) by (rewrite H2; assumption).
      destruct (modify_some cur i (set_rank r) s Hc) as [cur' E']. exists cur'. split; [exact E'|]. split; [rewrite (modify_length _ _ _ _ E'); exact H1|]. split.
      + intros j Hj. rewrite map_app, in_app_iff in Hj. cbn in Hj. rewrite (modify_nth _ _ _ _ j E'). destruct (Nat.eqb_spec j i) as [->|]; [exfalso; tauto|]. apply H2. tauto.
      + intros k j r' s' Hk Hs'. rewrite (modify_nth _ _ _ _ j E'). destruct (Nat.eqb_spec j i) as [->|Hne].
        * rewrite Hc. cbn. f_equal. assert (Hlk : nth_error l k = Some (i, r')). { rewrite El. rewrite nth_app in Hk |- *. destruct (k <? length pre)%nat; [exact Hk|]. destruct (k - length pre)%nat as [|[|]]; cbn in Hk |- *; congruence. }
          apply Hnth in Hlk as [Hgk ->]. apply Hnth in Hi as [_ ->]. assert (k = length pre) as ->; [|congruence]. eapply NoDup_nth_error; [exact Hn|eapply nth_error_lt; eauto|congruence].
        * rewrite nth_app in Hk. destruct (Nat.ltb_spec k (length pre)); [eapply H3; eauto|]. destruct (k - length pre)%nat as [|[|]]; cbn in Hk; try discriminate. congruence.
    - exists s'. split; [exact E|]. split; [exact H1|]. split.
      + intros i Hi. apply H2. intros Hin. apply Hi. apply in_map_iff in Hin as ([j r] & <- & Hin). apply In_nth_error in Hin as [k Hk]. apply Hnth in Hk as [Hk _]. eapply nth_error_In; eauto.
      + intros k i s Hk Hs. apply (H3 k i); [|exact Hs]. apply Hnth. auto.
  Qed.
End Ranks.
