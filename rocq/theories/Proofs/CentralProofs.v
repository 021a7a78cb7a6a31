(** Proofs about DecideCentrals and FeedCentrals. *)
From Coq Require Import List ZArith QArith Bool Lia Sorting.Permutation Sorting.Sorted.
From Verif.Model Require Import ListMem Mpi Subhalo.
From Verif.Proofs Require Import ListMemProofs MpiProofs RestoreProofs MemberProofs.
Import ListNotations.
Local Open Scope nat_scope.

Lemma Qlt_of_not_le_bool a b : Qle_bool a b = false -> (b < a)%Q.
Proof. intros H. destruct (Qlt_le_dec b a) as [|Hl]; [assumption|]. apply Qle_bool_iff in Hl. congruence. Qed.

Section Decide.
  Context {X R H : Type}.
  Variable ratio : Q.
  Variable dist : sub X R -> H -> Q.

  (** position returned and value there *)
  Lemma closest_spec ds : forall dmin ic i, ic < i ->
    (closest dmin ic i ds = ic /\ Forall (fun d => (dmin <= d)%Q) ds) \/
    (exists k d, nth_error ds k = Some d /\ closest dmin ic i ds = i + k /\ (d < dmin)%Q /\ Forall (fun d' => (d <= d')%Q) ds).
  Proof.
    induction ds as [|d ds IH]; intros dmin ic i Hi; [left; split; [reflexivity|constructor]|].
    cbn [closest]. destruct (Qle_bool dmin d) eqn:E; cbn [negb].
    - apply Qle_bool_iff in E. destruct (IH dmin ic (S i) ltac:(lia)) as [[H1 H2]|(k & d' & H1 & H2 & H3 & H4)].
      + left. split; [exact H1|]. constructor; assumption.
      + right. exists (S k), d'. split; [exact H1|]. split; [rewrite H2; lia|]. split; [exact H3|]. constructor; [|exact H4].
        apply Qlt_le_weak. eapply Qlt_le_trans; eauto.
    - apply Qlt_of_not_le_bool in E. destruct (IH d i (S i) ltac:(lia)) as [[H1 H2]|(k & d' & H1 & H2 & H3 & H4)].
      + right. exists 0, d. split; [reflexivity|]. split; [rewrite H1; lia|]. split; [exact E|]. constructor; [apply Qle_refl|exact H2].
      + right. exists (S k), d'. split; [exact H1|]. split; [rewrite H2; lia|]. split; [eapply Qlt_trans; eauto|].
        constructor; [apply Qlt_le_weak; exact H3|exact H4].
  Qed.
  Lemma n_major_le limit ms : n_major limit ms <= length ms.
  Proof. induction ms as [|m ms IH]; cbn; [lia|]. destruct (negb _); lia. Qed.
  Lemma n_major_in limit ms k m : nth_error ms k = Some m -> k < n_major limit ms -> (limit <= m)%Q.
  Proof.
    revert k; induction ms as [|m0 ms IH]; intros [|k] Hk Hlt; cbn in *; try discriminate;
      destruct (Qle_bool limit m0) eqn:E; cbn in Hlt; try lia.
    - injection Hk as <-. apply Qle_bool_iff; exact E.
    - apply (IH k); [exact Hk|lia].
  Qed.
  (** a list sorted by decreasing mass: everybody heavy is counted *)
  Lemma n_major_out limit ms k m : StronglySorted (fun a b => (b <= a)%Q) ms -> nth_error ms k = Some m -> (limit <= m)%Q -> k < n_major limit ms.
  Proof.
    revert k; induction ms as [|m0 ms IH]; intros k HS Hk Hle; [destruct k; discriminate|]. apply StronglySorted_inv in HS as [HS HF].
    assert (H0 : (limit <= m0)%Q).
    { destruct k; cbn in Hk; [injection Hk as <-; exact Hle|]. rewrite Forall_forall in HF.
      eapply Qle_trans; [exact Hle|]. apply HF. eapply nth_error_In; eauto. }
    cbn. apply Qle_bool_iff in H0. rewrite H0. cbn. destruct k; [lia|]. cbn in Hk. specialize (IH k HS Hk Hle). lia.
  Qed.

  Lemma swap0_perm (ms l1 l2 : list nat) ic m0 mc : nth_error ms 0 = Some m0 -> nth_error ms ic = Some mc ->
    upd ms 0 mc = Some l1 -> upd l1 ic m0 = Some l2 -> Permutation ms l2 /\ nth_error l2 0 = Some mc.
  Proof.
    intros H0 Hc H1 H2. split; [exact (swap_perm ms l1 l2 0 ic m0 mc H0 Hc H1 H2)|].
    rewrite (upd_nth l1 l2 ic 0 m0 H2), (upd_nth ms l1 0 0 mc H1). destruct (Nat.eqb_spec 0 ic) as [<-|]; [congruence|reflexivity].
  Qed.

  Lemma decide_spec (subs : list (sub X R)) (halo : H) members ss :
    mapM (nth_error subs) members = Some ss ->
    StronglySorted (fun a b => (b <= a)%Q) (map s_mass ss) ->
    (forall s0, nth_error ss 0 = Some s0 -> (s_mass s0 * ratio <= s_mass s0)%Q) ->
    exists members', decide_central ratio dist subs halo members = Some members' /\ Permutation members members' /\
      forall m0 c sc s0, nth_error members 0 = Some m0 -> nth_error members' 0 = Some c -> nth_error subs m0 = Some s0 -> nth_error subs c = Some sc ->
        (s_mass s0 * ratio <= s_mass sc)%Q /\
        forall m s, In m members -> nth_error subs m = Some s -> (s_mass s0 * ratio <= s_mass s)%Q -> (dist sc halo <= dist s halo)%Q.
  Proof.
    intros HM HS Hr. destruct members as [|m0 [|m1 ms]].
    - exists []. split; [reflexivity|]. split; [reflexivity|]. intros; discriminate.
    - exists [m0]. split; [reflexivity|]. split; [reflexivity|]. intros x c sc s0 Hx Hc Hs0 Hsc. cbn in Hx, Hc. injection Hx as <-. injection Hc as <-.
      assert (sc = s0) by congruence. subst sc. split.
      + apply Hr. cbn in HM. rewrite Hs0 in HM. injection HM as <-. reflexivity.
      + intros m s [<-|[]] Hs _. assert (s = s0) by congruence. subst. apply Qle_refl.
    - set (mall := m0 :: m1 :: ms) in *. unfold decide_central. fold mall.
      pose proof (mapM_length _ _ _ HM) as HL.
      assert (Hnth : forall k m, nth_error mall k = Some m -> exists s, nth_error subs m = Some s /\ nth_error ss k = Some s).
      { intros k m Hk. destruct (mapM_nth _ _ _ _ _ HM Hk) as (s & H1 & H2). eauto. }
      destruct (Hnth 0 m0 eq_refl) as (s0 & Hs0 & Hss0). assert (HM' : mapM (fun i => nth_error subs i) mall = Some ss) by exact HM. unfold mall at 1. fold mall. rewrite Hs0, HM'.
      destruct ss as [|s0' st]; [discriminate|]. cbn in Hss0. injection Hss0 as ->. cbn [tl]. cbn [map] in HS.
      apply StronglySorted_inv in HS as [HS HF].
      set (limit := (s_mass s0 * ratio)%Q) in *. set (nm := n_major limit (map s_mass st)).
      replace (S nm - 1) with nm by lia.
      set (ds := map (fun s => dist s halo) (firstn nm st)).
      assert (Hic : exists ic sc, closest (dist s0 halo) 0 1 ds = ic /\ nth_error (s0 :: st) ic = Some sc /\ (limit <= s_mass sc)%Q /\
                 (dist sc halo <= dist s0 halo)%Q /\ Forall (fun d => (dist sc halo <= d)%Q) ds).
      { destruct (closest_spec ds (dist s0 halo) 0 1 ltac:(lia)) as [[H1 H2]|(k & d & H1 & H2 & H3 & H4)].
        - exists 0, s0. split; [exact H1|]. split; [reflexivity|]. split; [apply Hr; reflexivity|]. split; [apply Qle_refl|exact H2].
        - unfold ds in H1. rewrite nth_error_map in H1. destruct (nth_error (firstn nm st) k) as [sc|] eqn:E; [|discriminate].
          cbn in H1. injection H1 as <-. pose proof (nth_error_lt _ _ _ E) as Hk. rewrite firstn_length in Hk.
          assert (E' : nth_error st k = Some sc).
          { rewrite <- (firstn_skipn nm st). rewrite nth_error_app1; [exact E|rewrite firstn_length; exact Hk]. }
          exists (S k), sc. split; [exact H2|]. split; [exact E'|]. split; [|split; [apply Qlt_le_weak; exact H3|exact H4]].
          apply (n_major_in limit (map s_mass st) k); [apply map_nth_error; exact E'|]. fold nm. lia. }
      destruct Hic as (ic & sc & -> & Hsc & Hm & Hd0 & Hds).
      destruct (nth_error_in_range mall ic) as [mc Hmc]; [pose proof (nth_error_lt _ _ _ Hsc); rewrite <- HL; assumption|]. rewrite Hmc.
      destruct (upd_some mall 0 mc) as [l1 H1]; [cbn; lia|]. rewrite H1.
      destruct (upd_some l1 ic m0) as [l2 H2]; [rewrite (upd_length _ _ _ _ H1); eapply nth_error_lt; eauto|]. rewrite H2.
      destruct (swap0_perm mall l1 l2 ic m0 mc eq_refl Hmc H1 H2) as [HP Hhd]. exists l2. split; [reflexivity|]. split; [exact HP|].
      intros x c sc' s0' Hx Hc Hx0 Hcs. cbn in Hx. injection Hx as <-. assert (s0' = s0) by congruence. subst s0'. clear Hx0.
      assert (c = mc) by congruence. subst c. destruct (Hnth ic mc Hmc) as (sc2 & E1 & E2).
      assert (sc' = sc) by congruence. subst sc'. fold limit. split; [exact Hm|]. intros m s Hin Hs Hle.
      apply In_nth_error in Hin as [k Hk]. destruct (Hnth k m Hk) as (s' & E3 & E4). assert (s' = s) by congruence. subst s'.
      destruct k as [|k]; [cbn in E4; injection E4 as <-; exact Hd0|]. cbn in E4.
      assert (Hk' : k < nm) by (apply (n_major_out limit (map s_mass st) k (s_mass s)); [exact HS|apply map_nth_error; exact E4|exact Hle]).
      rewrite Forall_forall in Hds. apply Hds. unfold ds. apply (in_map (fun s => dist s halo)).
      apply (nth_error_In _ k). rewrite <- E4. rewrite <- (firstn_skipn nm st) at 2. rewrite nth_error_app1; [reflexivity|].
      rewrite firstn_length. pose proof (nth_error_lt _ _ _ E4). lia.
  Qed.
End Decide.

Section FeedP.
  Context {X R H : Type}.
  Variable centre : H -> R -> R.
  Variable snap : Z.
  Variable fresh : R.
  Variables (table : list (list nat)) (subs : list (sub X R)) (halos : list (list (Z * X) * H)).
  Hypothesis Htable : length table = S (length halos).
  Hypothesis Hdisj : forall g g' m l l', nth_error table g = Some l -> nth_error table g' = Some l' -> In m l -> In m l' -> g = g'.
  Hypothesis Hhead : forall g m0 rest, nth_error table (S g) = Some (m0 :: rest) -> exists c, nth_error subs m0 = Some c /\ s_parts c <> [].
  Let n := length subs.

  Definition is_empty_group (g : nat) : bool := match nth_error table (S g) with Some [] => true | _ => false end.
  Definition halo_parts (g : nat) : list (Z * X) := match nth_error halos g with Some (p, _) => p | None => [] end.
  Definition newborn (g : nat) : sub X R :=
    match nth_error halos g with
    | Some (hp, h) => set_birth snap (set_nbound (length hp) (set_parts hp (set_rest (centre h fresh) (set_host (Z.of_nat g) (new_sub fresh)))))
    | None => new_sub fresh
    end.

  Lemma find_id_some id (l : list (Z * X)) k : find_id id l = Some k -> exists p, nth_error l k = Some p /\ fst p = id.
  Proof.
    revert k; induction l as [|p l IH]; intros k Hk; [discriminate|]. cbn in Hk. destruct (Z.eqb_spec (fst p) id) as [E|E].
    - injection Hk as <-. exists p. split; [reflexivity|exact E].
    - destruct (find_id id l) as [j|]; [|discriminate]. injection Hk as <-. apply IH. reflexivity.
  Qed.
  Lemma find_id_none id (l : list (Z * X)) : find_id id l = None -> ~ In id (map fst l).
  Proof.
    induction l as [|p l IH]; intros Hk; [intros []|]. cbn in Hk. destruct (Z.eqb_spec (fst p) id) as [E|E]; [discriminate|].
    destruct (find_id id l) as [j|]; [discriminate|]. cbn. intros [Hp|Hp]; [contradiction|]. exact (IH eq_refl Hp).
  Qed.
  Lemma lead_spec id (l : list (Z * X)) : exists l', lead_with id l = Some l' /\ Permutation l l' /\ length l' = length l /\
    (In id (map fst l) -> exists p r, l' = p :: r /\ fst p = id) /\ (~ In id (map fst l) -> l' = l).
  Proof.
    unfold lead_with. destruct (find_id id l) as [k|] eqn:E.
    - destruct (find_id_some id l k E) as (p & Hp & Hid). pose proof (nth_error_lt _ _ _ Hp) as Hk.
      destruct (nth_error_in_range l 0) as [q Hq]; [lia|]. unfold swap_at. rewrite Hp, Hq.
      destruct (upd_some l k q Hk) as [l1 H1]. rewrite H1.
      destruct (upd_some l1 0 p) as [l2 H2]; [rewrite (upd_length _ _ _ _ H1); lia|]. exists l2. split; [exact H2|].
      pose proof (swap_perm _ _ _ _ _ _ _ Hp Hq H1 H2) as HP. split; [exact HP|]. split; [symmetry; apply Permutation_length; exact HP|]. split.
      + intros _. pose proof (upd_same _ _ _ _ H2) as H0. destruct l2 as [|p2 r2]; [discriminate|]. cbn in H0. injection H0 as ->. eauto.
      + intros Hn. exfalso. apply Hn. rewrite <- Hid. apply in_map. eapply nth_error_In; eauto.
    - exists l. split; [reflexivity|]. split; [reflexivity|]. split; [reflexivity|]. split; [|reflexivity]. intros Hin. exfalso. exact (find_id_none _ _ E Hin).
  Qed.

  (** what a processed group's central looks like *)
  Definition fed (g m0 : nat) (s' : sub X R) : Prop :=
    exists c p0 pr parts', nth_error subs m0 = Some c /\ s_parts c = p0 :: pr /\
      s' = set_nbound (length (halo_parts g)) (set_parts parts' c) /\ Permutation (halo_parts g) parts' /\
      (In (fst p0) (map fst (halo_parts g)) -> exists p r, parts' = p :: r /\ fst p = fst p0) /\
      (~ In (fst p0) (map fst (halo_parts g)) -> parts' = halo_parts g).

  Definition finv (pre : list nat) (st : feed_state) : Prop :=
    exists olds, f_subs st = olds ++ map newborn (filter is_empty_group pre) ++
        repeat (new_sub fresh) (count_empty table - length (filter is_empty_group pre)) /\
      length olds = n /\ f_npro st = n + length (filter is_empty_group pre) /\ length (f_halos st) = length halos /\
      (forall g, ~ In g pre -> nth_error (f_halos st) g = nth_error halos g) /\
      (forall i, (forall g m0 rest, In g pre -> nth_error table (S g) = Some (m0 :: rest) -> m0 <> i) -> nth_error olds i = nth_error subs i) /\
      (forall g m0 rest, In g pre -> nth_error table (S g) = Some (m0 :: rest) -> exists s', nth_error olds m0 = Some s' /\ fed g m0 s').

  Lemma upd_app2 {A} (a b : list A) k x b' : upd b k x = Some b' -> upd (a ++ b) (length a + k) x = Some (a ++ b').
  Proof. induction a as [|y a IH]; intros HU; [exact HU|]. cbn. rewrite IH by exact HU. reflexivity. Qed.
  Lemma upd_app1 {A} (a b a' : list A) k x : upd a k x = Some a' -> upd (a ++ b) k x = Some (a' ++ b).
  Proof.
    revert k a'; induction a as [|y a IH]; intros [|k] a' HU; cbn in *; try discriminate.
    - injection HU as <-. reflexivity.
    - destruct (upd a k x) as [r|] eqn:E; [|discriminate]. injection HU as <-. rewrite (IH k r E). reflexivity.
  Qed.

  Lemma count_empty_filter (pre : list nat) : NoDup pre -> (forall g, In g pre -> g < length halos) ->
    length (filter is_empty_group pre) <= count_empty table.
  Proof.
    intros Hn Hb. unfold count_empty.
    assert (Hgen : forall (t : list (list nat)) (l : list nat), NoDup l -> (forall g, In g l -> nth_error t g = Some []) ->
              length l <= length (filter (fun g : list nat => length g =? 0) t)).
    { clear. induction t as [|x t IH]; intros l Hn Hl.
      - destruct l as [|g l]; [cbn; lia|]. specialize (Hl g (or_introl eq_refl)). destruct g; discriminate.
      - set (l' := map pred (filter (fun g => negb (g =? 0)) l)).
        assert (H1 : length l' <= length (filter (fun g : list nat => length g =? 0) t)).
        { apply IH.
          - unfold l'. clear - Hn. induction l as [|a l IH]; [constructor|]. inversion Hn as [|? ? Ha Hl]; subst. cbn.
            destruct a as [|a]; cbn; [apply IH; exact Hl|]. constructor; [|apply IH; exact Hl].
            intros Hin. apply in_map_iff in Hin as (b & Hb1 & Hb2). apply filter_In in Hb2 as [Hb2 Hb3]. destruct b; [discriminate|].
            cbn in Hb1. subst b. contradiction.
          - intros g Hg. unfold l' in Hg. apply in_map_iff in Hg as (b & <- & Hb). apply filter_In in Hb as [Hb1 Hb2].
            destruct b as [|b]; [discriminate|]. apply (Hl (S b) Hb1). }
        assert (H2 : length l <= length l' + (if in_dec Nat.eq_dec 0 l then 1 else 0)).
        { unfold l'. rewrite map_length. clear - Hn. induction l as [|a l IH]; [cbn; lia|]. inversion Hn as [|? ? Ha Hl]; subst. specialize (IH Hl).
          cbn [filter length]. destruct a as [|a]; cbn [Nat.eqb negb].
          - destruct (in_dec Nat.eq_dec 0 l); [contradiction|]. destruct (in_dec Nat.eq_dec 0 (0 :: l)) as [|Hx]; [lia|]. exfalso. apply Hx. left; reflexivity.
          - destruct (in_dec Nat.eq_dec 0 l) as [Hi|Hi]; destruct (in_dec Nat.eq_dec 0 (S a :: l)) as [Hx|Hx]; cbn [length]; try lia.
            exfalso. apply Hx. right; exact Hi. }
        cbn [filter]. destruct (in_dec Nat.eq_dec 0 l) as [H0|H0].
        + specialize (Hl 0 H0). cbn in Hl. injection Hl as ->. cbn. lia.
        + destruct (length x =? 0); cbn; lia. }
    apply Hgen.
    - apply NoDup_filter; exact Hn.
    - intros g Hg. apply filter_In in Hg as [Hg1 Hg2]. unfold is_empty_group in Hg2. destruct table as [|t0 t]; [discriminate|]. cbn in *.
      destruct (nth_error t g) as [[|? ?]|]; [reflexivity|discriminate|discriminate].
  Qed.

  Lemma feed_step pre g st : NoDup (pre ++ [g]) -> (forall k, In k (pre ++ [g]) -> k < length halos) -> finv pre st ->
    exists st', feed_one centre snap table g st = Some st' /\ finv (pre ++ [g]) st'.
  Proof.
    intros Hnd Hb (olds & H1 & H2 & H3 & H4 & H5 & H6 & H7).
    assert (Hg : g < length halos) by (apply Hb; apply in_or_app; right; left; reflexivity).
    assert (Hnin : ~ In g pre).
    { intros Hin. eapply NoDup_app_disjoint; [exact Hnd|exact Hin|left; reflexivity]. }
    destruct (nth_error_in_range table (S g)) as [members Hm]; [lia|].
    destruct (nth_error_in_range halos g Hg) as [[hp h] Hh].
    unfold feed_one. rewrite Hm, (H5 g Hnin), Hh.
    pose proof (count_empty_filter (pre ++ [g]) Hnd Hb) as Hcnt. rewrite filter_app, app_length in Hcnt. cbn in Hcnt.
    destruct members as [|m0 rest].
    - assert (Hemp : is_empty_group g = true) by (unfold is_empty_group; rewrite Hm; reflexivity). rewrite Hemp in Hcnt. cbn in Hcnt.
      set (E := filter is_empty_group pre) in *.
      assert (Hrep : repeat (new_sub fresh) (count_empty table - length E) =
                (new_sub fresh : sub X R) :: repeat (new_sub fresh) (count_empty table - S (length E))).
      { replace (count_empty table - length E) with (S (count_empty table - S (length E))) by lia. reflexivity. }
      assert (Hat : forall x, upd (f_subs st) (f_npro st) x = Some (olds ++ (map newborn E ++ [x]) ++ repeat (new_sub fresh) (count_empty table - S (length E)))).
      { intros x. rewrite H1, H3, <- H2. apply upd_app2. rewrite <- (map_length newborn E) at 2. rewrite <- (Nat.add_0_r (length (map newborn E))).
        rewrite <- app_assoc. apply upd_app2. rewrite Hrep. reflexivity. }
      assert (Hget : nth_error (f_subs st) (f_npro st) = Some (new_sub fresh)).
      { rewrite H1, H3, <- H2. rewrite nth_error_app2 by lia. replace (length olds + length E - length olds) with (length E) by lia.
        rewrite nth_error_app2 by (rewrite map_length; lia). rewrite map_length, Nat.sub_diag, Hrep. reflexivity. }
      rewrite Hget, Hat.
      destruct (upd_some (f_halos st) g (s_parts (new_sub fresh : sub X R), h)) as [halos' HU]; [lia|]. rewrite HU.
      eexists. split; [reflexivity|]. exists olds. cbn [f_subs f_npro f_halos]. rewrite filter_app. cbn [filter]. rewrite Hemp, map_app, app_length. cbn [map length].
      fold E. split; [|split; [exact H2|split; [lia|split; [rewrite (upd_length _ _ _ _ HU); exact H4|split; [|split]]]]].
      + replace (count_empty table - (length E + 1)) with (count_empty table - S (length E)) by lia. do 3 f_equal.
        unfold newborn. rewrite Hh. reflexivity.
      + intros k Hk. rewrite (upd_other _ _ _ _ _ HU); [apply H5; intros Hin; apply Hk; apply in_or_app; left; exact Hin|].
        intros ->. apply Hk. apply in_or_app. right; left; reflexivity.
      + intros i Hi. apply H6. intros g' m' r' Hin Ht. eapply Hi; [apply in_or_app; left; exact Hin|exact Ht].
      + intros g' m' r' Hin Ht. apply in_app_or in Hin as [Hin|[<-|[]]]; [eapply H7; eauto|]. rewrite Hm in Ht. discriminate.
    - assert (Hemp : is_empty_group g = false) by (unfold is_empty_group; rewrite Hm; reflexivity).
      destruct (Hhead g m0 rest Hm) as (c & Hc & Hcp). pose proof (nth_error_lt _ _ _ Hc) as Hm0. fold n in Hm0.
      assert (Hold : nth_error olds m0 = Some c).
      { rewrite H6; [exact Hc|]. intros g' m' r' Hin Ht ->. apply Hnin. replace g with g'; [exact Hin|].
        assert (S g' = S g); [|lia]. eapply (Hdisj (S g') (S g) m0); eauto; left; reflexivity. }
      assert (Hget : nth_error (f_subs st) m0 = Some c) by (rewrite H1, nth_error_app1 by lia; exact Hold). rewrite Hget.
      destruct (s_parts c) as [|p0 pr] eqn:Ep; [contradiction|].
      destruct (lead_spec (fst p0) hp) as (parts' & HLd & HP & HPl & HIn & HNin). rewrite HLd.
      set (s' := set_nbound (length hp) (set_parts parts' c)).
      destruct (upd_some olds m0 s') as [olds' HO]; [lia|].
      rewrite H1, (upd_app1 _ _ _ _ _ HO).
      destruct (upd_some (f_halos st) g (p0 :: pr, h)) as [halos' HU]; [lia|]. rewrite HU.
      eexists. split; [reflexivity|]. exists olds'. cbn [f_subs f_npro f_halos]. rewrite filter_app. cbn [filter]. rewrite Hemp, app_nil_r.
      split; [reflexivity|]. split; [rewrite (upd_length _ _ _ _ HO); exact H2|]. split; [exact H3|]. split; [rewrite (upd_length _ _ _ _ HU); exact H4|].
      split; [|split].
      + intros k Hk. rewrite (upd_other _ _ _ _ _ HU); [apply H5; intros Hin; apply Hk; apply in_or_app; left; exact Hin|].
        intros ->. apply Hk. apply in_or_app. right; left; reflexivity.
      + intros i Hi. rewrite (upd_other _ _ _ _ _ HO).
        * apply H6. intros g' m' r' Hin Ht. eapply Hi; [apply in_or_app; left; exact Hin|exact Ht].
        * intros ->. eapply Hi; [apply in_or_app; right; left; reflexivity|exact Hm|reflexivity].
      + intros g' m' r' Hin Ht. apply in_app_or in Hin as [Hin|[<-|[]]].
        * destruct (H7 g' m' r' Hin Ht) as (s2 & E1 & E2). exists s2. split; [|exact E2]. rewrite (upd_other _ _ _ _ _ HO); [exact E1|].
          intros ->. apply Hnin. replace g with g'; [exact Hin|]. assert (S g' = S g); [|lia].
          eapply (Hdisj (S g') (S g) m0); eauto; left; reflexivity.
        * rewrite Hm in Ht. injection Ht as <- <-. exists s'. split; [eapply upd_same; eauto|]. exists c, p0, pr, parts'.
          split; [exact Hc|]. split; [exact Ep|]. unfold s', halo_parts. rewrite Hh. auto.
  Qed.

  Lemma feed_spec order : Permutation order (seq 0 (length halos)) ->
    exists st, feed_centrals centre snap fresh order table subs halos = Some st /\ finv order st /\
      length (filter is_empty_group order) = count_empty table.
  Proof.
    intros HP. assert (Hnd : NoDup order) by (eapply Permutation_NoDup; [symmetry; exact HP|apply seq_NoDup]).
    assert (Hb : forall g, In g order -> g < length halos).
    { intros g Hg. apply (Permutation_in _ HP) in Hg. apply in_seq in Hg. lia. }
    unfold feed_centrals.
    destruct (for_each_inv (fun pre st => finv pre st) order (feed_one centre snap table)
      (mkfeed (subs ++ repeat (new_sub fresh) (count_empty table)) halos (length subs))) as (st & E & HI).
    - exists subs. cbn [filter map length app f_subs f_npro f_halos]. rewrite Nat.sub_0_r, Nat.add_0_r. repeat split; try reflexivity.
      intros g m0 rest [].
    - intros pre g post st E HI. assert (E' : order = (pre ++ [g]) ++ post) by (rewrite <- app_assoc; exact E).
      apply feed_step; [|intros k Hk; apply Hb; rewrite E'; apply in_or_app; left; exact Hk|exact HI].
      rewrite E' in Hnd. eapply NoDup_app_remove_r; eauto.
    - exists st. split; [exact E|]. split; [exact HI|].
      unfold count_empty. destruct table as [|t0 t] eqn:Et; [cbn in Htable; lia|]. cbn [tl].
      assert (Hlen : forall (t : list (list nat)) a, length (filter (fun g => match nth_error t (g - a) with Some [] => true | _ => false end) (seq a (length t))) =
               length (filter (fun g : list nat => length g =? 0) t)).
      { clear. induction t as [|x t IH]; intros a; [reflexivity|]. cbn [length seq filter]. rewrite Nat.sub_diag. cbn [nth_error].
        assert (E : filter (fun g => match nth_error (x :: t) (g - a) with Some [] => true | _ => false end) (seq (S a) (length t)) =
                    filter (fun g => match nth_error t (g - S a) with Some [] => true | _ => false end) (seq (S a) (length t))).
        { apply filter_ext_in. intros g Hg. apply in_seq in Hg. replace (g - a) with (S (g - S a)) by lia. reflexivity. }
        rewrite E. specialize (IH (S a)). destruct x; cbn; lia. }
      rewrite <- (Hlen t 0). cbn in Htable. injection Htable as ->.
      assert (Hperm : Permutation (filter is_empty_group order) (filter is_empty_group (seq 0 (length halos)))).
      { clear - HP. induction HP; cbn.
        - constructor.
        - destruct (is_empty_group x); [constructor|]; assumption.
        - destruct (is_empty_group x), (is_empty_group y); try constructor; apply Permutation_refl.
        - eapply perm_trans; eauto. }
      rewrite (Permutation_length Hperm). f_equal. apply filter_ext. intros g. unfold is_empty_group. rewrite Et, Nat.sub_0_r. reflexivity.
  Qed.
End FeedP.
