(** ExtendCentralNest, AssignRanks and FillDepth on a local forest. *)
From Coq Require Import List ZArith Bool Lia Sorting.Permutation.
From Verif.Model Require Import ListMem Mpi Run Subhalo Nest.
From Verif.Spec Require Import Forest.
From Verif.Proofs Require Import ListMemProofs MpiProofs ListExtra MemberProofs TreeProofs NestProofs NestProofs2.
Import ListNotations.
Local Open Scope Z_scope.

(** ** Levelling up a list of trees *)
Section Each.
  Context {X R : Type}.
  Variables host rk : Z -> Z.
  Lemma level_each fuel us : forall (subs : list (sub X R)), NoDup (flat_map nodes us) ->
    (forall t, In t us -> (height t <= fuel)%nat /\ lpre host rk t subs) ->
    exists subs', run_each (map label us) (fun h l => level_up fuel h l) subs = Done subs' /\ length subs' = length subs /\
      (forall i, ~ In i (flat_map nodes us) -> zget subs' i = zget subs i) /\
      (forall t i, In t us -> In i (nodes t) -> zget subs' i = option_map (leveled host rk t i) (zget subs i)).
  Proof.
    induction us as [|t us IH]; intros subs Hn Hpre.
    - exists subs. split; [reflexivity|]. split; [reflexivity|]. split; [reflexivity|]. intros t i [].
    - cbn [flat_map] in Hn. destruct (Hpre t (or_introl eq_refl)) as [Hh Hp].
      destruct (level_up_tree host rk t fuel subs Hh Hp) as (s1 & E1 & HL1 & H1). cbn [map run_each]. rewrite E1. cbn [rbind].
      assert (Hout : forall i, In i (flat_map nodes us) -> zget s1 i = zget subs i).
      { intros i Hi. rewrite H1, memb_false; [reflexivity|]. intros Hj. eapply NoDup_app_disjoint; eauto. }
      destruct (IH s1) as (s2 & E2 & HL2 & H2 & H3).
      + eapply NoDup_app_remove_l; eauto.
      + intros u Hu. destruct (Hpre u (or_intror Hu)) as (Hhu & HR & HN & Hho & Hrk). split; [exact Hhu|].
        assert (Ho : forall i, In i (nodes u) -> zget s1 i = zget subs i) by (intros i Hi; apply Hout; apply in_flat; eauto).
        split; [|split; [exact HN|split]].
        * eapply represents_ext; [exact HR|]. intros i l Hi (s & Hs & El). exists s. rewrite (Ho i Hi). auto.
        * intros i s Hi. rewrite (Ho i Hi). apply Hho. exact Hi.
        * intros i s Hi. rewrite (Ho i). { apply Hrk. exact Hi. } eapply Permutation_in; [symmetry; apply nodes_edges|right; exact Hi].
      + exists s2. split; [exact E2|]. split; [lia|]. split.
        * intros i Hi. cbn [flat_map] in Hi. rewrite in_app_iff in Hi. rewrite H2 by tauto. rewrite H1, memb_false by tauto. reflexivity.
        * intros u i [<-|Hu] Hi.
          -- rewrite H2. { rewrite H1, memb_true by exact Hi. reflexivity. } intros Hj. eapply NoDup_app_disjoint; eauto.
          -- rewrite (H3 u i Hu Hi). rewrite Hout; [reflexivity|]. apply in_flat. eauto.
  Qed.
End Each.

Definition same_but_nest {X R} (a b : sub X R) : Prop := set_nest [] (set_rank 0 (set_depth 0 a)) = set_nest [] (set_rank 0 (set_depth 0 b)).

Lemma in_single (l : list Z) x : NoDup l -> (forall y, In y l -> y = x) -> In x l -> l = [x].
Proof.
  intros Hn H Hx. destruct l as [|a l]; [destruct Hx|]. rewrite (H a (or_introl eq_refl)) in *. destruct l as [|b l]; [reflexivity|].
  exfalso. inversion Hn as [|? ? H1 _]. apply H1. left. apply H. right; left; reflexivity.
Qed.
Lemma map_single {A B} (f : A -> B) l y : map f l = [y] -> exists x, l = [x] /\ f x = y.
Proof. destruct l as [|a [|b l]]; cbn; try discriminate. intros E. injection E as <-. eauto. Qed.

Lemma represents_node_inv m i ts : represents m (Node i ts) -> m i (map label ts) /\ Forall (represents m) ts.
Proof. inversion 1; auto. Qed.
Lemma run_each_map {A B S} (f : A -> B) l (body : B -> S -> run S) s : run_each (map f l) body s = run_each l (fun a => body (f a)) s.
Proof. revert s; induction l as [|a l IH]; intros s; cbn; [reflexivity|]. destruct (body (f a) s); cbn; auto. Qed.

(** what stays the same *)
Definition kept {X R} (g : list nat) (subs subs' : list (sub X R)) : Prop :=
  length subs' = length subs /\ (forall i, ~ In i (zs g) -> zget subs' i = zget subs i) /\
  (forall i s, zget subs i = Some s -> exists s', zget subs' i = Some s' /\ same_but_nest s s').

(** ** One halo *)
Section One.
  Context {X R : Type}.
  (** [us]: the trees of this host, in the order of their heads; [g]: the member list. *)
  Variables (subs : list (sub X R)) (us : list tree) (g heads : list nat) (h : Z) (fuel : nat).
  Hypothesis Hrep : Forall (represents (local_nest subs)) us.
  Hypothesis Hnodes : Permutation (flat_map nodes us) (zs g).
  Hypothesis Hnodup : NoDup g.
  Hypothesis Hhost : forall i s, In (Z.of_nat i) (zs g) -> zget subs (Z.of_nat i) = Some s -> s_host s = h.
  Hypothesis Hrank : forall i s, In i (zs g) -> zget subs i = Some s -> (s_rank s = 0 <-> In i (map label us)).
  Hypothesis Hheads : (2 <= length g)%nat -> zs heads = map label us.
  Hypothesis Hfuel : (length g <= fuel)%nat.

  Lemma us_nodup : NoDup (flat_map nodes us).
  Proof. eapply Permutation_NoDup; [symmetry; exact Hnodes|]. apply NoDup_map_inj; [intros x y _ _; apply Nat2Z.inj|exact Hnodup]. Qed.
  Lemma us_in i : In i (flat_map nodes us) <-> In i (zs g).
  Proof. split; apply Permutation_in; [exact Hnodes|symmetry; exact Hnodes]. Qed.

  Lemma extend_one_spec : exists subs', extend_one fuel g heads subs = Done subs' /\ kept g subs subs' /\
    match g with
    | [] => True
    | c0 :: _ => exists t, represents (local_nest subs') t /\ label t = Z.of_nat c0 /\ Permutation (nodes t) (zs g)
    end.
  Proof.
    pose proof us_nodup as Hun. pose proof us_in as Hus.
    destruct g as [|c0 [|c1 rest]] eqn:Eg.
    - exists subs. split; [reflexivity|]. split; [|exact I]. split; [reflexivity|]. split; [auto|]. intros i s Hs. exists s. split; [exact Hs|reflexivity].
    - exists subs. split; [reflexivity|]. split.
      { split; [reflexivity|]. split; [auto|]. intros i s Hs. exists s. split; [exact Hs|reflexivity]. }
      cbn in Hnodes. apply Permutation_sym, Permutation_length_1_inv in Hnodes. destruct us as [|t us']; [discriminate|].
      cbn in Hnodes. assert (us' = []) as ->.
      { destruct us' as [|[j ts] us']; [reflexivity|]. apply (f_equal (@length Z)) in Hnodes. destruct t. cbn in Hnodes. rewrite app_length in Hnodes. cbn in Hnodes. lia. }
      cbn in Hnodes. rewrite app_nil_r in Hnodes. exists t. split; [inversion Hrep; assumption|]. rewrite Hnodes. split; [|reflexivity].
      destruct t; cbn in *. congruence.
    - set (gg := c0 :: c1 :: rest) in *. assert (Hl2 : (2 <= length gg)%nat) by (cbn; lia). specialize (Hheads Hl2).
      assert (Hc0g : In (Z.of_nat c0) (zs gg)) by (apply in_zs; left; reflexivity).
      assert (Hc0 : In (Z.of_nat c0) (flat_map nodes us)) by (apply (Permutation_in _ (Permutation_sym Hnodes)); exact Hc0g).
      assert (Hget : forall i, In i (flat_map nodes us) -> exists s, zget subs i = Some s).
      { intros i Hi. apply in_flat in Hi as (t & Ht & Hi). rewrite Forall_forall in Hrep. eapply represents_get; eauto. }
      destruct (Hget _ Hc0) as [c Hc].
      unfold extend_one. unfold gg at 1. fold gg. rewrite <- zget_of_nat, Hc.
      assert (Hhd : forall l, map Z.of_nat (filter (fun x => negb (Nat.eqb x c0)) l) = filter (fun z => negb (z =? Z.of_nat c0)) (zs l)).
      { induction l as [|x l IH]; cbn; [reflexivity|]. destruct (Nat.eqb_spec x c0) as [->|Hne].
        - rewrite Z.eqb_refl. cbn. exact IH.
        - destruct (Z.eqb_spec (Z.of_nat x) (Z.of_nat c0)); [lia|]. cbn. f_equal. exact IH. }
      destruct (Z.eqb_spec (s_rank c) 0) as [Hr|Hr].
      + (* already a head *)
        rewrite Hhd, Hheads. rewrite <- zmodify_of_nat.
        set (f := fun s : sub X R => set_nest (s_nest s ++ filter (fun z => negb (z =? Z.of_nat c0)) (map label us)) s).
        destruct (zmodify_some subs (Z.of_nat c0) f c Hc) as [s1 E1]. rewrite E1. exists s1. split; [reflexivity|].
        assert (Hg1 := fun j => zmodify_get _ _ _ _ j E1). split.
        { split; [eapply zmodify_length; eauto|]. split.
          - intros i Hi. rewrite Hg1. destruct (Z.eqb_spec i (Z.of_nat c0)) as [->|]; [|reflexivity]. exfalso. apply Hi. exact Hc0g.
          - intros i s Hs. rewrite Hg1, Hs. destruct (i =? Z.of_nat c0); cbn; eexists; (split; [reflexivity|]); reflexivity. }
        assert (Hlab : In (Z.of_nat c0) (map label us)) by (apply (Hrank _ c); auto; apply Hus; exact Hc0).
        apply in_map_iff in Hlab as (t0 & El & Ht0). destruct t0 as [i0 bs]. cbn in El. subst i0.
        apply in_split in Ht0 as (a & b & Eus).
        assert (Hdis : forall u, In u (a ++ b) -> ~ In (Z.of_nat c0) (nodes u)).
        { intros u Hu Hi. rewrite Eus in Hun. destruct (nodup_disjoint a (Node (Z.of_nat c0) bs) b (Z.of_nat c0) Hun (or_introl eq_refl)) as [D1 D2].
          apply in_app_or in Hu as [Hu|Hu]; [apply D1|apply D2]; apply in_flat; eauto. }
        exists (Node (Z.of_nat c0) (bs ++ a ++ b)). split; [|split; [reflexivity|]].
        * rewrite Forall_forall in Hrep. assert (HR0 : represents (local_nest subs) (Node (Z.of_nat c0) bs)) by (apply Hrep; rewrite Eus; apply in_or_app; right; left; reflexivity).
          apply represents_node_inv in HR0 as [(s0 & Hs0 & Hn0) HRb]. rewrite Hc in Hs0. injection Hs0 as <-.
          assert (Hkeep : forall u, In u (bs ++ a ++ b) -> represents (local_nest s1) u).
          { intros u Hu. assert (HRu : represents (local_nest subs) u /\ ~ In (Z.of_nat c0) (nodes u)).
            { apply in_app_or in Hu as [Hu|Hu].
              - rewrite Forall_forall in HRb. split; [apply HRb; exact Hu|]. rewrite Eus, flat_map_app in Hun. apply NoDup_app_remove_l in Hun. cbn [flat_map] in Hun.
                apply NoDup_app_remove_r in Hun. apply (nodup_branch _ _ _ Hun Hu).
              - split; [|apply Hdis; exact Hu]. apply Hrep. rewrite Eus. apply in_app_or in Hu as [Hu|Hu]; apply in_or_app; [left|right; right]; exact Hu. }
            destruct HRu as [HRu Hnu]. eapply represents_ext; [exact HRu|]. intros i l Hi (s & Hs & E). exists s. split; [|exact E].
            rewrite Hg1, Hs. destruct (Z.eqb_spec i (Z.of_nat c0)); [subst; contradiction|reflexivity]. }
          constructor; [|rewrite Forall_forall; exact Hkeep].
          exists (f c). rewrite Hg1, Z.eqb_refl, Hc. split; [reflexivity|]. unfold f. cbn [s_nest set_nest]. rewrite Hn0. rewrite Eus. rewrite !map_app. f_equal.
          cbn [map label]. rewrite filter_app. cbn [filter]. rewrite Z.eqb_refl. cbn [negb].
          assert (Hfl : forall us', (forall u, In u us' -> ~ In (Z.of_nat c0) (nodes u)) -> filter (fun z => negb (z =? Z.of_nat c0)) (map label us') = map label us').
          { induction us' as [|u us' IH]; intros HH; cbn; [reflexivity|]. destruct (Z.eqb_spec (label u) (Z.of_nat c0)) as [E|].
            - exfalso. apply (HH u (or_introl eq_refl)). rewrite <- E. apply label_in.
            - cbn. f_equal. apply IH. intros v Hv. apply HH. right; exact Hv. }
          rewrite !Hfl; [reflexivity| |]; intros u Hu; apply Hdis; apply in_or_app; auto.
        * rewrite <- Hnodes, Eus. cbn [nodes]. rewrite !flat_map_app. cbn [flat_map nodes]. cbn [app].
          rewrite <- Permutation_middle. constructor. rewrite Permutation_app_swap_app. reflexivity.
      + (* promoted *)
        rewrite <- zmodify_of_nat. destruct (zmodify_some subs (Z.of_nat c0) (set_rank 0) c Hc) as [s1 E1]. rewrite E1. cbn [of_opt rbind].
        assert (Hg1 := fun j => zmodify_get _ _ _ _ j E1).
        set (host := fun _ : Z => h). set (rk := fun i => if i =? Z.of_nat c0 then 0 else match zget subs i with Some s => s_rank s | None => 0 end).
        assert (Hlt : forall t, In t us -> (height t <= fuel)%nat).
        { intros t Ht. transitivity (length (nodes t)); [apply height_le_nodes|]. transitivity (length gg); [|exact Hfuel].
          rewrite <- (map_length Z.of_nat gg). fold (zs gg). rewrite <- (Permutation_length Hnodes). apply in_split in Ht as (a & b & ->).
          rewrite flat_map_app. cbn. rewrite !app_length. lia. }
        rewrite Forall_forall in Hrep.
        destruct (level_each host rk fuel us s1 Hun) as (s2 & E2 & HL2 & H2 & H3).
        { intros t Ht. split; [apply Hlt; exact Ht|]. assert (Hall : forall i, In i (nodes t) -> In i (zs gg)) by (intros i Hi; apply Hus; apply in_flat; eauto).
          split; [|split; [|split]].
          - eapply represents_ext; [apply Hrep; exact Ht|]. intros i l Hi (s & Hs & E). rewrite <- E. unfold local_nest. rewrite Hg1, Hs.
            destruct (i =? Z.of_nat c0); cbn; eexists; (split; [reflexivity|]); reflexivity.
          - apply in_split in Ht as (a & b & ->). rewrite flat_map_app in Hun. apply NoDup_app_remove_l in Hun. eapply NoDup_app_remove_r; exact Hun.
          - intros i s Hi. rewrite Hg1. intros Hs. apply Hall in Hi. assert (Hi' := Hi). apply in_map_iff in Hi' as (j & <- & _).
            destruct (zget subs (Z.of_nat j)) as [s0|] eqn:E0; [|destruct (Z.of_nat j =? Z.of_nat c0); discriminate]. unfold host. rewrite <- (Hhost j s0 Hi E0).
            destruct (Z.of_nat j =? Z.of_nat c0); cbn in Hs; injection Hs as <-; reflexivity.
          - intros i s Hi. rewrite Hg1. unfold rk. destruct (i =? Z.of_nat c0).
            + intros Hs. destruct (zget subs i); [|discriminate]. injection Hs as <-. reflexivity.
            + intros Hs. rewrite Hs. reflexivity. }
        assert (E2' : run_each heads (fun x l => level_up fuel (Z.of_nat x) l) s1 = Done s2).
        { rewrite <- E2, <- Hheads. unfold zs. rewrite run_each_map. reflexivity. }
        rewrite E2'. cbn [rbind]. rewrite <- zmodify_of_nat.
        set (f := fun s : sub X R => set_nest (s_nest s ++ map Z.of_nat heads) s).
        assert (Hcut : forall p x, In (p, x) (flat_map edges us) -> lcut host rk p x = (x =? Z.of_nat c0)).
        { intros p x He. unfold lcut, host. rewrite Z.eqb_refl. cbn [negb orb]. unfold rk. destruct (Z.eqb_spec x (Z.of_nat c0)); [reflexivity|].
          apply in_flat in He as (t & Ht & He). assert (Hx : In x (flat_map nodes us)) by (apply in_flat; exists t; split; [exact Ht|eapply edge_nodes; eauto]).
          destruct (Hget x Hx) as [s Hs]. rewrite Hs. apply Z.eqb_neq. intros Hr0. apply (Hrank x s) in Hr0; [|apply Hus; exact Hx|exact Hs].
          apply in_map_iff in Hr0 as (u & Elab & Hu). assert (Hxu : In x (nodes u)) by (rewrite <- Elab; apply label_in).
          assert (Hxt : In x (nodes t)) by (eapply edge_nodes; eauto).
          assert (u = t).
          { clear -Hun Hu Ht Hxu Hxt. induction us as [|a l IH]; [destruct Hu|]. cbn in Hun. destruct Hu as [<-|Hu], Ht as [<-|Ht]; [reflexivity| | |].
            - exfalso. eapply NoDup_app_disjoint; [exact Hun|exact Hxu|]. apply in_flat; eauto.
            - exfalso. eapply NoDup_app_disjoint; [exact Hun|exact Hxt|]. apply in_flat; eauto.
            - apply IH; auto. eapply NoDup_app_remove_l; eauto. }
          subst u. subst x. assert (Hnt : NoDup (nodes t)).
          { apply in_split in Ht as (a & b & ->). rewrite flat_map_app in Hun. apply NoDup_app_remove_l in Hun. eapply NoDup_app_remove_r; exact Hun. }
          exact (root_no_member t p Hnt He). }
        assert (Hs2 : forall i s, zget subs i = Some s -> exists s', zget s2 i = Some s' /\ same_but_nest s s' /\
            (In i (flat_map nodes us) -> s_nest s' = filter (fun x => negb (lcut host rk i x)) (s_nest s))).
        { intros i s Hs. assert (Hs1 : exists s', zget s1 i = Some s' /\ same_but_nest s s' /\ s_nest s' = s_nest s).
          { rewrite Hg1, Hs. destruct (i =? Z.of_nat c0); cbn; eexists; (split; [reflexivity|split; reflexivity]). }
          destruct Hs1 as (s' & Hs' & Hb & Hn). destruct (in_dec Z.eq_dec i (flat_map nodes us)) as [Hi|Hi].
          - assert (Hi' := Hi). apply in_flat in Hi' as (t & Ht & Hit). rewrite (H3 t i Ht Hit), Hs'. cbn. eexists. split; [reflexivity|]. split.
            + unfold leveled. unfold same_but_nest in *. destruct (memb i (cutset host rk t)); cbn in *; exact Hb.
            + intros _. unfold leveled. cbn [s_nest set_nest]. rewrite Hn. reflexivity.
          - rewrite (H2 i Hi), Hs'. exists s'. split; [reflexivity|]. split; [exact Hb|]. intros; contradiction. }
        destruct (Hs2 _ _ Hc) as (c2 & Hc2 & Hb2 & Hn2).
        destruct (zmodify_some s2 (Z.of_nat c0) f c2 Hc2) as [s3 E3]. rewrite E3. exists s3. split; [reflexivity|].
        assert (Hg3 := fun j => zmodify_get _ _ _ _ j E3). split.
        { split; [rewrite (zmodify_length _ _ _ _ E3), HL2; eapply zmodify_length; eauto|]. split.
          - intros i Hi. rewrite Hg3. assert (i <> Z.of_nat c0) by (intros ->; apply Hi; exact Hc0g).
            destruct (Z.eqb_spec i (Z.of_nat c0)); [contradiction|]. rewrite H2 by (rewrite Hus; exact Hi). rewrite Hg1.
            destruct (Z.eqb_spec i (Z.of_nat c0)); [contradiction|reflexivity].
          - intros i s Hs. destruct (Hs2 i s Hs) as (s' & Hs' & Hb & _). rewrite Hg3, Hs'. destruct (i =? Z.of_nat c0); cbn; eexists; (split; [reflexivity|exact Hb]). }
        set (cut := lcut host rk) in *.
        (* exactly one separated piece *)
        assert (HP : Permutation (flat_map nodes (map (fun t => fst (split cut t)) us) ++ flat_map nodes (flat_map (fun t => snd (split cut t)) us)) (zs gg)).
        { rewrite <- Hnodes. rewrite <- (flat_map_perm2 (fun t => flat_map nodes (pieces cut t)) nodes us (fun t _ => split_nodes cut t)).
          rewrite (flat_map_flat nodes). rewrite flat_map_concat_map, map_map, <- flat_map_concat_map.
          rewrite <- flat_map_split. reflexivity. }
        assert (Hexl : map label (flat_map (fun t => snd (split cut t)) us) = [Z.of_nat c0]).
        { apply in_single.
          - assert (HN : NoDup (flat_map nodes (flat_map (fun t => snd (split cut t)) us))).
            { eapply NoDup_app_remove_l. eapply Permutation_NoDup; [symmetry; exact HP|]. apply NoDup_map_inj; [intros x y _ _; apply Nat2Z.inj|exact Hnodup]. }
            clear -HN. induction (flat_map (fun t => snd (split cut t)) us) as [|u l IH]; cbn in *; [constructor|]. constructor.
            + intros H. apply in_map_iff in H as (v & E & Hv). eapply NoDup_app_disjoint; [exact HN|apply (label_in u)|]. apply in_flat. exists v. split; [exact Hv|].
              rewrite <- E. apply label_in.
            + apply IH. eapply NoDup_app_remove_l; eauto.
          - intros y Hy. apply in_map_iff in Hy as (u & <- & Hu). apply in_flat in Hu as (t & Ht & Hu).
            assert (Hlu : In (label u) (map label (snd (split cut t)))) by (apply in_map; exact Hu). apply split_roots in Hlu as (p & He & Hcu).
            rewrite Hcut in Hcu by (apply in_flat; eauto). apply Z.eqb_eq. exact Hcu.
          - assert (Hc0' := Hc0). apply in_flat in Hc0' as (t & Ht & Hi). apply (Permutation_in _ (nodes_edges t)) in Hi. destruct Hi as [Hi|Hi].
            + exfalso. apply Hr. apply (Hrank _ _ (proj1 (Hus _) Hc0) Hc). rewrite <- Hi. apply in_map. exact Ht.
            + apply in_map_iff in Hi as ([p x] & E & He). cbn in E. subst x.
              assert (Hin : In (Z.of_nat c0) (map label (snd (split cut t)))).
              { apply split_roots. exists p. split; [exact He|]. rewrite Hcut by (apply in_flat; eauto). apply Z.eqb_refl. }
              apply in_map_iff in Hin as (u & E & Hu). rewrite <- E. apply in_map. apply in_flat. eauto. }
        apply map_single in Hexl as ([i0 bs] & Eex & Elab). cbn in Elab. subst i0. rewrite Eex in HP.
        assert (HRp : forall u, In u (Node (Z.of_nat c0) bs :: map (fun t => fst (split cut t)) us) -> represents (local_nest s2) u).
        { assert (Hpc : forall t u, In t us -> In u (pieces cut t) -> represents (local_nest s2) u).
          { intros t u Ht Hu. assert (HF : Forall (represents (local_nest s2)) (pieces cut t)).
            { eapply split_represents; [apply Hrep; exact Ht|]. intros i l Hi (s & Hs & E). destruct (Hs2 i s Hs) as (s' & Hs' & _ & Hn).
              exists s'. split; [exact Hs'|]. rewrite Hn by (apply in_flat; eauto). rewrite E. reflexivity. }
            rewrite Forall_forall in HF. apply HF. exact Hu. }
          intros u [<-|Hu].
          - assert (In (Node (Z.of_nat c0) bs) (flat_map (fun t => snd (split cut t)) us)) as Hin by (rewrite Eex; left; reflexivity).
            apply in_flat in Hin as (t & Ht & Hin). apply (Hpc t); [exact Ht|right; exact Hin].
          - apply in_map_iff in Hu as (t & <- & Ht). apply (Hpc t); [exact Ht|left; reflexivity]. }
        assert (Hnd : NoDup (flat_map nodes (map (fun t => fst (split cut t)) us) ++ flat_map nodes [Node (Z.of_nat c0) bs])).
        { eapply Permutation_NoDup; [symmetry; exact HP|]. apply NoDup_map_inj; [intros x y _ _; apply Nat2Z.inj|exact Hnodup]. }
        exists (Node (Z.of_nat c0) (bs ++ map (fun t => fst (split cut t)) us)). split; [|split; [reflexivity|]].
        * pose proof (HRp _ (or_introl eq_refl)) as HR0. apply represents_node_inv in HR0 as [(s0 & Hs0 & Hn0) HRb]. rewrite Hc2 in Hs0. injection Hs0 as <-.
          assert (Hkeep : forall u, represents (local_nest s2) u -> ~ In (Z.of_nat c0) (nodes u) -> represents (local_nest s3) u).
          { intros u HRu Hnu. eapply represents_ext; [exact HRu|]. intros i l Hi (s & Hs & E). exists s. split; [|exact E]. rewrite Hg3, Hs.
            destruct (Z.eqb_spec i (Z.of_nat c0)); [subst; contradiction|reflexivity]. }
          constructor.
          -- exists (f c2). rewrite Hg3, Z.eqb_refl, Hc2. split; [reflexivity|]. unfold f. cbn [s_nest set_nest]. rewrite Hn0, map_app. f_equal. fold (zs heads). rewrite Hheads.
             rewrite map_map. apply map_ext. intros t. symmetry. apply split_label.
          -- rewrite Forall_forall. intros u Hu. apply in_app_or in Hu as [Hu|Hu].
             ++ apply Hkeep; [rewrite Forall_forall in HRb; apply HRb; exact Hu|]. apply NoDup_app_remove_l in Hnd. cbn [flat_map] in Hnd. rewrite app_nil_r in Hnd.
                apply (nodup_branch _ _ _ Hnd Hu).
             ++ apply Hkeep; [apply HRp; right; exact Hu|]. intros Hi. eapply NoDup_app_disjoint; [exact Hnd|apply in_flat; exists u; split; [exact Hu|exact Hi]|].
                left. reflexivity.
        * rewrite <- HP. cbn [nodes flat_map]. rewrite app_nil_r, flat_map_app. rewrite <- Permutation_middle. constructor. apply Permutation_app_comm.
  Qed.
End One.
