(** Proofs about the linked-list grid: what is found, and friends-of-friends groups. *)
From Coq Require Import List ZArith QArith Qround Qfield Bool Lia Lqa Sorting.Permutation Relations.
From Verif.Model Require Import ListMem Run Mymath Tree LinkedList.
From Verif.Spec Require Import Basic Octree Chains.
From Verif.Proofs Require Import ListMemProofs ListExtra MymathProofs MymathProofs2 TreeInsert TreeResults LinkProofs LinkMerge LinkSearch.
Import ListNotations.
Local Open Scope Z_scope.

(** *** What the items are. *)
Lemma coord_le_norm j d r : (0 <= r)%Q -> (norm2 d < r * r)%Q -> (- r <= coord j d <= r)%Q.
Proof.
  intros Hr H. rewrite norm2_coord in H. assert (Hj : (coord j d * coord j d <= coord 0 d * coord 0 d + coord 1 d * coord 1 d + coord 2 d * coord 2 d)%Q).
  { destruct d as [[d0 d1] d2]. destruct j as [|[|j]]; cbn [coord]; nra. } split; nra.
Qed.
Lemma coord_const j (r : Q) : coord j (r, r, r) = r.
Proof. destruct j as [|[|j]]; reflexivity. Qed.
Lemma sphere_item_ok ll L x r p y : (0 <= r)%Q ->
  let d := apart (ll_periodic ll) L y x in
  ((norm2 d < r * r)%Q /\ sphere_item ll L x r p y = [(p, norm2 d)] /\ forall j, - r <= coord j d <= r)%Q \/ ((r * r <= norm2 d)%Q /\ sphere_item ll L x r p y = []).
Proof.
  intros Hr d. unfold sphere_item. fold d. destruct (Qlt_le_dec (norm2 d) (r * r)) as [H|H].
  - left. assert (Hj : forall j, (- r <= coord j d <= r)%Q) by (intros j; apply coord_le_norm; assumption). split; [exact H|]. split; [|exact Hj].
    rewrite (proj2 (inside_range_spec r d) Hj). rewrite (proj2 (Qgtb_spec (r * r) (norm2 d)) H). reflexivity.
  - right. split; [exact H|]. rewrite (proj2 (Qgtb_false (r * r) (norm2 d)) H), andb_false_r. reflexivity.
Qed.
Lemma shell_item_ok ll x rmin rmax p y : (0 < rmin)%Q -> (0 <= rmax)%Q ->
  let d := apart (ll_periodic ll) (ll_box ll) y x in
  ((rmin * rmin < norm2 d < rmax * rmax)%Q /\ shell_item ll x rmin rmax p y = [(p, norm2 d)]) \/ (~ (rmin * rmin < norm2 d < rmax * rmax)%Q /\ shell_item ll x rmin rmax p y = []).
Proof.
  intros H1 H2 d. unfold shell_item. fold d. destruct (Qgtb (rmax * rmax) (norm2 d)) eqn:E1; [apply Qgtb_spec in E1|apply Qgtb_false in E1].
  - destruct (Qgtb (norm2 d) (rmin * rmin)) eqn:E2; [apply Qgtb_spec in E2|apply Qgtb_false in E2]; [left|right]; (split; [lra|reflexivity]).
  - right. split; [lra|reflexivity].
Qed.
(** Distance in the plane. *)
Definition plane2 (d : vec) : Q := (coord 0 d * coord 0 d + coord 1 d * coord 1 d)%Q.
Lemma cylinder_item_ok ll L x rz rp p y : (0 <= rz)%Q -> (0 <= rp)%Q ->
  let d := apart (ll_periodic ll) L y x in
  ((plane2 d < rp * rp /\ - rz <= coord 2 d <= rz)%Q /\ cylinder_item ll L x rz rp p y = [(p, plane2 d)] /\ forall j, - coord j (rp, rp, rz) <= coord j d <= coord j (rp, rp, rz))%Q \/
  (~ (plane2 d < rp * rp /\ - rz <= coord 2 d <= rz)%Q /\ cylinder_item ll L x rz rp p y = []).
Proof.
  intros Hz Hp d. unfold cylinder_item. fold d. destruct d as [[d0 d1] d2] eqn:Ed. unfold plane2. cbn [coord].
  assert (G : forall r q, negb (Qgtb q r || Qgtb (- r)%Q q) = true <-> (- r <= q <= r)%Q). { intros r q. rewrite negb_true_iff, orb_false_iff, !Qgtb_false. tauto. }
  destruct (negb (Qgtb d0 rp || Qgtb (- rp)%Q d0) && negb (Qgtb d1 rp || Qgtb (- rp)%Q d1) && negb (Qgtb d2 rz || Qgtb (- rz)%Q d2) && Qgtb (rp * rp) (d0 * d0 + d1 * d1)) eqn:E.
  - left. rewrite !andb_true_iff, !G, Qgtb_spec in E. destruct E as [[[E0 E1] E2] E3]. split; [split; assumption|]. split; [reflexivity|]. intros [|[|j]]; cbn [coord]; assumption.
  - right. split; [|reflexivity]. intros [H1 H2]. apply Bool.not_true_iff_false in E. apply E. rewrite !andb_true_iff, !G, Qgtb_spec. split; [split; [split|]|]; [split; nra|split; nra|exact H2|exact H1].
Qed.

(** *** Tags. *)
Definition count (f : Z -> bool) (l : list Z) : nat := length (filter f l).
Definition b2n (b : bool) : nat := if b then 1%nat else 0%nat.
Lemma count_upd f l i v l' x : upd l i v = Some l' -> nth_error l i = Some x -> (count f l' + b2n (f x) = count f l + b2n (f v))%nat.
Proof.
  revert i l'. induction l as [|a l IH]; intros [|i] l' Hu Hx; try discriminate; cbn [nth_error] in Hx.
  - cbn [upd] in Hu. injection Hu as <-. injection Hx as ->. unfold count. cbn [filter]. destruct (f x), (f v); cbn [length b2n]; lia.
  - cbn [upd] in Hu. destruct (upd l i v) as [r|] eqn:E; [|discriminate]. injection Hu as <-. specialize (IH i r E Hx). unfold count in *. cbn [filter]. destruct (f a); cbn [length]; lia.
Qed.
(** [tags'] is [tags] with the untagged particles [new] tagged [g]. *)
Definition grows (g : Z) (tags : list Z) (new : list Z) (tags' : list Z) : Prop :=
  length tags' = length tags /\ NoDup new /\ (forall p, In p new -> exists t, zget tags p = Some t /\ t < 0) /\
  (forall p, In p new -> zget tags' p = Some g) /\ (forall p, ~ In p new -> zget tags' p = zget tags p).
Lemma grows_nil g tags : grows g tags [] tags.
Proof. split; [reflexivity|]. split; [constructor|]. split; [intros p []|]. split; [intros p []|reflexivity]. Qed.
Lemma grows_app g a l1 b l2 c : 0 <= g -> grows g a l1 b -> grows g b l2 c -> grows g a (l1 ++ l2) c.
Proof.
  intros Hg (A1 & A2 & A3 & A4 & A5) (B1 & B2 & B3 & B4 & B5).
  assert (Hd : forall p, In p l1 -> In p l2 -> False). { intros p H1 H2. destruct (B3 p H2) as (t & Et & Ht). rewrite (A4 p H1) in Et. injection Et as <-. lia. }
  split; [congruence|]. split; [apply NoDup_app_intro; assumption|]. split; [|split].
  - intros p Hp. apply in_app_or in Hp as [Hp|Hp]; [apply A3; exact Hp|]. destruct (B3 p Hp) as (t & Et & Ht). exists t. split; [|exact Ht]. rewrite <- A5; [exact Et|]. intros H. apply (Hd p H Hp).
  - intros p Hp. destruct (in_dec Z.eq_dec p l2) as [H2|H2]; [apply B4; exact H2|]. rewrite B5 by exact H2. apply A4. apply in_app_or in Hp as [Hp|Hp]; [exact Hp|contradiction].
  - intros p Hp. rewrite B5 by (intros H; apply Hp; apply in_or_app; right; exact H). apply A5. intros H. apply Hp. apply in_or_app. left. exact H.
Qed.
Lemma grows_one g tags p tags' t : 0 <= g -> zget tags p = Some t -> t < 0 -> zupd tags p g = Some tags' -> grows g tags [p] tags'.
Proof.
  intros Hg Hp Ht Hu. split; [apply (zupd_length _ _ _ _ Hu)|]. split; [constructor; [intros []|constructor]|]. split; [intros q [<-|[]]; eauto|]. split.
  - intros q [<-|[]]. rewrite (zget_zupd _ _ _ p _ Hu), Z.eqb_refl. reflexivity.
  - intros q Hq. rewrite (zget_zupd _ _ _ q _ Hu). destruct (Z.eqb_spec q p) as [->|]; [|reflexivity]. destruct Hq. left. reflexivity.
Qed.
Lemma grows_head g tags p r tags' : 0 <= g -> grows g tags (p :: r) tags' -> exists t tags1, zget tags p = Some t /\ t < 0 /\ zupd tags p g = Some tags1 /\ grows g tags1 r tags'.
Proof.
  intros Hg (A1 & A2 & A3 & A4 & A5). destruct (A3 p (or_introl eq_refl)) as (t & Et & Ht). destruct (zupd_some tags p g (zget_some _ _ _ Et)) as [tags1 E1]. exists t, tags1. split; [exact Et|]. split; [exact Ht|]. split; [exact E1|].
  apply NoDup_cons_iff in A2 as [Hp ND]. pose proof (zupd_length _ _ _ _ E1). split; [congruence|]. split; [exact ND|]. split; [|split].
  - intros q Hq. rewrite (zget_zupd _ _ _ q _ E1). destruct (Z.eqb_spec q p) as [->|]; [contradiction|]. apply A3. right. exact Hq.
  - intros q Hq. apply A4. right. exact Hq.
  - intros q Hq. rewrite (zget_zupd _ _ _ q _ E1). destruct (Z.eqb_spec q p) as [->|Hne]; [apply A4; left; reflexivity|]. apply A5. intros [E|H']; [congruence|contradiction].
Qed.
Lemma grows_count g f : 0 <= g -> (forall t, t < 0 -> f t = false) -> forall new tags tags', grows g tags new tags' -> count f tags' = (count f tags + (if f g then length new else 0))%nat.
Proof.
  intros Hg Hf. induction new as [|p r IH]; intros tags tags' H.
  - replace tags' with tags; [destruct (f g); cbn [length]; lia|]. destruct H as (A1 & _ & _ & _ & A5). symmetry. apply nth_ext with (d := 0) (d' := 0); [exact A1|]. intros k Hk.
    specialize (A5 (Z.of_nat k) ltac:(intros [])). rewrite !zget_nat, Nat2Z.id in A5 by lia. rewrite !nth_error_nth' with (d := 0) in A5 by lia. congruence.
  - destruct (grows_head _ _ _ _ _ Hg H) as (t & tags1 & Et & Ht & E1 & H1). rewrite (IH _ _ H1). pose proof (zget_some _ _ _ Et). rewrite zupd_nat in E1 by lia. rewrite zget_nat in Et by lia.
    pose proof (count_upd f _ _ _ _ _ E1 Et) as HC. rewrite (Hf t Ht) in HC. cbn [b2n] in HC. destruct (f g); cbn [b2n length] in *; lia.
Qed.
Definition untagged (tags : list Z) : nat := count (fun t => t <? 0) tags.
Lemma grows_untagged g : 0 <= g -> forall new tags tags', grows g tags new tags' -> (untagged tags' + length new = untagged tags)%nat.
Proof.
  intros Hg. induction new as [|p r IH]; intros tags tags' H.
  - replace tags' with tags; [cbn [length]; lia|]. destruct H as (A1 & _ & _ & _ & A5). symmetry. apply nth_ext with (d := 0) (d' := 0); [exact A1|]. intros k Hk.
    specialize (A5 (Z.of_nat k) ltac:(intros [])). rewrite !zget_nat, Nat2Z.id in A5 by lia. rewrite !nth_error_nth' with (d := 0) in A5 by lia. congruence.
  - destruct (grows_head _ _ _ _ _ Hg H) as (t & tags1 & Et & Ht & E1 & H1). specialize (IH _ _ H1). pose proof (zget_some _ _ _ Et). rewrite zupd_nat in E1 by lia. rewrite zget_nat in Et by lia.
    pose proof (count_upd (fun t => t <? 0) _ _ _ _ _ E1 Et) as HC. cbn beta in HC. fold (untagged tags) (untagged tags1) in HC. destruct (Z.ltb_spec t 0); [|lia]. destruct (Z.ltb_spec g 0); [lia|]. cbn [b2n length] in *. lia.
Qed.
Definition tagged (tags : list Z) (p : Z) : Prop := exists t, zget tags p = Some t /\ 0 <= t.
Lemma grows_tagged g tags new tags' p : 0 <= g -> grows g tags new tags' -> tagged tags p -> zget tags' p = zget tags p /\ ~ In p new.
Proof.
  intros Hg (A1 & A2 & A3 & A4 & A5) (t & Et & Ht). assert (Hn : ~ In p new). { intros Hin. destruct (A3 p Hin) as (t' & Et' & Ht'). rewrite Et in Et'. injection Et' as <-. lia. } split; [apply A5; exact Hn|exact Hn].
Qed.
Lemma grows_still g tags new tags' p : 0 <= g -> grows g tags new tags' -> tagged tags p -> tagged tags' p.
Proof. intros Hg H Ht. destruct (grows_tagged g tags new tags' p Hg H Ht) as [E _]. unfold tagged in *. rewrite E. exact Ht. Qed.

Section Friends.
  Variables (ll : llist) (L link : Q).
  Hypothesis Hl : linked ll.
  Hypothesis Hgd : good ll.
  Hypothesis HL : (L == ll_box ll)%Q.
  Hypothesis Hlink : (0 <= link)%Q.
  Local Notation ps := (ll_ps ll).
  Local Notation n := (length (ll_ps ll)).
  (** The particle [q] is met and accepted from [p]. *)
  Definition near (p q : Z) : Prop := exists x y, zget ps p = Some x /\ zget ps q = Some y /\ (norm2 (apart (ll_periodic ll) L y x) < link * link)%Q.
  Definition connected : Z -> Z -> Prop := clos_refl_trans Z near.

  Lemma tag_visits_ok g seed x ids : 0 <= g -> zget ps seed = Some x -> (forall p, In p ids -> exists y, zget ps p = Some y) -> forall tags fr, length tags = n ->
    exists tags' new, for_each ids (tag_visit ll L x link g) (tags, fr) = Some (tags', fr ++ new) /\ grows g tags new tags' /\
      (forall p, In p new -> near seed p) /\ forall p, In p ids -> near seed p -> tagged tags' p.
  Proof.
    intros Hg Hs. induction ids as [|p r IH]; intros Hv tags fr Hlen.
    - exists tags, []. rewrite app_nil_r. split; [reflexivity|]. split; [apply grows_nil|]. split; intros p [].
    - destruct (Hv p (or_introl eq_refl)) as (y & Ey). cbn [for_each]. unfold tag_visit at 1. cbn [fst snd]. destruct (zget_in_range tags p) as [t Et]; [apply zget_some in Ey; lia|]. rewrite Et.
      assert (Hv' : forall q, In q r -> exists y, zget ps q = Some y) by (intros q Hq; apply Hv; right; exact Hq).
      destruct (Z.leb_spec 0 t) as [Ht|Ht].
      + destruct (IH Hv' tags fr Hlen) as (tags' & new & E & G & N1 & N2). exists tags', new. split; [exact E|]. split; [exact G|]. split; [exact N1|]. intros q [<-|Hq] Hn; [|apply N2; assumption]. apply (grows_still _ _ _ _ _ Hg G). exists t. auto.
      + rewrite Ey. destruct (sphere_item_ok ll L x link p y Hlink) as [(Hin & -> & _)|(Hout & ->)].
        * destruct (zupd_some tags p g (zget_some _ _ _ Et)) as [tags1 E1]. rewrite E1. pose proof (grows_one g tags p tags1 t Hg Et Ht E1) as G1. cbn [fst snd].
          destruct (IH Hv' tags1 (fr ++ [p]) ltac:(rewrite (zupd_length _ _ _ _ E1); exact Hlen)) as (tags' & new & E & G & N1 & N2). exists tags', (p :: new). split; [rewrite E, <- app_assoc; reflexivity|]. split; [apply (grows_app g tags [p] tags1 new tags' Hg G1 G)|].
          assert (Hnp : near seed p) by (exists x, y; auto). split; [intros q [<-|Hq]; [exact Hnp|apply N1; exact Hq]|]. intros q [<-|Hq] Hn; [|apply N2; assumption]. apply (grows_still _ _ _ _ _ Hg G). exists g. split; [|exact Hg]. apply G1. left. reflexivity.
        * destruct (IH Hv' tags fr Hlen) as (tags' & new & E & G & N1 & N2). exists tags', new. split; [exact E|]. split; [exact G|]. split; [exact N1|]. intros q [<-|Hq] Hn; [|apply N2; assumption]. destruct Hn as (x' & y' & Ex' & Ey' & Hn). rewrite Hs in Ex'. injection Ex' as <-. rewrite Ey in Ey'. injection Ey' as <-. lra.
  Qed.

  (** Tagging from a seed: everything connected is tagged, if what was tagged before is left aside. *)
  Lemma tag_friends_ok g : 0 <= g -> forall u fuel seed tags, (untagged tags <= u)%nat -> (u + n < fuel)%nat -> (exists x, zget ps seed = Some x) -> length tags = n ->
    exists tags' new, tag_friends ll L fuel link g seed tags = Done (tags', Z.of_nat (length new)) /\ grows g tags new tags' /\ (forall p, In p new -> connected seed p) /\
      forall p, p = seed \/ In p new -> forall q, near p q -> tagged tags' q.
  Proof.
    intros Hg. induction u as [|u IH]; intros fuel seed tags Hu Hf (x & Ex) Hlen; (destruct fuel as [|f]; [lia|]).
    all: cbn [tag_friends]; rewrite Ex; destruct (visited_ok ll L f x (link, link, link) Hl Hgd HL ltac:(lia)) as (ids & Ev & V1 & V2 & _); rewrite Ev; cbn [rbind].
    all: destruct (tag_visits_ok g seed x ids Hg Ex V1 tags [] Hlen) as (tags1 & fr & E1 & G1 & N1 & N2); rewrite E1; cbn [of_opt rbind fst snd app].
    all: assert (Hseed : forall q, near seed q -> tagged tags1 q) by (intros q Hq; apply N2; [|exact Hq]; destruct Hq as (x' & y & Ex' & Ey & Hn); rewrite Ex in Ex'; injection Ex' as <-; apply (V2 q y Ey); intros j; rewrite coord_const; apply coord_le_norm; assumption).
    all: pose proof (grows_untagged g Hg _ _ _ G1) as HU.
    - destruct fr as [|p fr]; [|cbn [length] in HU; lia]. exists tags1, []. split; [reflexivity|]. split; [exact G1|]. split; [intros p []|]. intros p [->|[]] q Hq. apply Hseed. exact Hq.
    - destruct fr as [|p0 fr0]; [exists tags1, []; split; [reflexivity|]; split; [exact G1|]; split; [intros p []|]; intros p [->|[]] q Hq; apply Hseed; exact Hq|].
      set (fr := p0 :: fr0) in *. assert (HU1 : (untagged tags1 <= u)%nat) by (unfold fr in HU; cbn [length] in HU; lia).
      assert (HR : forall l tags2 k, (forall p, In p l -> near seed p) -> (untagged tags2 <= u)%nat -> length tags2 = n ->
        exists tags3 new, run_each l (fun p st => rbind (tag_friends ll L f link g p (fst st)) (fun r => Done (fst r, snd st + snd r))) (tags2, k) = Done (tags3, k + Z.of_nat (length new)) /\
          grows g tags2 new tags3 /\ (forall p, In p new -> connected seed p) /\ forall p, In p l \/ In p new -> forall q, near p q -> tagged tags3 q).
      { induction l as [|p l IHl]; intros tags2 k Hn2 Hu2 Hl2.
        - exists tags2, []. split; [cbn [run_each length]; do 2 f_equal; lia|]. split; [apply grows_nil|]. split; [intros p []|]. intros p [[]|[]].
        - assert (Hp : near seed p) by (apply Hn2; left; reflexivity). destruct (IH f p tags2 Hu2 ltac:(lia)) as (tags3 & new & E & G & C1 & C2); [destruct Hp as (_ & y & _ & Ey & _); eauto|exact Hl2|].
          cbn [run_each]. cbn [fst snd]. rewrite E. cbn [rbind fst snd]. pose proof (grows_untagged g Hg _ _ _ G) as HU'.
          destruct (IHl tags3 (k + Z.of_nat (length new))) as (tags4 & new' & E' & G' & C1' & C2'); [intros q Hq; apply Hn2; right; exact Hq|lia|rewrite (proj1 G); exact Hl2|].
          exists tags4, (new ++ new'). split; [rewrite E', app_length; do 2 f_equal; lia|]. split; [apply (grows_app _ _ _ _ _ _ Hg G G')|]. split.
          + intros q Hq. apply in_app_or in Hq as [Hq|Hq]; [|apply C1'; exact Hq]. apply rt_trans with p; [apply rt_step; exact Hp|apply C1; exact Hq].
          + intros q Hq q' Hq'. assert (Hc : (q = p \/ In q new) \/ (In q l \/ In q new')). { destruct Hq as [[<-|Hq]|Hq]; [left; left; reflexivity|right; left; exact Hq|]. apply in_app_or in Hq as [Hq|Hq]; [left; right; exact Hq|right; right; exact Hq]. }
            destruct Hc as [Hc|Hc]; [apply (grows_still _ _ _ _ _ Hg G'); apply (C2 q Hc q' Hq')|apply (C2' q Hc q' Hq')]. }
      destruct (HR fr tags1 (Z.of_nat (length fr)) N1 HU1 ltac:(rewrite (proj1 G1); exact Hlen)) as (tags2 & new & E2 & G2 & C1 & C2). exists tags2, (fr ++ new). split; [rewrite E2, app_length; do 2 f_equal; lia|]. split; [apply (grows_app _ _ _ _ _ _ Hg G1 G2)|]. split.
      + intros p Hp. apply in_app_or in Hp as [Hp|Hp]; [apply rt_step; apply N1; exact Hp|apply C1; exact Hp].
      + intros p [->|Hp] q Hq; [apply (grows_still _ _ _ _ _ Hg G2); apply Hseed; exact Hq|]. apply (C2 p); [apply in_app_or; exact Hp|exact Hq].
  Qed.

  Lemma near_sym p q : near p q -> near q p.
  Proof.
    intros (x & y & Ex & Ey & H). exists y, x. split; [exact Ey|]. split; [exact Ex|]. assert (E : (norm2 (apart (ll_periodic ll) L x y) == norm2 (apart (ll_periodic ll) L y x))%Q); [|lra].
    rewrite !norm2_coord, !apart_coord.
    assert (Hj : forall a b, let f := fun u v => (if ll_periodic ll then nearest L (u - v) else u - v)%Q in (f a b * f a b == f b a * f b a)%Q).
    { intros a b f. unfold f. destruct (ll_periodic ll) eqn:Ep; [|ring]. destruct Hgd as (_ & _ & Hp). destruct (Hp Ep) as [H0 _]. rewrite <- HL in H0.
      unfold nearest. assert (E2 : (L / 2 == L * (1 # 2))%Q) by (unfold Qdiv; change (/ 2)%Q with (1 # 2)%Q; reflexivity). set (h := (L / 2)%Q) in *. clearbody h.
      destruct (Qle_bool (a - b) h) eqn:E1; [apply Qle_bool_iff in E1|apply Qle_bool_false in E1]; destruct (Qle_bool (b - a) h) eqn:E3; [apply Qle_bool_iff in E3|apply Qle_bool_false in E3|apply Qle_bool_iff in E3|apply Qle_bool_false in E3]; cbn [negb].
      - destruct (Qle_bool (- h) (a - b)) eqn:E4; [apply Qle_bool_iff in E4|apply Qle_bool_false in E4]; destruct (Qle_bool (- h) (b - a)) eqn:E5; [apply Qle_bool_iff in E5|apply Qle_bool_false in E5|apply Qle_bool_iff in E5|apply Qle_bool_false in E5]; cbn [negb]; try (exfalso; lra). ring.
      - destruct (Qle_bool (- h) (a - b)) eqn:E4; [apply Qle_bool_iff in E4|apply Qle_bool_false in E4]; cbn [negb]; [exfalso; lra|ring].
      - destruct (Qle_bool (- h) (b - a)) eqn:E4; [apply Qle_bool_iff in E4|apply Qle_bool_false in E4]; cbn [negb]; [exfalso; lra|ring].
      - exfalso. lra. }
    cbn zeta in Hj. rewrite (Hj (coord 0 x) (coord 0 y)), (Hj (coord 1 x) (coord 1 y)), (Hj (coord 2 x) (coord 2 y)). reflexivity.
  Qed.
  Lemma connected_sym p q : connected p q -> connected q p.
  Proof. induction 1 as [p q H|p|p q r _ IH1 _ IH2]; [apply rt_step, near_sym, H|apply rt_refl|apply rt_trans with q; assumption]. Qed.

  (** The state of the loop over the particles. *)
  Definition groups_so_far (k : nat) (sizes tags : list Z) : Prop :=
    length tags = n /\ (forall p t, zget tags p = Some t -> t < Z.of_nat (length sizes)) /\
    (forall p q t, zget tags p = Some t -> 0 <= t -> near p q -> zget tags q = Some t) /\
    (forall p q t, zget tags p = Some t -> zget tags q = Some t -> 0 <= t -> connected p q) /\
    (forall g s, zget sizes g = Some s -> s = Z.of_nat (count (Z.eqb g) tags) /\ 0 < s) /\
    (forall p, (p < k)%nat -> (p < n)%nat -> tagged tags (Z.of_nat p)).
  Lemma link_step_ok fuel printstep sizes0 i tags sizes progress : (2 * n < fuel)%nat -> 0 < printstep -> 0 < progress -> (i < n)%nat -> groups_so_far i sizes tags ->
    exists tags' sizes' progress', link_step fuel ll L link printstep i (tags, sizes0 ++ sizes, Z.of_nat (length sizes), progress) = Done (tags', sizes0 ++ sizes', Z.of_nat (length sizes'), progress') /\
      0 < progress' /\ groups_so_far (S i) sizes' tags'.
  Proof.
    intros Hf Hps Hpr Hi (I1 & I2 & I3 & I4 & I5 & I6). unfold link_step. destruct (nth_error tags i) as [t|] eqn:Et; [|apply nth_error_None in Et; lia].
    assert (Ez : zget tags (Z.of_nat i) = Some t) by (rewrite zget_nat, Nat2Z.id by lia; exact Et). destruct (Z.leb_spec 0 t) as [Ht|Ht].
    - exists tags, sizes, progress. split; [reflexivity|]. split; [exact Hpr|]. split; [exact I1|]. split; [exact I2|]. split; [exact I3|]. split; [exact I4|]. split; [exact I5|]. intros p Hp Hpn. destruct (Nat.eq_dec p i) as [->|]; [exists t; auto|apply I6; lia].
    - destruct (Z.eqb_spec printstep 0) as [Hz|Hz]; [lia|]. rewrite andb_false_r. set (g := Z.of_nat (length sizes)). assert (Hg : 0 <= g) by lia.
      destruct (upd_some tags i g ltac:(lia)) as [tags1 E1]. rewrite E1. cbn [of_opt rbind]. assert (E1z : zupd tags (Z.of_nat i) g = Some tags1) by (rewrite zupd_nat, Nat2Z.id by lia; exact E1).
      pose proof (grows_one g tags (Z.of_nat i) tags1 t Hg Ez Ht E1z) as G1.
      assert (Hun : (untagged tags1 <= n)%nat). { unfold untagged, count. rewrite <- I1, <- (proj1 G1). clear. induction tags1 as [|a l IH]; [cbn; lia|]. cbn [filter]. destruct (a <? 0); cbn [length]; lia. }
      destruct (tag_friends_ok g Hg n fuel (Z.of_nat i) tags1) as (tags' & new & E2 & G2 & C1 & C2); [exact Hun|lia|apply zget_in_range; lia|rewrite (proj1 G1); exact I1|].
      rewrite E2. cbn [rbind fst snd]. pose proof (grows_app _ _ _ _ _ _ Hg G1 G2) as G. cbn [app] in G. set (all := Z.of_nat i :: new) in *.
      exists tags', (sizes ++ [1 + Z.of_nat (length new)]). eexists. split; [rewrite app_assoc; do 4 f_equal; rewrite app_length; cbn [length]; lia|]. split; [destruct (progress <=? Z.of_nat i); lia|].
      assert (Hold : forall p q, tagged tags p -> near p q -> ~ In q all).
      { intros p q (tp & Ep & Hp) Hn Hin. pose proof (I3 p q tp Ep Hp Hn) as Eq. destruct G as (_ & _ & G3 & _). destruct (G3 q Hin) as (tq & Eq' & Hq). rewrite Eq in Eq'. injection Eq' as <-. lia. }
      assert (Hseed : forall p, In p all -> connected (Z.of_nat i) p) by (intros p [<-|Hp]; [apply rt_refl|apply C1; exact Hp]).
      assert (Hcase : forall p tp, zget tags' p = Some tp -> 0 <= tp -> (In p all /\ tp = g) \/ (~ In p all /\ tagged tags p /\ zget tags p = Some tp)).
      { intros p tp Ep Hp. destruct (in_dec Z.eq_dec p all) as [Hin|Hin]; [left|right].
        - destruct G as (_ & _ & _ & G4 & _). rewrite (G4 p Hin) in Ep. injection Ep as <-. auto.
        - destruct G as (_ & _ & _ & _ & G5). rewrite (G5 p Hin) in Ep. split; [exact Hin|]. split; [exists tp; auto|exact Ep]. }
      split; [rewrite (proj1 G); exact I1|]. split; [|split; [|split; [|split]]].
      + intros p tp Ep. rewrite app_length. cbn [length]. destruct (Z_lt_le_dec tp 0) as [Hn|Hp]; [lia|]. destruct (Hcase p tp Ep Hp) as [[_ ->]|(_ & _ & E)]; [lia|]. apply I2 in E. lia.
      + intros p q tp Ep Hp Hn. destruct (Hcase p tp Ep Hp) as [[Hin ->]|(Hin & Hto & E)].
        * assert (Hq : tagged tags' q) by (apply (C2 p); [destruct Hin as [<-|Hin]; auto|exact Hn]). destruct Hq as (tq & Eq & Hq). destruct (Hcase q tq Eq Hq) as [[_ ->]|(Hout & Hto & _)]; [exact Eq|]. exfalso. apply (Hold q p Hto (near_sym _ _ Hn) Hin).
        * destruct G as (_ & _ & _ & _ & G5). rewrite G5 by (apply (Hold p q Hto Hn)). apply (I3 p q tp E Hp Hn).
      + intros p q tp Ep Eq Hp. destruct (Hcase p tp Ep Hp) as [[Hin ->]|(Hin & Hto & E)], (Hcase q _ Eq Hp) as [[Hin' E']|(Hin' & Hto' & E')].
        * apply rt_trans with (Z.of_nat i); [apply connected_sym|]; apply Hseed; assumption.
        * apply I2 in E'. lia.
        * apply I2 in E. lia.
        * apply (I4 p q tp E E' Hp).
      + intros h s Es. pose proof (zget_some _ _ _ Es) as Hr. rewrite app_length in Hr. cbn [length] in Hr.
        assert (Hcnt : count (Z.eqb h) tags' = (count (Z.eqb h) tags + (if (h =? g)%Z then S (length new) else 0))%nat). { apply (grows_count g (Z.eqb h) Hg) with (new := all); [|exact G]. intros t' Ht'. apply Z.eqb_neq. lia. }
        rewrite zget_nat in Es by lia. rewrite Hcnt. destruct (Z.eqb_spec h g) as [->|Hne].
        * rewrite nth_error_app2 in Es by lia. replace (Z.to_nat g - length sizes)%nat with 0%nat in Es by lia. cbn [nth_error] in Es. assert (s = 1 + Z.of_nat (length new)) by congruence. subst s.
          assert (H0 : count (Z.eqb g) tags = 0%nat). { unfold count. destruct (filter (Z.eqb g) tags) as [|a l] eqn:Ef; [reflexivity|]. exfalso. assert (Ha : In a (filter (Z.eqb g) tags)) by (rewrite Ef; left; reflexivity). apply filter_In in Ha as [Ha Ea]. apply Z.eqb_eq in Ea. subst a. apply In_nth_error in Ha as (k & Ek). assert (Hzk : zget tags (Z.of_nat k) = Some g) by (rewrite zget_nat, Nat2Z.id by lia; exact Ek). apply I2 in Hzk. lia. }
          rewrite H0. lia.
        * rewrite nth_error_app1 in Es by lia. destruct (I5 h s) as [H1 H2]; [rewrite zget_nat by lia; exact Es|]. lia.
      + intros p Hp Hpn. destruct (Nat.eq_dec p i) as [->|Hne].
        * exists g. split; [|exact Hg]. destruct G as (_ & _ & _ & G4 & _). apply G4. left. reflexivity.
        * apply (grows_still _ _ _ _ _ Hg G). apply I6; lia.
  Qed.
  Lemma link_loop_ok fuel printstep sizes0 : (2 * n < fuel)%nat -> 0 < printstep -> forall m i tags sizes progress, 0 < progress -> (i + m = n)%nat -> groups_so_far i sizes tags ->
    exists tags' sizes' progress', run_each (seq i m) (link_step fuel ll L link printstep) (tags, sizes0 ++ sizes, Z.of_nat (length sizes), progress) = Done (tags', sizes0 ++ sizes', Z.of_nat (length sizes'), progress') /\
      groups_so_far n sizes' tags'.
  Proof.
    intros Hf Hps. induction m as [|m IH]; intros i tags sizes progress Hpr Him HI.
    - exists tags, sizes, progress. split; [reflexivity|]. replace n with i by lia. exact HI.
    - cbn [seq run_each]. destruct (link_step_ok fuel printstep sizes0 i tags sizes progress Hf Hps Hpr ltac:(lia) HI) as (tags1 & sizes1 & pr1 & E1 & Hp1 & HI1). rewrite E1. cbn [rbind]. apply IH; [exact Hp1|lia|exact HI1].
  Qed.
  Lemma count_count_occ g tags : count (Z.eqb g) tags = count_occ Z.eq_dec tags g.
  Proof. induction tags as [|a l IH]; [reflexivity|]. unfold count in *. cbn [filter count_occ]. destruct (Z.eqb_spec g a) as [->|Hne]; destruct (Z.eq_dec a _); try congruence; cbn [length]; lia. Qed.
  Lemma groups_components sizes tags : groups_so_far n sizes tags -> components n near tags sizes.
  Proof.
    intros (I1 & I2 & I3 & I4 & I5 & I6). assert (HT : forall p t, zget tags p = Some t -> 0 <= t).
    { intros p t Ep. pose proof (zget_some _ _ _ Ep). destruct (I6 (Z.to_nat p)) as (t' & Et & Ht); [lia|lia|]. rewrite Z2Nat.id in Et by lia. congruence. }
    split; [exact I1|]. split; [|split].
    - intros i j ti tj Ei Ej. split.
      + intros <-. apply (I4 i j ti Ei Ej). apply (HT i ti Ei).
      + intros Hc. apply clos_rt_rt1n in Hc. revert ti Ei. induction Hc as [i|i k j Hik _ IH]; intros ti Ei; [congruence|]. apply (IH Ej). apply (I3 i k ti Ei (HT i ti Ei) Hik).
    - intros i t Ei. split; [apply (HT i t Ei)|apply (I2 i t Ei)].
    - intros g s Es. rewrite <- count_count_occ. apply (I5 g s Es).
  Qed.
End Friends.
