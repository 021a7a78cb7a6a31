(** Distribution of halos. *)
From Coq Require Import List ZArith QArith Bool Lia Arith Sorting.Sorted Sorting.Permutation.
From Verif.Model Require Import ListMem Run Mpi Mymath Hash ParticleExchange HaloExchange.
From Verif.Spec Require Import Basic Comm Query HaloUpdate.
From Verif.Proofs Require Import ListMemProofs ListExtra MpiProofs MymathProofs2 HostProofs RestoreProofs QueryProofs QueryProofs2 QueryProofs3.
Import ListNotations.
Local Open Scope nat_scope.

(** A list sorted by [f] is the concatenation of its groups. *)
Lemma sorted_groups {A} (f : A -> nat) : forall k a l, StronglySorted le (map f l) -> (forall x, In x l -> a <= f x < a + k) ->
  l = concat (map (fun r => filter (fun x => f x =? r) l) (seq a k)).
Proof.
  induction k as [|k IH]; intros a l Hs Hr.
  - destruct l as [|x l]; [reflexivity|]. specialize (Hr x (or_introl eq_refl)). lia.
  - cbn [seq map concat].
    assert (Hsplit : exists l1 l2, l = l1 ++ l2 /\ (forall x, In x l1 -> f x = a) /\ (forall x, In x l2 -> a < f x)).
    { clear IH. induction l as [|x l IHl]; [exists [], []; repeat split; intros ? []|]. cbn in Hs. inversion Hs as [|? ? Hs' Hf]; subst.
      destruct (IHl Hs' ltac:(intros y Hy; apply Hr; right; exact Hy)) as (l1 & l2 & -> & H1 & H2).
      destruct (Nat.eq_dec (f x) a) as [E|E].
      - exists (x :: l1), l2. repeat split; [|exact H2]. intros y [<-|Hy]; auto.
      - assert (Hx : a < f x) by (specialize (Hr x (or_introl eq_refl)); lia).
        exists [], (x :: l1 ++ l2). repeat split; [intros ? []|]. intros y [<-|Hy]; [exact Hx|].
        rewrite Forall_forall in Hf. specialize (Hf (f y) (in_map _ _ _ Hy)). lia. }
    destruct Hsplit as (l1 & l2 & -> & H1 & H2).
    assert (Hs2 : StronglySorted le (map f l2)).
    { rewrite map_app in Hs. clear - Hs. induction (map f l1) as [|y m IHm]; [exact Hs|]. cbn in Hs. inversion Hs; subst; auto. }
    rewrite filter_app, (filter_none _ l2) by (intros x Hx; specialize (H2 x Hx); apply Nat.eqb_neq; lia).
    rewrite app_nil_r. f_equal.
    + symmetry. clear - H1. induction l1 as [|x l IHl]; [reflexivity|]. cbn. rewrite (H1 x (or_introl eq_refl)), Nat.eqb_refl. f_equal. apply IHl. intros y Hy. apply H1. right; exact Hy.
    + rewrite (IH (S a) l2 Hs2) at 1.
      * f_equal. apply map_ext_in. intros r Hin. apply in_seq in Hin. rewrite filter_app, (filter_none _ l1); [reflexivity|]. intros x Hx. rewrite (H1 x Hx). apply Nat.eqb_neq; lia.
      * intros x Hx. specialize (H2 x Hx). specialize (Hr x (proj2 (in_app_iff _ _ _) (or_intror Hx))). lia.
Qed.

Lemma upd_map_seq (g : nat -> nat) W i x : i < W -> upd (map g (seq 0 W)) i x = Some (map (fun r => if r =? i then x else g r) (seq 0 W)).
Proof.
  intros Hi. destruct (upd_some (map g (seq 0 W)) i x) as [l El]; [rewrite map_length, seq_length; exact Hi|]. rewrite El. f_equal.
  apply nth_error_ext. intros j. rewrite (upd_nth _ _ _ j _ El). rewrite !nth_error_map, nth_seq.
  destruct (Nat.ltb_spec j W) as [Hj|Hj]; cbn.
  - rewrite Nat.eqb_sym. destruct (i =? j); reflexivity.
  - destruct (Nat.eqb_spec j i); [lia|reflexivity].
Qed.
Lemma add_all {A} (f w : A -> nat) W l : (forall x, In x l -> f x < W) -> forall g,
  for_each l (fun x c => add_at (f x) (w x) c) (map g (seq 0 W)) =
    Some (map (fun r => g r + nsum (map w (filter (fun x => f x =? r) l))) (seq 0 W)).
Proof.
  intros Hl. induction l as [|x l IH]; intros g; cbn [for_each].
  - f_equal. apply map_ext. intros r. cbn. lia.
  - assert (Hx : f x < W) by (apply Hl; left; reflexivity). unfold add_at at 1. rewrite nth_error_map, nth_seq.
    destruct (Nat.ltb_spec (f x) W); [|lia]. cbn [option_map]. rewrite upd_map_seq by exact Hx. rewrite IH by (intros y Hy; apply Hl; right; exact Hy).
    f_equal. apply map_ext. intros r. cbn [filter]. rewrite (Nat.eqb_sym r). destruct (Nat.eqb_spec (f x) r) as [E|E]; cbn [map nsum]; [subst; cbn; lia|lia].
Qed.
Lemma zeros_seq W : repeat 0 W = map (fun _ => 0) (seq 0 W).
Proof. generalize 0 at 3. induction W as [|W IH]; intros a; cbn; [reflexivity|]. f_equal. apply IH. Qed.
Lemma add_all0 {A} (f w : A -> nat) W l : (forall x, In x l -> f x < W) ->
  for_each l (fun x c => add_at (f x) (w x) c) (repeat 0 W) = Some (map (fun r => nsum (map w (filter (fun x => f x =? r) l))) (seq 0 W)).
Proof. intros H. rewrite zeros_seq, (add_all f w W l H). reflexivity. Qed.
Lemma nsum_ones {A} (l : list A) : nsum (map (fun _ => 1) l) = length l.
Proof. induction l; cbn; auto. Qed.

(** The segment for receiver [r] of an array made of groups. *)
Lemma slice_of_groups {A} (G : nat -> list A) W r : r < W ->
  send_slice (concat (map G (seq 0 W))) (map (fun r => length (G r)) (seq 0 W)) r = Some (G r).
Proof.
  intros Hr. unfold send_slice. rewrite displacements_eq, offs_from_nth by (rewrite map_length, seq_length; exact Hr).
  rewrite nth_error_map, nth_seq. destruct (Nat.ltb_spec r W); [|lia]. cbn [option_map Nat.add].
  assert (En : nth_error (map G (seq 0 W)) r = Some (G r)) by (rewrite nth_error_map, nth_seq; destruct (Nat.ltb_spec r W); [reflexivity|lia]).
  pose proof (nth_error_split2 _ _ _ En) as Es.
  assert (Ec : concat (map G (seq 0 W)) = concat (firstn r (map G (seq 0 W))) ++ G r ++ concat (skipn (S r) (map G (seq 0 W)))).
  { rewrite Es at 1. rewrite concat_app. reflexivity. }
  assert (El : nsum (firstn r (map (fun r => length (G r)) (seq 0 W))) = length (concat (firstn r (map G (seq 0 W))))).
  { rewrite concat_length_nsum, <- firstn_map, map_map. reflexivity. }
  rewrite El, Ec. rewrite !app_length. destruct (Nat.leb_spec (length (concat (firstn r (map G (seq 0 W)))) + length (G r)) (length (concat (firstn r (map G (seq 0 W)))) + (length (G r) + length (concat (skipn (S r) (map G (seq 0 W))))))); [|lia].
  f_equal. rewrite skipn_app, skipn_all, Nat.sub_diag. cbn [app skipn]. rewrite firstn_app, firstn_all, Nat.sub_diag. cbn [firstn]. apply app_nil_r.
Qed.

Lemma mapM_map {A B C} (f : B -> option C) (g : A -> B) l : mapM f (map g l) = mapM (fun x => f (g x)) l.
Proof. induction l as [|x l IH]; cbn; [reflexivity|]. rewrite IH. reflexivity. Qed.
Lemma mapM_flat {A B} (f : A -> option B) l m : mapM f l = Some m -> m = flat_map (fun x => match f x with Some y => [y] | None => [] end) l.
Proof.
  revert m; induction l as [|x l IH]; intros m E; cbn in E; [injection E as <-; reflexivity|].
  destruct (f x) as [y|] eqn:Ef; [|discriminate]. destruct (mapM f l) as [t|]; [|discriminate]. injection E as <-. cbn. rewrite Ef. cbn. f_equal. apply IH. reflexivity.
Qed.
Lemma mapM_perm {A B} (f : A -> option B) l l' m m' : Permutation l l' -> mapM f l = Some m -> mapM f l' = Some m' -> Permutation m m'.
Proof.
  intros HP E E'. rewrite (mapM_flat _ _ _ E), (mapM_flat _ _ _ E'). apply Permutation_flat_map. exact HP.
Qed.
Lemma cut_concat {X} (ls : list (list (Z * X))) : cut_by (map (@length _) ls) (concat ls) = Some ls.
Proof.
  induction ls as [|l ls IH]; [reflexivity|]. cbn [map concat cut_by]. rewrite app_length. destruct (Nat.leb_spec (length l) (length l + length (concat ls))); [|lia].
  rewrite skipn_app, skipn_all, Nat.sub_diag. cbn [app skipn]. rewrite IH. rewrite firstn_app, firstn_all, Nat.sub_diag. cbn [firstn]. rewrite app_nil_r. reflexivity.
Qed.
Lemma combine_split_map {A B} (l : list (A * B)) : combine (map fst l) (map snd l) = l.
Proof. induction l as [|[a b] l IH]; cbn; [reflexivity|]. f_equal. exact IH. Qed.

Section Distribute.
  Context {X S : Type}.
  Local Notation part := (Z * X)%type.
  Local Notation halo := (list part * S)%type.
  Variable chunk : nat.
  Hypothesis Hchunk : 1 <= chunk.
  Variable average : list part -> S -> S.
  Variable cell_of : nat -> S -> nat.
  Variable sort_rank : list (nat * nat) -> list (nat * nat).
  Hypothesis Hperm : forall l, Permutation (sort_rank l) l.
  Hypothesis Hsorted : forall l, StronglySorted le (map snd (sort_rank l)).
  Local Notation averaged := (@averaged X S average).
  Local Notation cellW W := (fun h : halo => cell_of W (snd h)).

  Definition seg (W : nat) (l : list halo) (r : nat) : list halo := filter (fun h => cell_of W (snd h) =? r) l.
  Definition seg_counts (W : nat) (l : list halo) : list nat := map (fun r => length (seg W l r)) (seq 0 W).

  Lemma sorted_halos_ok W (halos : list halo) : (forall h, In h halos -> cell_of W (snd (averaged h)) < W) ->
    exists l, sorted_halos average cell_of sort_rank W halos = Some (l, map (cellW W) l, seg_counts W l) /\
      Permutation l (map averaged halos) /\ StronglySorted le (map (cellW W) l).
  Proof using Hperm Hsorted.
    intros Hr. unfold sorted_halos. set (hs := map averaged halos). set (t0 := combine (seq 0 (length hs)) (map (cellW W) hs)).
    assert (Ht0 : forall ir, In ir t0 -> exists h, nth_error hs (fst ir) = Some h /\ cell_of W (snd h) = snd ir).
    { intros [i r] Hin. apply In_nth_error in Hin as [j Hj]. unfold t0 in Hj. apply combine_nth_error_inv in Hj as [H1 H2].
      rewrite nth_seq in H1. destruct (j <? length hs); [|discriminate]. injection H1 as <-. rewrite nth_error_map in H2. cbn [Nat.add fst snd].
      destruct (nth_error hs j) as [h|]; [|discriminate]. injection H2 as <-. exists h. split; reflexivity. }
    assert (Et0 : mapM (fun ir => nth_error hs (fst ir)) t0 = Some hs).
    { unfold t0. generalize (eq_refl (length hs)). clear. assert (Hg : forall pre post, mapM (fun ir : nat * nat => nth_error (pre ++ post) (fst ir)) (combine (seq (length pre) (length post)) (map (cellW W) post)) = Some post).
      { intros pre post; revert pre; induction post as [|h post IH]; intros pre; [reflexivity|]. cbn [length seq map combine mapM fst].
        rewrite nth_error_app2, Nat.sub_diag by lia. cbn [nth_error]. specialize (IH (pre ++ [h])). rewrite <- app_assoc in IH. rewrite app_length in IH. cbn in IH. rewrite Nat.add_1_r in IH. cbn [app] in IH. rewrite IH. reflexivity. }
      intros _. exact (Hg [] hs). }
    set (t := sort_rank t0). assert (Pt : Permutation t t0) by apply Hperm.
    assert (Ht : forall ir, In ir t -> exists h, nth_error hs (fst ir) = Some h /\ cell_of W (snd h) = snd ir) by (intros ir Hin; apply Ht0; eapply Permutation_in; eauto).
    assert (El : exists l, mapM (fun ir => nth_error hs (fst ir)) t = Some l /\ map (cellW W) l = map snd t).
    { clear - Ht. induction t as [|ir t IH]; [exists []; split; reflexivity|]. destruct (Ht ir (or_introl eq_refl)) as (h & Eh & Ec).
      destruct IH as (l & El & Em); [intros x Hx; apply Ht; right; exact Hx|]. exists (h :: l). cbn. rewrite Eh, El, Ec, Em. split; reflexivity. }
    destruct El as (l & El & Em). exists l. rewrite El.
    assert (Pl : Permutation l hs) by (eapply mapM_perm; [exact Pt|exact El|exact Et0]).
    assert (Hlt : forall ir, In ir t -> snd ir < W).
    { intros ir Hin. destruct (Ht ir Hin) as (h & Eh & <-). apply nth_error_In in Eh. unfold hs in Eh. apply in_map_iff in Eh as (h0 & <- & Hh0). apply Hr. exact Hh0. }
    rewrite (add_all0 snd (fun _ => 1) W t Hlt). rewrite <- Em. split; [|split; [exact Pl|rewrite Em; apply Hsorted]]. f_equal. f_equal. unfold seg_counts. apply map_ext. intros r.
    rewrite nsum_ones. unfold seg. rewrite <- (map_length (cellW W)), <- (map_length snd).
    rewrite <- (filter_map_comm (cellW W) (fun c => c =? r)), <- (filter_map_comm snd (fun c => c =? r)). rewrite Em. reflexivity.
  Qed.

  Lemma seg_concat W l : StronglySorted le (map (cellW W) l) -> (forall h, In h l -> cell_of W (snd h) < W) -> l = concat (map (seg W l) (seq 0 W)).
  Proof. intros Hs Hl. apply (sorted_groups (cellW W) W 0 l Hs). intros x Hx. specialize (Hl x Hx). lia. Qed.

  Lemma slice_map {B} (f : halo -> B) W l r : StronglySorted le (map (cellW W) l) -> (forall h, In h l -> cell_of W (snd h) < W) -> r < W ->
    send_slice (map f l) (seg_counts W l) r = Some (map f (seg W l r)).
  Proof.
    intros Hs Hl Hr. rewrite (seg_concat W l Hs Hl) at 1. rewrite concat_map, map_map.
    replace (seg_counts W l) with (map (fun r => length (map f (seg W l r))) (seq 0 W)) by (apply map_ext; intros; apply map_length).
    apply (slice_of_groups (fun r => map f (seg W l r))). exact Hr.
  Qed.

  Lemma all_v_ok {B} (f : halo -> B) W (ls : list (list halo)) : length ls = W ->
    (forall l, In l ls -> StronglySorted le (map (cellW W) l)) -> (forall l h, In l ls -> In h l -> cell_of W (snd h) < W) ->
    all_to_all_v (map (fun p : list halo * list nat * list nat => (map f (fst (fst p)), snd p)) (map (fun l => (l, map (cellW W) l, seg_counts W l)) ls)) =
      Some (map (fun r => map (fun l => map f (seg W l r)) ls) (seq 0 W)).
  Proof.
    intros HW Hs Hl. unfold all_to_all_v. rewrite !map_length, HW. apply mapM_some. intros r Hr. apply in_seq in Hr.
    rewrite !mapM_map. cbn [fst snd]. apply mapM_some. intros l Hin. apply slice_map; [apply Hs; exact Hin|intros h Hh; apply (Hl l h Hin Hh)|lia].
  Qed.

  Lemma rebuilt_all_ok W r (ls : list (list halo)) :
    rebuilt_all (map (fun l => map snd (seg W l r)) ls) (map (fun l => map (fun h : halo => length (fst h)) (seg W l r)) ls)
      (map (fun l => concat (map fst (seg W l r))) ls) = Some (concat (map (fun l => seg W l r) ls)).
  Proof.
    induction ls as [|l ls IH]; [reflexivity|]. cbn [map rebuilt_all concat]. unfold rebuilt at 1.
    rewrite <- (map_map fst (@length part)), cut_concat, combine_split_map, IH. reflexivity.
  Qed.

  Lemma got_ok W (ls : list (list halo)) : length ls = W ->
    my_all_to_all chunk (map (fun l => map (fun r => concat (map fst (seg W l r))) (seq 0 W)) ls)
       (map (fun l => map (fun r => nsum (map (fun h : halo => length (fst h)) (seg W l r))) (seq 0 W)) ls) =
      Some (map (fun r => map (fun l => concat (map fst (seg W l r))) ls) (seq 0 W)).
  Proof using Hchunk average.
    intros HW. set (data := map _ ls). set (counts := map _ ls).
    assert (Hcd : forall s r x, cell data s r = Some x -> exists l, nth_error ls s = Some l /\ r < W /\ x = concat (map fst (seg W l r)) /\ cell counts s r = Some (length x)).
    { intros s r x Hx. unfold cell, data in Hx. rewrite nth_error_map in Hx. destruct (nth_error ls s) as [l|] eqn:El; [|discriminate]. cbn in Hx.
      rewrite nth_error_map, nth_seq in Hx. destruct (Nat.ltb_spec r W) as [Hr|]; [|discriminate]. injection Hx as <-. exists l.
      split; [reflexivity|]. split; [exact Hr|]. split; [reflexivity|]. unfold cell, counts. rewrite nth_error_map, El. cbn. rewrite nth_error_map, nth_seq.
      destruct (Nat.ltb_spec r W); [|lia]. cbn. rewrite concat_length_nsum, map_map. reflexivity. }
    destruct (all_to_all_correct chunk W data counts Hchunk) as (outs & E & (Ho1 & Ho2) & Hc).
    { split; [|split].
      - split; [unfold data; rewrite map_length; exact HW|]. unfold data. rewrite Forall_map. apply Forall_forall. intros l _. rewrite map_length, seq_length. reflexivity.
      - split; [unfold counts; rewrite map_length; exact HW|]. unfold counts. rewrite Forall_map. apply Forall_forall. intros l _. rewrite map_length, seq_length. reflexivity.
      - intros s r x c Hx Hcc. destruct (Hcd s r x Hx) as (_ & _ & _ & _ & Hcnt). assert (c = length x) by congruence. lia. }
    rewrite E. f_equal. apply nth_error_ext. intros r. rewrite nth_error_map, nth_seq. destruct (Nat.ltb_spec r W) as [Hr|Hr].
    2:{ cbn. apply nth_error_None. lia. }
    cbn. destruct (nth_error_in_range outs r) as [o Eo]; [lia|]. rewrite Eo. f_equal. rewrite Forall_forall in Ho2. pose proof (Ho2 o (nth_error_In _ _ Eo)) as Lo.
    apply nth_error_ext. intros s. rewrite nth_error_map. destruct (nth_error ls s) as [l|] eqn:El.
    2:{ cbn. apply nth_error_None. apply nth_error_None in El. lia. }
    cbn. assert (Hx : cell data s r = Some (concat (map fst (seg W l r)))).
    { unfold cell, data. rewrite nth_error_map, El. cbn. rewrite nth_error_map, nth_seq. destruct (Nat.ltb_spec r W); [reflexivity|lia]. }
    destruct (Hcd _ _ _ Hx) as (_ & _ & _ & _ & Hcnt). specialize (Hc _ _ _ _ Hx Hcnt). unfold cell in Hc. rewrite Eo in Hc. rewrite Hc. rewrite firstn_all. reflexivity.
  Qed.

  Lemma filter_concat_map {A} (p : A -> bool) (ls : list (list A)) : concat (map (filter p) ls) = filter p (concat ls).
  Proof. induction ls as [|l ls IH]; [reflexivity|]. cbn. rewrite filter_app, IH. reflexivity. Qed.

  Lemma prepared_ok W (halos : list (list halo)) : (forall hs h, In hs halos -> In h hs -> cell_of W (snd (averaged h)) < W) ->
    exists ls, mapM (sorted_halos average cell_of sort_rank W) halos = Some (map (fun l => (l, map (cellW W) l, seg_counts W l)) ls) /\
      length ls = length halos /\ Permutation (concat ls) (map averaged (concat halos)) /\ forall l, In l ls -> StronglySorted le (map (cellW W) l).
  Proof using Hperm Hsorted.
    intros Hr. induction halos as [|hs halos IH]; [exists []; repeat split; [constructor|intros ? []]|].
    destruct (sorted_halos_ok W hs) as (l & El & Pl & Sl); [intros h Hh; apply (Hr hs h (or_introl eq_refl) Hh)|].
    destruct IH as (ls & Els & Ll & Pls & Sls); [intros hs' h H1 H2; apply (Hr hs' h (or_intror H1) H2)|].
    exists (l :: ls). cbn [mapM map length concat]. rewrite El, Els. split; [reflexivity|]. split; [cbn; rewrite Ll; reflexivity|]. split.
    - rewrite map_app. apply Permutation_app; assumption.
    - intros l' [<-|Hin]; auto.
  Qed.

  Lemma distribute_ok (halos : list (list halo)) : (forall hs h, In hs halos -> In h hs -> cell_of (length halos) (snd (averaged h)) < length halos) ->
    exists out, distribute chunk average cell_of sort_rank halos = Some out /\ length out = length halos /\
      Permutation (concat out) (map averaged (concat halos)) /\
      forall r l h, nth_error out r = Some l -> In h l -> cell_of (length halos) (snd h) = r.
  Proof using Hchunk Hperm Hsorted.
    intros Hr. unfold distribute. set (W := length halos) in *.
    destruct (prepared_ok W halos Hr) as (ls & Els & Ll & Pls & Sls). fold W in Ll. rewrite Els.
    assert (Hlt : forall l h, In l ls -> In h l -> cell_of W (snd h) < W).
    { intros l h Hl Hh. assert (Hin : In h (map averaged (concat halos))). { eapply Permutation_in; [exact Pls|]. apply in_concat. exists l. split; assumption. }
      apply in_map_iff in Hin as (h0 & <- & H0). apply in_concat in H0 as (hs & H1 & H2). apply (Hr hs h0 H1 H2). }
    rewrite (all_v_ok snd W ls Ll Sls Hlt), (all_v_ok (fun h => length (fst h)) W ls Ll Sls Hlt).
    rewrite !mapM_map.
    rewrite (mapM_some (fun l => particle_streams W (l, map (cellW W) l, seg_counts W l)) (fun l => map (fun r => concat (map fst (seg W l r))) (seq 0 W))).
    2:{ intros l Hin. unfold particle_streams. cbn [fst snd]. apply mapM_some. intros r Hr0. apply in_seq in Hr0. rewrite <- (map_id l) at 1. rewrite (slice_map (fun h => h) W l r); [rewrite map_id; reflexivity|apply Sls; exact Hin|intros h Hh; apply (Hlt l h Hin Hh)|lia]. }
    rewrite (mapM_some (fun l => particle_counts W (l, map (cellW W) l, seg_counts W l)) (fun l => map (fun r => nsum (map (fun h : halo => length (fst h)) (seg W l r))) (seq 0 W))).
    2:{ intros l Hin. unfold particle_counts. cbn [fst snd]. rewrite combine_mapped.
        assert (Hf : forall m c, for_each (map (fun x : halo => (x, cell_of W (snd x))) m) (fun (hr : halo * nat) c => add_at (snd hr) (length (fst (fst hr))) c) c = for_each m (fun (h : halo) c => add_at (cell_of W (snd h)) (length (fst h)) c) c).
        { induction m as [|h m IHm]; intros c; [reflexivity|]. cbn. destruct (add_at _ _ c); [apply IHm|reflexivity]. }
        rewrite Hf, (add_all0 (cellW W) (fun h => length (fst h)) W l); [reflexivity|]. intros h Hh. apply (Hlt l h Hin Hh). }
    rewrite (got_ok W ls Ll).
    assert (Hfin : mapM (fun q : list (list S) * list (list nat) * list (list part) => rebuilt_all (fst (fst q)) (snd (fst q)) (snd q))
       (combine (combine (map (fun r => map (fun l => map snd (seg W l r)) ls) (seq 0 W)) (map (fun r => map (fun l => map (fun h : halo => length (fst h)) (seg W l r)) ls) (seq 0 W)))
          (map (fun r => map (fun l => concat (map fst (seg W l r))) ls) (seq 0 W))) = Some (map (fun r => seg W (concat ls) r) (seq 0 W))).
    { rewrite !combine_map_both. rewrite mapM_map. apply mapM_some. intros r _. cbn [fst snd]. rewrite rebuilt_all_ok. f_equal. unfold seg. apply filter_concat_map. }
    rewrite Hfin. eexists. split; [reflexivity|]. split; [rewrite map_length, seq_length; reflexivity|]. split.
    - rewrite <- Pls. apply (concat_filters (cellW W) W (concat ls)). intros h Hh. apply in_concat in Hh as (l & H1 & H2). apply (Hlt l h H1 H2).
    - intros r l h Hl Hh. rewrite nth_error_map, nth_seq in Hl. destruct (r <? W); [|discriminate]. injection Hl as <-. unfold seg in Hh. apply filter_In in Hh as [_ Hh]. apply Nat.eqb_eq in Hh. exact Hh.
  Qed.
End Distribute.

Lemma halo_cell_spec {S} (root : nat -> nat -> nat) (box : Q) (position : S -> Q * Q * Q) W s :
  (forall N d, 1 <= N -> 1 <= d -> 1 <= root N d) -> (forall N, root N 1 = N) -> 1 <= W ->
  halo_cell root box position W s < W /\ ((0 < box)%Q -> in_domain box W (position s) (halo_cell root box position W s)).
Proof.
  intros H1 H2 HW. unfold halo_cell. destruct (closest_factors_correct root H1 H2 3 W HW ltac:(lia)) as (fs & -> & Hl & Hp & Hprod).
  destruct fs as [|d0 [|d1 [|d2 [|]]]]; try discriminate. inversion Hp as [|? ? P0 Hp1]; subst. inversion Hp1 as [|? ? P1 Hp2]; subst. inversion Hp2 as [|? ? P2 _]; subst. clear Hp Hp1 Hp2 Hl.
  cbn [nprod] in *. set (st := (_, _, _) : Q * Q * Q). destruct (position s) as [[p0 p1] p2].
  pose proof (assign_cell_range p0 p1 p2 (fst (fst st)) (snd (fst st)) (snd st) (Z.of_nat d0) (Z.of_nat d1) (Z.of_nat d2) ltac:(lia) ltac:(lia) ltac:(lia)) as Hr.
  change (fst (fst st), snd (fst st), snd st) with st in Hr. split.
  - apply Nat2Z.inj_lt. rewrite Z2Nat.id by apply Hr. rewrite Nat.mul_1_r, !Nat2Z.inj_mul, Z.mul_assoc. apply Hr.
  - intros Hb. exists d0, d1, d2. split; [rewrite Nat.mul_1_r; apply eq_sym, Nat.mul_assoc|].
    assert (Hs : forall d, 1 <= d -> (0 < box / inject_Z (Z.of_nat d))%Q).
    { intros d Hd. apply Qlt_shift_div_l; [|rewrite Qmult_0_l; exact Hb]. replace 0%Q with (inject_Z 0) by reflexivity. rewrite <- Zlt_Qlt. lia. }
    pose proof (proj1 (assign_cell_iff p0 p1 p2 (fst (fst st)) (snd (fst st)) (snd st) (Z.of_nat d0) (Z.of_nat d1) (Z.of_nat d2) _ ltac:(lia) ltac:(lia) ltac:(lia) (Hs d0 P0) (Hs d1 P1) (Hs d2 P2)) eq_refl) as (g0 & g1 & g2 & G0 & G1 & G2 & Er).
    exists g0, g1, g2. change (fst (fst st), snd (fst st), snd st) with st in Er. cbn [fst snd]. repeat split; try apply G0; try apply G1; try apply G2. rewrite Z2Nat.id by apply Hr. exact Er.
Qed.

Lemma kick_present {X} (null : Z) (parts : list (list (Z * X))) (l : list (Z * X)) : ~ In null (map fst (concat parts)) ->
  exists n, halo_kick null (map (refreshed null parts) l) = Some (present parts l, n).
Proof.
  intros Hn. eexists. rewrite halo_kick_correct. f_equal. f_equal.
  induction l as [|p l IH]; [reflexivity|]. unfold present in *. cbn [map filter flat_map]. rewrite IH. unfold refreshed at 1 2, record_of.
  destruct (find _ (concat parts)) as [s|] eqn:E.
  - unfold keep at 1. apply find_some in E as [E1 E2]. destruct (Z.eqb_spec (fst s) null) as [Es|Es]; [|reflexivity].
    exfalso. apply Hn. rewrite <- Es. apply in_map. exact E1.
  - unfold keep at 1. cbn. rewrite Z.eqb_refl. reflexivity.
Qed.

Section Update.
  Context {X S : Type}.
  Local Notation part := (Z * X)%type.
  Local Notation halo := (list part * S)%type.
  Variable null : Z.
  Hypothesis Hnull : (null < 0)%Z.
  Variable chunk : nat.
  Hypothesis Hchunk : 1 <= chunk.
  Variable sort_local : list (part * nat) -> list (part * nat).
  Hypothesis HL1 : forall l, Permutation (sort_local l) l.
  Hypothesis HL2 : forall l, StronglySorted Z.le (map (fun p => fst (fst p)) (sort_local l)).
  Variable sort_roam : list (Z * (X * nat)) -> list (Z * (X * nat)).
  Hypothesis HR1 : forall l, Permutation (sort_roam l) l.
  Hypothesis HR2 : forall l, StronglySorted Z.le (map fst (sort_roam l)).
  Variable average : list part -> S -> S.
  Variable cell_of : nat -> S -> nat.
  Variable sort_rank : list (nat * nat) -> list (nat * nat).
  Hypothesis Hperm : forall l, Permutation (sort_rank l) l.
  Hypothesis Hsorted : forall l, StronglySorted le (map snd (sort_rank l)).

  Lemma update_halos_ok ranges (snaps : list (snap_proc X)) (halos : list (list halo)) :
    length snaps = length halos -> located ranges (map sp_parts snaps) -> NoDup (map fst (concat (map sp_parts snaps))) ->
    Forall (table_ok null) snaps -> ~ In null (map fst (concat (map sp_parts snaps))) ->
    forall lo hi, nth_error ranges 0 = Some lo -> nth_error ranges (length halos) = Some hi ->
    (forall hs h p, In hs halos -> In h hs -> In p (fst h) -> (lo <= fst p < hi)%Z) ->
    (forall s, halos <> [] -> cell_of (length halos) s < length halos) ->
    exists out, update_halos chunk average cell_of sort_rank null sort_local sort_roam false ranges snaps halos = Done out /\ length out = length halos /\
      Permutation (concat out) (map (fun h => (present (map sp_parts snaps) (fst h), average (present (map sp_parts snaps) (fst h)) (snd h))) (concat halos)) /\
      forall r l h, nth_error out r = Some l -> In h l -> cell_of (length halos) (snd h) = r.
  Proof.
    intros HW HL HU HT Hnn lo hi Hlo Hhi Hids Hcell. unfold update_halos. set (parts := map sp_parts snaps) in *.
    assert (E : exchange null chunk sort_local sort_roam ranges snaps (map (map fst) halos) = Done (map (map (map (refreshed null parts))) (map (map fst) halos))).
    { rewrite (exchange_correct_above null Hnull chunk Hchunk sort_local HL1 HL2 sort_roam HR1 HR2 ranges snaps (map (map fst) halos)) with (lo0 := lo); rewrite ?map_length; auto.
      - f_equal. apply map_ext_in. intros hs Hh. apply map_ext_in. intros l Hl. apply map_ext_in. intros p Hp. unfold refreshed_above.
        apply in_map_iff in Hh as (hs0 & <- & Hh0). apply in_map_iff in Hl as (h & <- & Hh). destruct (Z.ltb_spec (fst p) lo); [|reflexivity]. specialize (Hids hs0 h p Hh0 Hh Hp). lia.
      - intros hs l p hi' Hh Hl Hp Hhi'. apply in_map_iff in Hh as (hs0 & <- & Hh0). apply in_map_iff in Hl as (h & <- & Hh). specialize (Hids hs0 h p Hh0 Hh Hp). assert (hi' = hi) by congruence. lia. }
    rewrite E. cbn [rbind]. set (upd_h := fun h : halo => (present parts (fst h), snd h)).
    assert (Ek : mapM (fun on : list halo * list (list part) => kicked null (fst on) (snd on)) (combine halos (map (map (map (refreshed null parts))) (map (map fst) halos))) = Some (map (map upd_h) halos)).
    { rewrite map_map, combine_mapped, mapM_map. apply mapM_some. intros hs Hhs. cbn [fst snd]. unfold kicked. rewrite !mapM_map.
      assert (Em : exists ns, mapM (fun h : halo => halo_kick null (map (refreshed null parts) (fst h))) hs = Some (combine (map (fun h => present parts (fst h)) hs) ns) /\ length ns = length hs).
      { clear - Hnn. induction hs as [|h hs IH]; [exists []; split; reflexivity|]. destruct IH as (ns & En & Ln). destruct (kick_present null parts (fst h) Hnn) as (n & Eh). exists (n :: ns). cbn [mapM]. rewrite Eh, En. split; [reflexivity|cbn; rewrite Ln; reflexivity]. }
      destruct Em as (ns & -> & Ln). f_equal. clear - Ln. revert ns Ln. induction hs as [|h hs IH]; intros [|n ns] Ln; try discriminate; [reflexivity|]. cbn. f_equal. apply (IH ns). cbn in Ln. lia. }
    rewrite Ek. cbn [of_opt rbind].
    destruct (distribute_ok chunk Hchunk average cell_of sort_rank Hperm Hsorted (map (map upd_h) halos)) as (out & Eo & Lo & Po & Ho).
    { rewrite map_length. intros hs h H1 H2. apply Hcell. intros ->. destruct H1. }
    rewrite Eo. exists out. rewrite map_length in *. split; [reflexivity|]. split; [exact Lo|]. split; [|exact Ho].
    rewrite Po. rewrite <- concat_map, map_map. reflexivity.
  Qed.
End Update.
