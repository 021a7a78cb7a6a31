(** Parallel loops over tables stay apart. *)
From Coq Require Import List ZArith QArith Bool Lia Sorting.Permutation.
From Verif.Model Require Import ListMem Run Mymath Hash LinkedList Threads TableThreads.
From Verif.Spec Require Import Races Chains.
From Verif.Proofs Require Import ListMemProofs ListExtra NestProofs ThreadProofs LinkProofs LinkMerge LinkSearch.
Import ListNotations.
Local Open Scope Z_scope.

(** ** Every turn writes a value to a cell of its own *)
Lemma write_loop {A} (f g : A -> Z) (l : list A) (start final : Z -> option Z) : NoDup (map f l) -> (forall a, In a l -> start (f a) <> None) ->
  (forall a, In a l -> final (f a) = Some (g a)) -> (forall m, ~ In m (map f l) -> final m = start m) ->
  safe_loop Z.eqb race (map (fun a => Put (f a) (g a) (Ret tt)) l) start final.
Proof.
  intros ND Hs Hf Hr. set (wr := fun t m (v : Z) => exists a, nth_error l t = Some a /\ m = f a /\ v = g a).
  assert (Hone : forall t u m v v', t <> u -> wr t m v -> ~ wr u m v').
  { intros t u m v v' Htu (a & Ea & -> & _) (b & Eb & E & _). apply Htu. apply (proj1 (NoDup_nth_error (map f l)) ND); [rewrite map_length; eapply nth_error_lt; eauto|]. rewrite !nth_error_map, Ea, Eb. cbn. congruence. }
  apply (together_free Z.eqb Z.eqb_eq (fun _ _ => False) wr).
  - intros t p Hp. rewrite nth_error_map in Hp. destruct (nth_error l t) as [a|] eqn:Ea; [|discriminate]. injection Hp as <-. assert (Ha := nth_error_In _ _ Ea).
    exists 1%nat. cbn [wp]. exists 0%nat. split; [reflexivity|]. split; [exists a; auto|]. split; [apply Hs; exact Ha|]. split; [reflexivity|]. intros m v (b & Eb & -> & ->). assert (b = a) by congruence. subst b. rewrite put_here by exact Z.eqb_eq. symmetry. apply Hf. exact Ha.
  - intros t u m v _ _ [].
  - intros t u m v v' Htu Hw Hw'. exfalso. exact (Hone _ _ _ _ _ Htu Hw Hw').
  - intros m. destruct (in_dec Z.eq_dec m (map f l)) as [Hm|Hm]; [|right; apply Hr; exact Hm]. left. apply in_map_iff in Hm as (a & <- & Ha). apply In_nth_error in Ha as [t Ht]. exists t, (g a). split; [rewrite map_length; eapply nth_error_lt; eauto|]. exists a. auto.
  - exact Hone.
Qed.
Lemma clear_loop null span (junk : list Z) : length junk = span -> safe_loop Z.eqb race (clear_turns null span) (zget junk) (zget (repeat null span)).
Proof.
  intros HL. unfold clear_turns. apply (write_loop Z.of_nat (fun _ => null)).
  - apply NoDup_map_inj; [intros x y _ _; apply Nat2Z.inj|apply seq_NoDup].
  - intros i Hi. apply in_seq in Hi. rewrite zget_of_nat. apply nth_error_Some. lia.
  - intros i Hi. apply in_seq in Hi. rewrite zget_of_nat. apply nth_error_repeat. lia.
  - intros m Hm. assert (Hn : ~ 0 <= m < Z.of_nat span) by (intros Hr; apply Hm; apply in_map_iff; exists (Z.to_nat m); split; [lia|apply in_seq; lia]).
    transitivity (@None Z); [|symmetry]; match goal with |- ?x = None => destruct x eqn:E end; try reflexivity; apply zget_some in E; rewrite ?repeat_length in E; exfalso; lia.
Qed.
Lemma written (f : Z * Z -> Z) l : forall (a b : list Z), NoDup (map f l) -> for_each l (fun kv x => zupd x (f kv) (snd kv)) a = Some b ->
  (forall kv, In kv l -> zget a (f kv) <> None /\ zget b (f kv) = Some (snd kv)) /\ forall m, ~ In m (map f l) -> zget b m = zget a m.
Proof.
  induction l as [|kv l IH]; intros a b ND E; cbn in E; [injection E as <-; split; [intros ? []|reflexivity]|]. destruct (zupd a (f kv) (snd kv)) as [a1|] eqn:E1; [|discriminate].
  cbn in ND. apply NoDup_cons_iff in ND as [Hn ND]. destruct (IH a1 b ND E) as [H1 H2]. split.
  - intros kv' [<-|Hin].
    + split; [|rewrite H2 by exact Hn; rewrite (zget_zupd _ _ _ _ _ E1), Z.eqb_refl; reflexivity]. intros En. unfold zupd in E1. unfold zget in En. destruct (f kv <? 0); [discriminate|]. apply nth_error_None in En.
      assert (HL : (Z.to_nat (f kv) < length a)%nat) by (eapply upd_lt; exact E1). lia.
    + destruct (H1 kv' Hin) as [A B]. split; [|exact B]. rewrite (zget_zupd _ _ _ _ _ E1) in A. destruct (Z.eqb_spec (f kv') (f kv)) as [Ef|_]; [|exact A]. exfalso. apply Hn. rewrite <- Ef. apply in_map. exact Hin.
  - intros m Hm. cbn in Hm. rewrite H2 by tauto. rewrite (zget_zupd _ _ _ _ _ E1). destruct (Z.eqb_spec m (f kv)); [exfalso; apply Hm; auto|reflexivity].
Qed.
Lemma fill_loop kmin keys (start out : list Z) : NoDup (map fst keys) -> for_each keys (fun kv x => zupd x (fst kv - kmin) (snd kv)) start = Some out ->
  safe_loop Z.eqb race (fill_turns kmin keys) (zget start) (zget out).
Proof.
  intros ND E. assert (ND' : NoDup (map (fun kv => fst kv - kmin) keys)) by (rewrite <- (map_map fst (fun k => k - kmin)); apply NoDup_map_inj; [intros; lia|exact ND]).
  destruct (written (fun kv => fst kv - kmin) keys start out ND' E) as [H1 H2]. apply write_loop; [exact ND'|intros a Ha; apply (H1 a Ha)|intros a Ha; apply (H1 a Ha)|exact H2].
Qed.

(** ** Moving chains *)
Lemma slot_ok a b : slot_eqb a b = true <-> a = b.
Proof.
  destruct a, b; cbn; try (split; intros; discriminate); rewrite ?andb_true_iff, ?Z.eqb_eq, ?Nat.eqb_eq; split; intros H; try congruence; try (injection H; auto); destruct H; congruence.
Qed.
(** The head and the links after pushing the list [l] on a chain with head [h]. *)
Fixpoint pushes (h : Z) (l : list Z) : Z * list (Z * Z) :=
  match l with [] => (h, []) | p :: r => let (h', w) := pushes p r in (h', (p, h) :: w) end.
Definition after (c h : Z) (l : list Z) (s x : slot -> option Z) : Prop :=
  x (Head c) = Some (fst (pushes h l)) /\ (forall p v, In (p, v) (snd (pushes h l)) -> x (Next p) = Some v) /\
  (forall m, m <> Head c -> (forall p, In p l -> m <> Next p) -> x m = s m).
Lemma pushes_fst l : forall h, map fst (snd (pushes h l)) = l.
Proof. induction l as [|p l IH]; intros h; [reflexivity|]. cbn. specialize (IH p). destruct (pushes p l). cbn in *. congruence. Qed.
Lemma pushes_app l l' : forall h, fst (pushes h (l ++ l')) = fst (pushes (fst (pushes h l)) l') /\ snd (pushes h (l ++ l')) = snd (pushes h l) ++ snd (pushes (fst (pushes h l)) l').
Proof.
  induction l as [|p l IH]; intros h; [cbn; auto|]. cbn [app pushes]. destruct (IH p) as [A B]. destruct (pushes p (l ++ l')) as [a b]. destruct (pushes p l) as [a' b']. cbn [fst snd] in *. split; [exact A|]. rewrite B. reflexivity.
Qed.
Lemma after_nil c h s : s (Head c) = Some h -> after c h [] s s.
Proof. intros H. split; [exact H|]. split; [intros p v []|]. auto. Qed.
Lemma after_app c h l l' s x y : NoDup (l ++ l') -> after c h l s x -> after c (fst (pushes h l)) l' x y -> after c h (l ++ l') s y.
Proof.
  intros ND (A1 & A2 & A3) (B1 & B2 & B3). destruct (pushes_app l l' h) as [E1 E2]. split; [rewrite E1; exact B1|]. split.
  - intros p v Hin. rewrite E2 in Hin. apply in_app_or in Hin as [Hin|Hin]; [|apply B2; exact Hin]. rewrite B3; [apply A2; exact Hin|discriminate|].
    intros q Hq Eq. injection Eq as <-. apply (NoDup_app_disjoint _ _ p ND); [|exact Hq]. rewrite <- (pushes_fst l h). apply (in_map fst) in Hin. exact Hin.
  - intros m Hm Hn. rewrite B3; [apply A3|..]; auto; intros p Hp; apply Hn; apply in_or_app; auto.
Qed.
Lemma after_push c h p (s x y : slot -> option Z) : s (Head c) = Some h -> x (Head c) = Some p -> x (Next p) = Some h -> (forall m, m <> Head c -> m <> Next p -> x m = s m) -> after c h [p] s x.
Proof. intros H1 H2 H3 H4. split; [exact H2|]. split; [intros q v [E|[]]; injection E as <- <-; exact H3|]. intros m Hm Hn. apply H4; [exact Hm|]. apply Hn. left; reflexivity. Qed.

Section Merge.
  Variable parts : list (Z * llist).
  Local Notation mem := (slots parts).
  Lemma pushed_after c l : forall st st' h, NoDup l -> zget (fst st) c = Some h -> for_each l (push c) st = Some st' -> after c h l (mem st) (mem st').
  Proof.
    induction l as [|p l IH]; intros st st' h ND Hh E; cbn [for_each] in E; [injection E as <-; apply after_nil; exact Hh|].
    destruct (push c p st) as [st1|] eqn:E1; [|discriminate]. unfold push in E1. rewrite Hh in E1. destruct (zupd (snd st) p h) as [next|] eqn:En; [|discriminate]. destruct (zupd (fst st) c p) as [hoc|] eqn:Eh; [|discriminate]. injection E1 as <-.
    change (p :: l) with ([p] ++ l). eapply after_app; [exact ND| |apply IH; [inversion ND; assumption| |exact E]].
    - apply after_push; [exact (mem st)|exact Hh|cbn; rewrite (zget_zupd _ _ _ _ _ Eh), Z.eqb_refl; reflexivity|cbn; rewrite (zget_zupd _ _ _ _ _ En), Z.eqb_refl; reflexivity|].
      intros m Hm Hn. destruct m as [d|q| |]; cbn; [rewrite (zget_zupd _ _ _ _ _ Eh)|rewrite (zget_zupd _ _ _ _ _ En)|reflexivity..]; match goal with |- context [?a =? ?b] => destruct (Z.eqb_spec a b); [subst; contradiction|reflexivity] end.
    - cbn. rewrite (zget_zupd _ _ _ _ _ Eh), Z.eqb_refl. reflexivity.
  Qed.

  Variables (rd : slot -> Prop) (wr : slot -> Z -> Prop) (c : Z).
  Hypothesis rd_head : rd (Head c).
  Hypothesis rd_parts : forall t x, rd (PartHead t x) /\ rd (PartNext t x).
  Hypothesis wr_head : forall v, wr (Head c) v.
  Lemma walk_after t off ll f : nth_error parts t = Some (off, ll) -> forall pid l h s, chain (ll_next ll) f pid = Done l -> NoDup (map (fun p => off + p) l) ->
    (forall p, s (PartNext t p) = mem ([], []) (PartNext t p)) -> s (Head c) = Some h -> (forall p, In p l -> s (Next (off + p)) <> None) -> (forall p v, In p l -> wr (Next (off + p)) v) ->
    exists n, wp slot_eqb rd wr (walk f t off c pid) n s (fun _ x => after c h (map (fun p => off + p) l) s x).
  Proof using rd_head rd_parts wr_head.
    intros Ht. induction f as [|f IH]; intros pid l h s E ND Hp Hh Hn Hw; cbn [chain walk] in *.
    - destruct (pid <? 0); [|discriminate]. injection E as <-. exists 0%nat. split; [reflexivity|]. apply after_nil. exact Hh.
    - destruct (pid <? 0); [injection E as <-; exists 0%nat; split; [reflexivity|]; apply after_nil; exact Hh|].
      destruct (zget (ll_next ll) pid) as [q|] eqn:Eq; [|discriminate]. destruct (chain (ll_next ll) f q) as [l0| |] eqn:El; try discriminate. cbn [rbind] in E. injection E as <-. cbn [map] in ND |- *. apply NoDup_cons_iff in ND as [Hno ND].
      set (s1 := put slot_eqb (put slot_eqb s (Next (off + pid)) h) (Head c) (off + pid)).
      assert (Hs1 : forall m, m <> Head c -> m <> Next (off + pid) -> s1 m = s m) by (intros m Hm Hm'; unfold s1; rewrite !put_there by (exact slot_ok || assumption); reflexivity).
      assert (Hhd : s1 (Head c) = Some (off + pid)) by (unfold s1; apply put_here; exact slot_ok).
      assert (Hnx : s1 (Next (off + pid)) = Some h) by (unfold s1; rewrite put_there by (exact slot_ok || discriminate); apply put_here; exact slot_ok).
      destruct (IH q l0 (off + pid) s1 El ND) as [n Hn1].
      + intros p. rewrite Hs1 by discriminate. apply Hp.
      + exact Hhd.
      + intros p Hpl. rewrite Hs1; [apply Hn; right; exact Hpl|discriminate|]. intros Ep. injection Ep as Ep. apply Hno. rewrite <- Ep. apply in_map_iff. exists p. auto.
      + intros p v Hpl. apply Hw. right. exact Hpl.
      + exists (S (S (S (S n)))). cbn [wp]. exists (S (S (S n))), h. split; [reflexivity|]. split; [exact rd_head|]. split; [exact Hh|]. cbn [wp]. exists (S (S n)). split; [reflexivity|]. split; [apply Hw; left; reflexivity|]. split; [apply Hn; left; reflexivity|].
        cbn [wp]. exists (S n). split; [reflexivity|]. split; [apply wr_head|]. split; [rewrite put_there by (exact slot_ok || discriminate); congruence|]. cbn [wp]. exists n, q. split; [reflexivity|]. split; [apply rd_parts|]. fold s1. split.
        * rewrite Hs1 by discriminate. rewrite Hp. cbn. rewrite Ht. exact Eq.
        * eapply wp_mono; [|exact Hn1]. intros a x Hx. cbv beta in Hx |- *. change (off + pid :: map (fun p => off + p) l0) with ([off + pid] ++ map (fun p => off + p) l0). eapply after_app; [constructor; assumption| |exact Hx].
          apply after_push; auto.
  Qed.

  Variable fuel : nat.
  Lemma chain_after : forall k ps s h, (forall j q, nth_error ps j = Some q -> nth_error parts (k + j) = Some q) ->
    (forall q, In q ps -> exists h', zget (ll_hoc (snd q)) c = Some h' /\ chain (ll_next (snd q)) fuel h' = Done (chain_at (snd q) c)) ->
    NoDup (part_ids ps c) -> (forall t p, s (PartNext t p) = mem ([], []) (PartNext t p) /\ s (PartHead t p) = mem ([], []) (PartHead t p)) -> s (Head c) = Some h ->
    (forall p, In p (part_ids ps c) -> s (Next p) <> None) -> (forall p v, In p (part_ids ps c) -> wr (Next p) v) ->
    exists n, wp slot_eqb rd wr (peach (combine (seq k (length ps)) ps) (fun tp => Get (PartHead (fst tp) c) (walk fuel (fst tp) (fst (snd tp)) c))) n s (fun _ x => after c h (part_ids ps c) s x).
  Proof using rd_head rd_parts wr_head.
    intros k ps. revert k. induction ps as [|[off ll] ps IH]; intros k s h Hidx Hch ND Hp Hh Hn Hw.
    - exists 0%nat. split; [reflexivity|]. apply after_nil. exact Hh.
    - unfold part_ids in *. cbn [flat_map fst snd length seq combine] in *. set (here := map (fun pid => off + pid) (chain_at ll c)) in *. set (rest := flat_map _ ps) in *.
      assert (Hk : nth_error parts k = Some (off, ll)) by (rewrite <- (Nat.add_0_r k); apply Hidx; reflexivity).
      destruct (Hch (off, ll) (or_introl eq_refl)) as (h' & Eh & Ec). cbn [snd] in Eh, Ec.
      destruct (walk_after k off ll fuel Hk h' (chain_at ll c) h s Ec) as [n Hn1].
      + exact (NoDup_app_remove_r _ _ ND).
      + intros p. apply Hp.
      + exact Hh.
      + intros p Hpl. apply Hn. apply in_or_app. left. apply in_map_iff. exists p. auto.
      + intros p v Hpl. apply Hw. apply in_or_app. left. apply in_map_iff. exists p. auto.
      + unfold peach. cbn [pfold]. cbn [fst snd].
        apply (wp_bind slot_eqb rd wr (Get (PartHead k c) (walk fuel k off c)) _ (S n)). cbn [wp]. exists n, h'. split; [reflexivity|]. split; [apply rd_parts|]. split; [rewrite (proj2 (Hp k c)); cbn; rewrite Hk; exact Eh|].
        eapply wp_mono; [|exact Hn1]. intros [] x Hx. cbv beta in Hx. fold here in Hx.
        assert (Hkeep : forall m, m <> Head c -> (forall p, In p here -> m <> Next p) -> x m = s m) by apply Hx.
        destruct (IH (S k) x (fst (pushes h here))) as [n2 Hn2].
        * intros j q Hj. replace (S k + j)%nat with (k + S j)%nat by lia. apply Hidx. exact Hj.
        * intros q Hq. apply Hch. right. exact Hq.
        * exact (NoDup_app_remove_l _ _ ND).
        * intros t p. rewrite !Hkeep by (intros; discriminate). apply Hp.
        * apply Hx.
        * intros p Hpl. rewrite Hkeep; [apply Hn; apply in_or_app; right; exact Hpl|discriminate|]. intros q Hq Eq. injection Eq as <-. exact (NoDup_app_disjoint _ _ p ND Hq Hpl).
        * intros p v Hpl. apply Hw. apply in_or_app. right. exact Hpl.
        * exists n2. eapply wp_mono; [|exact Hn2]. intros b y Hy. cbv beta in Hy |- *. eapply after_app; eassumption.
  Qed.
End Merge.

Section Whole.
  Variables (ll : llist) (parts : list (Z * llist)) (fuel : nat) (st : list Z * list Z).
  Local Notation mem := (slots parts).
  Local Notation ids := (part_ids parts).
  Local Notation start := (ll_hoc ll, ll_next ll).
  Hypothesis Hparts : parts_ok ll 0 (Z.of_nat (length (ll_ps ll))) parts.
  Hypothesis Hfuel : (length (ll_ps ll) <= fuel)%nat.

  Lemma part_in lo hi ps : parts_ok ll lo hi ps -> 0 <= lo -> hi <= Z.of_nat (length (ll_ps ll)) -> forall p, In p ps -> linked (snd p) /\ ll_ndiv (snd p) = ll_ndiv ll /\ (length (ll_ps (snd p)) <= length (ll_ps ll))%nat.
  Proof.
    revert lo. induction ps as [|[off p] r IH]; intros lo H Hlo Hhi q Hq; [destruct Hq|]. cbn [parts_ok] in H. destruct H as (-> & Hl & Hg & Hz & Hr). pose proof (parts_le _ _ _ _ Hr). destruct Hq as [<-|Hq].
    - cbn [snd]. split; [exact Hl|]. split; [apply Hg|]. lia.
    - apply (IH _ Hr ltac:(lia) Hhi q Hq).
  Qed.
  Lemma part_chain c p : 0 <= c < Z.of_nat (D3 ll) -> In p parts -> exists h, zget (ll_hoc (snd p)) c = Some h /\ chain (ll_next (snd p)) fuel h = Done (chain_at (snd p) c).
  Proof.
    intros Hc Hp. destruct (part_in _ _ _ Hparts ltac:(lia) ltac:(lia) p Hp) as (Hl & Hd & Hlen). assert (Hcp : 0 <= c < Z.of_nat (D3 (snd p))) by (unfold D3 in *; rewrite Hd; exact Hc).
    destruct (linked_chain _ c Hl Hcp) as (h & Eh & Ec & _). exists h. split; [exact Eh|]. apply Ec. lia.
  Qed.
  Lemma ids_ok c : 0 <= c < Z.of_nat (D3 ll) -> NoDup (ids c) /\ forall i, In i (ids c) -> 0 <= i < Z.of_nat (length (ll_ps ll)).
  Proof. intros Hc. destruct (part_ids_ok ll c Hc _ _ _ Hparts) as [A B]. split; [exact A|]. intros i Hi. apply B in Hi. lia. Qed.
  Lemma ids_apart c d i : 0 <= c < Z.of_nat (D3 ll) -> 0 <= d < Z.of_nat (D3 ll) -> In i (ids c) -> In i (ids d) -> c = d.
  Proof.
    intros Hc Hd Hi Hj. destruct (part_ids_ok ll c Hc _ _ _ Hparts) as [_ A]. destruct (part_ids_ok ll d Hd _ _ _ Hparts) as [_ B]. apply A in Hi as (_ & x & Ex & Ec). apply B in Hj as (_ & y & Ey & Ed). congruence.
  Qed.
  (** One chain of the sequential loop. *)
  Lemma moved_chain c (a : list Z * list Z) : 0 <= c < Z.of_nat (D3 ll) -> run_each parts (move_chain fuel c) a = of_opt (for_each (ids c) (push c) a).
  Proof.
    intros Hc. unfold part_ids. rewrite <- for_each_flat, <- run_each_of. apply run_each_ext. intros [off p] a' Hp. cbn [fst snd]. destruct (part_chain c (off, p) Hc Hp) as (h & Eh & Ec). cbn [snd] in Eh, Ec.
    unfold move_chain. cbn [fst snd]. rewrite Eh. cbn [of_opt rbind]. rewrite Ec. cbn [rbind]. rewrite for_each_map. reflexivity.
  Qed.
  Lemma all_moved cs : forall a b, NoDup cs -> (forall c, In c cs -> 0 <= c < Z.of_nat (D3 ll)) -> run_each cs (fun c => run_each parts (move_chain fuel c)) a = Done b ->
    (forall c h, In c cs -> zget (fst a) c = Some h -> mem b (Head c) = Some (fst (pushes h (ids c))) /\ forall p v, In (p, v) (snd (pushes h (ids c))) -> mem b (Next p) = Some v) /\
    (forall m, (forall c, In c cs -> m <> Head c /\ forall p, In p (ids c) -> m <> Next p) -> mem b m = mem a m).
  Proof.
    induction cs as [|c cs IH]; intros a b ND Hr E; cbn [run_each] in E; [injection E as <-; split; [intros c h []|reflexivity]|].
    apply NoDup_cons_iff in ND as [Hno ND]. assert (Hc := Hr c (or_introl eq_refl)). rewrite (moved_chain c a Hc) in E. destruct (for_each (ids c) (push c) a) as [a1|] eqn:E1; [|discriminate]. cbn [of_opt rbind] in E.
    destruct (IH a1 b ND (fun d Hd => Hr d (or_intror Hd)) E) as [H1 H2]. destruct (ids_ok c Hc) as [NDi _].
    assert (Hpush : forall l x y, for_each l (push c) x = Some y -> forall m, m <> Head c -> (forall p, In p l -> m <> Next p) -> mem y m = mem x m).
    { induction l as [|p l IHl]; intros x y Ef m Hm Hn; cbn [for_each] in Ef; [injection Ef as <-; reflexivity|]. destruct (push c p x) as [x1|] eqn:Ex; [|discriminate]. rewrite (IHl _ _ Ef m Hm) by (intros q Hq; apply Hn; right; exact Hq).
      unfold push in Ex. destruct (zget (fst x) c) as [h|] eqn:Eh; [|discriminate]. assert (HA : after c h [p] (mem x) (mem x1)). { apply (pushed_after parts c [p] x x1 h); [repeat constructor; intros []|exact Eh|]. cbn [for_each]. unfold push. rewrite Eh. destruct (zupd (snd x) p h); [|discriminate]. destruct (zupd (fst x) c p); [|discriminate]. congruence. }
      apply HA; [exact Hm|]. intros q [<-|[]]. apply Hn. left. reflexivity. }
    specialize (Hpush _ _ _ E1). split.
    - intros d h [<-|Hd] Hh.
      + destruct (pushed_after parts c (ids c) a a1 h NDi Hh E1) as (A1 & A2 & _). split.
        * rewrite H2; [exact A1|]. intros d Hd. split; [intros Ed; injection Ed as <-; contradiction|discriminate].
        * intros p v Hpv. rewrite H2; [apply A2; exact Hpv|]. intros d Hd. split; [discriminate|]. intros q Hq Eq. injection Eq as <-. apply Hno. rewrite (ids_apart c d p Hc (Hr d (or_intror Hd))); [exact Hd| |exact Hq]. apply (in_map fst) in Hpv. rewrite pushes_fst in Hpv. exact Hpv.
      + apply H1; [exact Hd|]. change (mem a1 (Head d) = Some h). rewrite Hpush; [exact Hh| |discriminate]. intros Ed. injection Ed as <-. contradiction.
    - intros m Hm. rewrite H2 by (intros d Hd; apply Hm; right; exact Hd). apply Hpush; apply (Hm c (or_introl eq_refl)).
  Qed.

  Hypothesis Hheads : length (ll_hoc ll) = D3 ll.
  Hypothesis Hnexts : length (ll_next ll) = length (ll_ps ll).
  Variable order : list Z.
  Hypothesis Horder : Permutation order (map Z.of_nat (seq 0 (D3 ll))).
  Hypothesis Erun : run_each order (fun c => run_each parts (move_chain fuel c)) start = Done st.
  Lemma chain_loop : safe_loop slot_eqb race (chain_turns fuel parts (D3 ll)) (mem start) (mem st).
  Proof using All.
    assert (Hord : forall c, In c order <-> 0 <= c < Z.of_nat (D3 ll)).
    { intros c. split; intros H.
      - apply (Permutation_in _ Horder), in_map_iff in H as (k & <- & Hk). apply in_seq in Hk. lia.
      - apply (Permutation_in _ (Permutation_sym Horder)), in_map_iff. exists (Z.to_nat c). split; [lia|apply in_seq; lia]. }
    assert (NDo : NoDup order). { apply (Permutation_NoDup (Permutation_sym Horder)). apply NoDup_map_inj; [intros; lia|apply seq_NoDup]. }
    destruct (all_moved order _ _ NDo (fun c Hc => proj1 (Hord c) Hc) Erun) as [H1 H2].
    set (inr := fun t => (t < D3 ll)%nat). assert (Hin : forall t, inr t -> 0 <= Z.of_nat t < Z.of_nat (D3 ll)) by (unfold inr; intros; lia).
    set (rd := fun (t : nat) m => match m with Head c => c = Z.of_nat t | Next _ => False | _ => True end).
    set (wr := fun (t : nat) m (v : Z) => inr t /\ match m with Head c => c = Z.of_nat t | Next p => In p (ids (Z.of_nat t)) | _ => False end).
    assert (Hone : forall t u m v v', t <> u -> wr t m v -> ~ wr u m v').
    { intros t u m v v' Htu (Ht & A) (Hu & B). destruct m as [c|p| |]; try contradiction; [lia|]. apply Htu. apply Nat2Z.inj. eapply ids_apart; eauto. }
    apply (together_free slot_eqb slot_ok rd wr).
    - intros t p Hp. unfold chain_turns in Hp. rewrite nth_error_map in Hp. destruct (nth_error (seq 0 (D3 ll)) t) as [t'|] eqn:Et; [|discriminate]. injection Hp as <-.
      assert (Ht : inr t) by (unfold inr; apply nth_error_lt in Et; rewrite seq_length in Et; exact Et). rewrite nth_error_nth' with (d := 0%nat) in Et by (rewrite seq_length; exact Ht). rewrite seq_nth in Et by exact Ht. injection Et as <-. cbn [Nat.add].
      assert (Hc := Hin t Ht). destruct (ids_ok _ Hc) as [NDi Hri]. destruct (zget_in_range (ll_hoc ll) (Z.of_nat t)) as [h Hh]; [lia|].
      destruct (chain_after parts (rd t) (wr t) (Z.of_nat t) eq_refl (fun _ _ => conj I I) (fun v => conj Ht eq_refl) fuel 0 parts (mem start) h) as [n Hn].
      + intros j q Hj. exact Hj.
      + intros q Hq. apply part_chain; assumption.
      + exact NDi.
      + intros u q. split; reflexivity.
      + exact Hh.
      + intros p Hp. cbn. destruct (zget_in_range (ll_next ll) p) as [v Hv]; [specialize (Hri p Hp); lia|]. congruence.
      + intros p v Hp. split; [exact Ht|exact Hp].
      + exists n. eapply wp_mono; [|exact Hn]. intros a x (A1 & A2 & _) m v (_ & Hm). destruct (H1 (Z.of_nat t) h (proj2 (Hord _) Hc) Hh) as [B1 B2].
        destruct m as [d|p| |]; try contradiction; [subst d; congruence|]. rewrite <- (pushes_fst (ids (Z.of_nat t)) h) in Hm. apply in_map_iff in Hm as ([p' v'] & Ep & Hpv). cbn in Ep. subst p'. rewrite (A2 _ _ Hpv), (B2 _ _ Hpv). reflexivity.
    - intros t u m v Htu (Ht & A) B. destruct m as [c|p| |]; try contradiction. cbn in B. lia.
    - intros t u m v v' Htu Hw Hw'. exfalso. exact (Hone _ _ _ _ _ Htu Hw Hw').
    - intros m. assert (HLt : length (chain_turns fuel parts (D3 ll)) = D3 ll) by (unfold chain_turns; rewrite map_length, seq_length; reflexivity). rewrite HLt.
      assert (Hm : (exists c, In c order /\ (m = Head c \/ exists p, In p (ids c) /\ m = Next p)) \/ forall c, In c order -> m <> Head c /\ forall p, In p (ids c) -> m <> Next p).
      { destruct m as [c|p|t c|t p].
        - destruct (in_dec Z.eq_dec c order) as [Hc|Hc]; [left; exists c; auto|]. right. intros d Hd. split; [intros E; injection E as <-; contradiction|discriminate].
        - destruct (in_dec Z.eq_dec p (flat_map ids order)) as [Hp|Hp]; [left; apply in_flat_map in Hp as (c & Hc & Hp); exists c; eauto|]. right. intros d Hd. split; [discriminate|]. intros q Hq E. injection E as <-. apply Hp. apply in_flat_map. eauto.
        - right. intros d Hd. split; discriminate.
        - right. intros d Hd. split; discriminate. }
      destruct Hm as [(c & Hc & Hm)|Hm]; [left|right; apply H2; exact Hm]. apply Hord in Hc. exists (Z.to_nat c), 0. split; [lia|]. split; [unfold inr; lia|]. rewrite Z2Nat.id by lia. destruct Hm as [->|(p & Hp & ->)]; auto.
    - exact Hone.
  Qed.
End Whole.
