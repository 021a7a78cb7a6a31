From Coq Require Import List ZArith NArith Bool Lia Arith.
From Coq Require Import ZifyBool ZifyNat ZifyN.
From Verif.Model Require Import Mymath ListMem Mpi Gadget GroupFiles.
From Verif.Model Require Groups.
From Verif.Spec Require Import Basic Gadget GroupFiles.
From Verif.Proofs Require Import MymathProofs MymathProofs2 GadgetProofs GadgetFile.
From Verif.Proofs Require HostProofs ListMemProofs.
Import ListNotations.
Local Open Scope Z_scope.
Ltac Zify.zify_post_hook ::= idtac.

Lemma store32_bytes z : 0 <= z -> store32 (Z.to_N z) = bytes_of_int 4 z.
Proof.
  intros Hz. unfold store32, bytes_of_int. cbn [seq map]. change 255%N with (N.ones 8). rewrite !N.land_ones, !N.shiftr_div_pow2.
  change (2 ^ 8)%N with (Z.to_N 256). change (2 ^ 16)%N with (Z.to_N 65536). change (2 ^ 24)%N with (Z.to_N 16777216). rewrite <- !Z2N.inj_div by lia. rewrite <- !Z2N.inj_mod by (try lia; apply Z.div_pos; lia).
  change (2 ^ (8 * Z.of_nat 0)) with 1. rewrite Z.div_1_r. reflexivity.
Qed.
Lemma int32_bytes z : - 2 ^ 31 <= z < 2 ^ 31 -> int32_of_bytes (bytes_of_int 4 z) = Some z. Proof. apply int32_ok. Qed.
(** Small counts do not read the same in both byte orders. *)
Lemma rev_count n : 0 < n < 2 ^ 16 -> exists ns, int32_of_bytes (rev (bytes_of_int 4 n)) = Some ns /\ ns <> n.
Proof.
  intros Hn. change (2 ^ 16) with 65536 in Hn. unfold bytes_of_int. cbn [seq map rev app int32_of_bytes].
  change (2 ^ (8 * Z.of_nat 0)) with 1. change (2 ^ (8 * Z.of_nat 1)) with 256. change (2 ^ (8 * Z.of_nat 2)) with 65536. change (2 ^ (8 * Z.of_nat 3)) with 16777216.
  eexists. split; [reflexivity|]. rewrite (Z.div_small n 65536), (Z.div_small n 16777216) by lia. rewrite load32_val by (Z.div_mod_to_equations; lia). rewrite !N2Z.inj_add, !N2Z.inj_mul, !Z2N.id by (Z.div_mod_to_equations; lia). change (Z.of_N 256) with 256. change (Z.of_N 65536) with 65536. change (Z.of_N 16777216) with 16777216. change (0 mod 256) with 0.
  match goal with |- (if ?a <? _ then _ else _) <> _ => destruct (Z.ltb_spec a 2147483648) end; Z.div_mod_to_equations; lia.
Qed.
Lemma swap_count n : 0 <= n -> swap_Nbyte 1 4 (store32 (Z.to_N n)) = Some (rev (bytes_of_int 4 n)).
Proof. intros Hn. rewrite store32_bytes by exact Hn. pose proof (swap_Nbyte_correct 4 [bytes_of_int 4 n] []) as H. cbn [length concat map app] in H. rewrite !app_nil_r in H. apply H; [constructor; [apply bytes_of_int_length|constructor]|apply bytes_of_int_bytes]. Qed.
Lemma seek_cur pre b rest off : off = Z.of_nat (length b) -> fseek_cur off (cur pre (b ++ rest)) = Some (cur (pre ++ b) rest).
Proof. intros ->. unfold fseek_cur, cur. cbn [pos bytes]. destruct (Z.ltb_spec (Z.of_nat (length pre) + Z.of_nat (length b)) 0); [lia|]. rewrite app_assoc, app_length. f_equal. f_equal. lia. Qed.
Lemma fread_cur pre b rest n : n = length b -> fread n (cur pre (b ++ rest)) = Some (b, cur (pre ++ b) rest).
Proof. intros ->. unfold cur at 1. rewrite (fread_at pre b rest) by reflexivity. rewrite cur_app. reflexivity. Qed.
Lemma order_app sw a b : in_order sw (a ++ b) = in_order sw a ++ in_order sw b.
Proof. unfold in_order. rewrite map_app, concat_app. reflexivity. Qed.
Lemma order_cons sw a b : in_order sw (a :: b) = stored sw a ++ in_order sw b. Proof. reflexivity. Qed.
Lemma order_nil sw : in_order sw [] = []. Proof. reflexivity. Qed.

Section Files.
  Variable disk : convention -> kind -> Z -> option (list N).
  Variable pattern_count : convention -> Z.
  Variables v3 wide : bool.
  Variable id_mask : Z.
  Variables (sw : bool) (c : convention) (gs : list group_file).
  Hypothesis HS : stored_as disk pattern_count v3 wide sw c gs.
  Hypothesis HV : Forall (valid_group_file v3 wide) gs.
  Hypothesis Hne : gs <> [].
  Hypothesis Hmany : in_parts c = true -> (1 < length gs)%nat.
  Hypothesis Hfew : Z.of_nat (length gs) < 2 ^ 16.
  Let y := mklayout c (Z.of_nat (length gs)) sw.
  Lemma count_eq : (if is_numbered c then pattern_count c else 1) = Z.of_nat (length gs).
  Proof using All. change (is_numbered c) with (in_parts c). destruct HS as (_ & _ & H). destruct (in_parts c); [exact H|]. rewrite H. reflexivity. Qed.
  Lemma byte_order_ok : byte_order disk v3 c (Z.of_nat (length gs)) = Some sw.
  Proof using All.
    assert (Hpos : 0 < Z.of_nat (length gs)) by (destruct gs; [congruence|cbn [length]; lia]). destruct (nth_error gs 0) as [g|] eqn:Eg; [|apply nth_error_None in Eg; lia].
    destruct HS as (_ & H2 & _). destruct (H2 0%nat g Eg) as [D1 _]. change (Z.of_nat 0) with 0 in D1. unfold byte_order. rewrite D1, swap_count by lia. change (mkfile (tab_bytes v3 sw (length gs) (of_subhalos c) g) 0) with (cur [] (tab_bytes v3 sw (length gs) (of_subhalos c) g)).
    assert (E : exists b rest, length b = (if v3 then 20 else 12)%nat /\ tab_bytes v3 sw (length gs) (of_subhalos c) g = b ++ stored sw (bytes_of_int 4 (Z.of_nat (length gs))) ++ rest).
    { unfold tab_bytes, tab_head. rewrite !order_app, <- !app_assoc. eexists _, _. split; [|rewrite (order_cons sw (bytes_of_int 4 (Z.of_nat (length gs)))); cbn [app]; unfold in_order at 2; cbn [map concat app]; rewrite app_nil_r; reflexivity].
      unfold in_order. destruct v3; cbn [map concat]; rewrite ?app_length, ?stored_length, ?bytes_of_int_length; reflexivity. }
    destruct E as (b & rest & Lb & ->). rewrite (seek_cur [] b) by (rewrite Lb; destruct v3; reflexivity). rewrite fread_cur by (rewrite stored_length, bytes_of_int_length; reflexivity).
    destruct (rev_count (Z.of_nat (length gs)) ltac:(lia)) as (ns & Ens & Hns). rewrite Ens. destruct sw; cbn [stored].
    - rewrite Ens. destruct (Z.eqb_spec ns (Z.of_nat (length gs))); [contradiction|]. rewrite Z.eqb_refl. reflexivity.
    - rewrite int32_bytes by lia. rewrite Z.eqb_refl. reflexivity.
  Qed.
  Lemma find_layout_ok : find_layout disk pattern_count v3 = Some y.
  Proof using All.
    assert (E : find (exists_tab disk) [SubNumbered; GroupNumbered; SnapdirNumbered; SubSingle; GroupSingle] = Some c).
    { destruct gs as [|g gr] eqn:Eg; [congruence|]. destruct HS as (H1 & H2 & _). destruct (H2 0%nat g eq_refl) as [D1 _]. change (Z.of_nat 0) with 0 in D1. assert (Hc : exists_tab disk c = true) by (unfold exists_tab; rewrite D1; reflexivity).
      assert (Hb : forall c', In c' (before c) -> exists_tab disk c' = false) by (intros c' Hc'; unfold exists_tab; rewrite (H1 c' Hc'); reflexivity).
      destruct c; cbn [before In] in Hb; cbn [find]; repeat (rewrite Hb by tauto); rewrite Hc; reflexivity. }
    unfold find_layout. rewrite E, count_eq, byte_order_ok. reflexivity.
  Qed.
  Lemma open_group_ok i g k : nth_error gs i = Some g -> open_group disk y k (Z.of_nat i) = Some (cur [] (match k with Tab => tab_bytes v3 sw (length gs) (of_subhalos c) g | Ids => ids_bytes wide sw g end)).
  Proof using All.
    intros E. pose proof HS as (_ & H2 & H3). destruct (H2 i g E) as [D1 D2]. unfold open_group, y. cbn [y_count y_conv]. change (is_numbered c) with (in_parts c). assert (i < length gs)%nat by (apply nth_error_Some; congruence).
    destruct (in_parts c) eqn:En.
    - specialize (Hmany eq_refl). destruct (Z.ltb_spec 1 (Z.of_nat (length gs))); [|lia]. destruct k; [rewrite D1|rewrite D2]; reflexivity.
    - rewrite H3. change (1 <? Z.of_nat 1) with false. assert (i = 0)%nat by lia. subst i. change (Z.of_nat 0) with 0 in *. cbn iota. destruct k; [rewrite D1, H3|rewrite D2]; reflexivity.
  Qed.
  Lemma read_tab_ok i g : nth_error gs i = Some g -> exists pre,
    read_tab disk v3 y (Z.of_nat i) = Some (length (g_lens g), length (g_ids g), cur pre (in_order sw (map (fun n => bytes_of_int 4 (Z.of_nat n)) (g_lens g)) ++ in_order sw (map (bytes_of_int 4) (g_offsets g)) ++ g_rest g)).
  Proof using All.
    intros E. unfold read_tab. rewrite (open_group_ok i g Tab E). unfold y. cbn [y_swap y_conv y_count].
    assert (Vg : valid_group_file v3 wide g) by (rewrite Forall_forall in HV; apply HV, (nth_error_In _ _ E)). destruct Vg as (V1 & V2 & V3 & V4 & V5 & V6 & V7 & V8).
    inversion V6 as [|? ? A1 V6']; inversion V6' as [|? ? A2 V6'']; inversion V6'' as [|? ? A3 _]; subst. unfold int_range in *. clear V6 V6' V6''.
    unfold tab_bytes, tab_head. rewrite !order_app, <- !app_assoc. set (rest := in_order sw (map (fun n => bytes_of_int 4 (Z.of_nat n)) (g_lens g)) ++ _).
    assert (EF : forall pre b, fread_swap 8 1 sw (cur pre (stored sw (bytes_of_int 8 (g_tot_ids g)) ++ b)) = Some (bytes_of_int 8 (g_tot_ids g), cur (pre ++ stored sw (bytes_of_int 8 (g_tot_ids g))) b)).
    { intros pre b. pose proof (fread_swap_cur pre [bytes_of_int 8 (g_tot_ids g)] b sw 8) as H. cbn [length map concat] in H. rewrite !app_nil_r in H. apply H. constructor; [apply int_word|constructor]. }
    change (is_sub c) with (of_subhalos c); destruct v3, (of_subhalos c); rewrite ?order_cons, ?order_nil; cbn [app]; rewrite <- ?app_assoc; cbn [app]; rewrite ?read_int_cur by lia; rewrite ?EF; cbn iota beta; rewrite ?read_int_cur by lia; cbn iota beta;
      rewrite Z.eqb_refl; (destruct (Z.leb_spec 0 (Z.of_nat (length (g_lens g)))); [|lia]); (destruct (Z.leb_spec 0 (Z.of_nat (length (g_ids g)))); [|lia]); cbn [andb]; rewrite !Nat2Z.id; eexists; reflexivity.
  Qed.
  Lemma read_lens_ok i g : nth_error gs i = Some g -> read_lens disk v3 y (Z.of_nat i) = Some (g_lens g).
  Proof using All.
    intros E. destruct (read_tab_ok i g E) as (pre & ET). unfold read_lens. rewrite ET. unfold y. cbn [y_swap].
    assert (Vg : valid_group_file v3 wide g) by (rewrite Forall_forall in HV; apply HV, (nth_error_In _ _ E)). destruct Vg as (V1 & V2 & V3 & V4 & V5 & V6 & V7 & V8). rewrite Forall_forall in V3, V5.
    rewrite <- (map_map Z.of_nat (bytes_of_int 4)). rewrite <- (map_length Z.of_nat (g_lens g)) at 1. unfold in_order at 1. rewrite read_ints_cur by (intros z Hz; apply in_map_iff in Hz as (n & <- & Hn); apply int32_bytes; specialize (V3 n Hn); lia).
    cbn iota beta. rewrite <- V4 at 1. unfold in_order. rewrite read_ints_cur by (intros z Hz; apply int32_bytes; apply (V5 z Hz)). cbn iota beta.
    assert (EB : forallb (fun n => 0 <=? n) (map Z.of_nat (g_lens g)) = true). { apply forallb_forall. intros z Hz. apply in_map_iff in Hz as (n & <- & _). lia. } rewrite EB, map_map. f_equal. rewrite <- (map_id (g_lens g)) at 2. apply map_ext. intros n. lia.
  Qed.
  Lemma mask_ok z : mask_id wide id_mask z = masked wide id_mask z.
  Proof using All.
    unfold mask_id, masked, to_int32. destruct wide; [reflexivity|]. change (2 ^ 32) with 4294967296. change (2 ^ 31) with 2147483648.
    destruct (Z.eqb_spec ((id_mask + 2147483648) mod 4294967296 - 2147483648) 0), (Z.eqb_spec (id_mask mod 4294967296) 0); try reflexivity; exfalso; Z.div_mod_to_equations; lia.
  Qed.
  Lemma read_ids_ok i g start stop : nth_error gs i = Some g ->
    read_ids disk v3 wide id_mask false y (Z.of_nat i) start stop = Groups.read_slice (masked wide id_mask) (g_ids g) start stop.
  Proof using All.
    intros E. destruct (read_tab_ok i g E) as (pre & ET). unfold read_ids. rewrite ET, (open_group_ok i g Ids E). unfold y. cbn [y_swap].
    assert (Vg : valid_group_file v3 wide g) by (rewrite Forall_forall in HV; apply HV, (nth_error_In _ _ E)). destruct Vg as (V1 & V2 & V3 & V4 & V5 & V6 & V7 & V8). rewrite Forall_forall in V7.
    unfold ids_bytes. rewrite seek_cur by (rewrite V8; destruct v3; reflexivity). cbn [app]. unfold Groups.read_slice. set (e := match stop with None => length (g_ids g) | Some e => e end). cbn zeta.
    destruct (Nat.ltb_spec (length (g_ids g)) e) as [H|H]; [destruct (Nat.leb_spec e (length (g_ids g))); [lia|reflexivity]|]. destruct (Nat.leb_spec e (length (g_ids g))); [|lia]. destruct (Nat.ltb_spec e start) as [H'|H']; [destruct (Nat.leb_spec start e); [lia|reflexivity]|]. destruct (Nat.leb_spec start e); [|lia]. cbn [orb andb].
    change (if wide then 8%nat else 4%nat) with (id_size wide).
    set (A := firstn start (g_ids g)). set (B := firstn (e - start) (skipn start (g_ids g))). set (C := skipn e (g_ids g)).
    assert (EABC : g_ids g = A ++ B ++ C). { unfold A, B, C. rewrite <- (firstn_skipn start (g_ids g)) at 1. f_equal. rewrite <- (firstn_skipn (e - start) (skipn start (g_ids g))) at 1. f_equal. rewrite ListMemProofs.skipn_skipn. f_equal. lia. }
    assert (LA : length A = start) by (unfold A; rewrite firstn_length; lia). assert (LB : length B = (e - start)%nat) by (unfold B; rewrite firstn_length, skipn_length; lia). assert (LC : length C = (length (g_ids g) - e)%nat) by (unfold C; rewrite skipn_length; lia).
    assert (HW : forall l, Forall (word (id_size wide)) (map (bytes_of_int (id_size wide)) l)) by (intros l; apply Forall_forall; intros b Hb; apply in_map_iff in Hb as (z & <- & _); apply int_word).
    assert (HL : forall l, length (in_order sw (map (bytes_of_int (id_size wide)) l)) = (length l * id_size wide)%nat) by (intros l; unfold in_order; rewrite (stored_len sw (id_size wide)) by apply (words_all _ _ (HW l)); rewrite map_length; reflexivity).
    rewrite EABC at 1. rewrite !map_app, !order_app. rewrite seek_cur by (rewrite HL, LA; lia).
    rewrite <- LB at 1. rewrite <- (map_length (bytes_of_int (id_size wide)) B) at 1. rewrite fread_swap_cur by apply HW. rewrite <- LB at 1. rewrite <- (map_length (bytes_of_int (id_size wide)) B) at 1. rewrite members_concat by apply (words_all _ _ (HW B)).
    rewrite mapM_dec.
    2:{ intros z Hz. assert (Hin : In z (g_ids g)) by (rewrite EABC; apply in_or_app; right; apply in_or_app; left; exact Hz). specialize (V7 z Hin). unfold id_of_bytes, id_size. destruct wide; [apply int64_ok; exact V7|apply int32_bytes; exact V7]. }
    rewrite <- (app_nil_r (in_order sw (map (bytes_of_int (id_size wide)) C))). rewrite seek_cur by (rewrite HL, LC; lia). unfold cur. cbn [pos bytes]. rewrite app_nil_r, Z.eqb_refl. cbn [negb orb]. f_equal. apply map_ext. intros z. apply mask_ok.
  Qed.
  Lemma range_gs {A} (f : Z -> option A) (h : group_file -> A) : (forall i g, nth_error gs i = Some g -> f (Z.of_nat i) = Some (h g)) -> mapM f (range 0 (Z.of_nat (length gs))) = Some (map h gs).
  Proof using All.
    intros H. unfold range. rewrite Z.sub_0_r, Nat2Z.id. assert (G : forall l k, (forall i g, nth_error l i = Some g -> nth_error gs (k + i) = Some g) -> mapM f (map (fun k => 0 + Z.of_nat k) (seq k (length l))) = Some (map h l)).
    { induction l as [|g l IH]; intros k Hl; [reflexivity|]. cbn [length seq map mapM]. rewrite Z.add_0_l. rewrite (H k g) by (rewrite <- (Nat.add_0_r k); apply Hl; reflexivity). rewrite IH; [reflexivity|]. intros i x Hi. replace (S k + i)%nat with (k + S i)%nat by lia. apply Hl. exact Hi. }
    apply G. intros i g Hi. exact Hi.
  Qed.
  Lemma mapM_mono {A B} (f f' : A -> option B) l r : (forall x z, f' x = Some z -> f x = Some z) -> mapM f' l = Some r -> mapM f l = Some r.
  Proof using All. intros H. revert r. induction l as [|x l IH]; intros r E; [exact E|]. cbn [mapM] in *. destruct (f' x) as [z|] eqn:Ex; [|discriminate]. destruct (mapM f' l) as [zs|]; [|discriminate]. rewrite (H x z Ex), (IH zs eq_refl). exact E. Qed.
  Lemma load_bytes W out : Groups.load_groups (masked wide id_mask) W (concat (map g_lens gs)) (map g_ids gs) = Some out -> load disk pattern_count v3 wide id_mask false W = Some out.
  Proof using All.
    intros HO. unfold load. rewrite find_layout_ok. change (y_count y) with (Z.of_nat (length gs)).
    assert (EM : exists metas, mapM (read_tab disk v3 y) (range 0 (Z.of_nat (length gs))) = Some metas /\ map (fun m => let '(_, n, _) := m in n) metas = map (@length Z) (map g_ids gs)).
    { unfold range. rewrite Z.sub_0_r, Nat2Z.id. assert (G : forall l k, (forall i g, nth_error l i = Some g -> nth_error gs (k + i) = Some g) -> exists metas, mapM (read_tab disk v3 y) (map (fun k => 0 + Z.of_nat k) (seq k (length l))) = Some metas /\ map (fun m => let '(_, n, _) := m in n) metas = map (@length Z) (map g_ids l)).
      { induction l as [|g l IH]; intros k Hl; [exists []; split; reflexivity|]. cbn [length seq map mapM]. rewrite Z.add_0_l. destruct (read_tab_ok k g) as (pre & ET); [rewrite <- (Nat.add_0_r k); apply Hl; reflexivity|]. rewrite ET. destruct (IH (S k)) as (ms & E1 & E2). { intros i x Hi. replace (S k + i)%nat with (k + S i)%nat by lia. apply Hl. exact Hi. } rewrite E1. eexists. split; [reflexivity|]. cbn [map]. rewrite E2. reflexivity. }
      apply G. intros i g Hi. exact Hi. }
    destruct EM as (metas & EM & EN). rewrite EM, EN. rewrite (range_gs _ g_lens) by apply read_lens_ok. cbn zeta. unfold Groups.load_groups in HO. destruct (Nat.eqb _ _); [|discriminate].
    destruct (Groups.assign_tasks _ _ _ _ _) as [ts|]; [|discriminate]. revert HO. apply mapM_mono. intros t r. unfold load_rank, Groups.load_rank. destruct (Nat.leb _ _); [|discriminate].
    destruct (Groups.read_particles (masked wide id_mask) (map g_ids gs) t) as [b|] eqn:EP; [|discriminate]. unfold Groups.read_particles in EP. destruct (mapM _ _) as [l|] eqn:El in EP; [|discriminate]. injection EP as <-.
    assert (ER : read_particles disk v3 wide id_mask false y t = Some (concat l)).
    { unfold read_particles. match goal with |- match mapM ?f ?q with _ => _ end = _ => assert (EF : mapM f q = Some l) end; [|rewrite EF; reflexivity]. revert El. apply mapM_mono. intros i z Hz. cbv beta in Hz. rewrite nth_error_map in Hz. destruct (nth_error gs i) as [g|] eqn:Eg; [|discriminate]. cbn [option_map] in Hz. rewrite (read_ids_ok i g _ _ Eg). exact Hz. }
    rewrite ER. intros H. exact H.
  Qed.
End Files.
