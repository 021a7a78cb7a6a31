(** C74: the records of the catalogue.  C75: the lists of ids in the catalogue. *)
From Coq Require Import List Arith ZArith Bool String Lia.
From Verif.Model Require Import MpiTypes HdfTypes Catalogue.
From Verif.Spec Require Import MpiTypes HdfTypes.
From Verif.Proofs Require Import ListMemProofs ListExtra MpiTypeProofs HdfTypeProofs.
Import ListNotations.
Local Open Scope string_scope.
Local Open Scope nat_scope.
Notation length := List.length.

Lemma type_built b ms p fs offs extent : NoDup (map m_name ms) -> map as_member fs = filter p ms -> laid_out b 0 ms offs extent ->
  insert_members b ms offs extent fs [] = Some (combine fs (keep p ms offs)) /\ laid_out b 0 (map as_member fs) (keep p ms offs) extent /\ NoDup (map f_name fs) /\
  (forall f o, In (f, o) (combine fs (keep p ms offs)) <-> In f fs /\ In (as_member f, o) (combine ms offs)).
Proof.
  intros ND HF HL. pose proof (laid_keep b p _ _ _ _ HL) as HK. pose proof (laid_length b _ _ _ _ HL) as Hlen. rewrite <- HF in HK.
  assert (NDf : NoDup (map f_name fs)).
  { assert (E : map f_name fs = map m_name (map as_member fs)) by (rewrite map_map; reflexivity). rewrite E, HF. clear - ND. induction ms as [|m ms IH]; [constructor|]. cbn [map filter] in *. apply NoDup_cons_iff in ND as [H ND].
    destruct (p m); [|apply IH; exact ND]. cbn [map]. constructor; [|apply IH; exact ND]. intros Hin. apply H. apply in_map_iff in Hin as (x & Ex & Hx). rewrite <- Ex. apply in_map. apply filter_In in Hx. apply Hx. }
  assert (Hin : forall f o, In (f, o) (combine fs (keep p ms offs)) <-> In f fs /\ In (as_member f, o) (combine ms offs)).
  { assert (G : forall (l : list field) (l' : list nat) f o, In (f, o) (combine l l') -> In (as_member f, o) (combine (map as_member l) l')).
    { induction l as [|x l IH]; intros [|y l'] f o H; cbn in *; try contradiction. destruct H as [H|H]; [injection H as -> ->; left; reflexivity|right; apply IH; exact H]. }
    assert (G' : forall (l : list field) (l' : list nat) f o, NoDup (map f_name l) -> In f l -> In (as_member f, o) (combine (map as_member l) l') -> In (f, o) (combine l l')).
    { induction l as [|x l IH]; intros [|y l'] f o NDl Hf H; cbn [map combine In] in *; try contradiction. apply NoDup_cons_iff in NDl as [Hx NDl]. destruct H as [H|H].
      - injection H as _ En _ ->. destruct Hf as [->|Hf]; [left; reflexivity|]. exfalso. apply Hx. rewrite En. apply in_map. exact Hf.
      - right. apply IH; [exact NDl| |exact H]. destruct Hf as [->|Hf]; [|exact Hf]. exfalso. apply Hx. apply in_combine_l in H. apply in_map_iff in H as (z & Ez & Hz). injection Ez as _ En _. rewrite <- En. apply in_map. exact Hz. }
    intros f o. split.
    - intros H. split; [apply (in_combine_l _ _ _ _ H)|]. apply G in H. rewrite HF in H. apply (keep_combine p ms offs _ _ Hlen) in H. apply H.
    - intros [Hf H]. apply G'; [exact NDf|exact Hf|]. rewrite HF. apply (keep_combine p ms offs _ _ Hlen). split; [exact H|]. assert (Hm : In (as_member f) (filter p ms)) by (rewrite <- HF; apply in_map; exact Hf). apply filter_In in Hm. apply Hm. }
  split; [|split; [exact HK|split; [exact NDf|exact Hin]]].
  rewrite (insert_appends b ms offs extent fs (keep p ms offs) 0 [] HK).
  - reflexivity.
  - exact NDf.
  - intros e [].
  - intros f o H. apply Hin in H as [_ H]. apply (offset_in ms offs _ _ ND H).
Qed.
Lemma packed b fs os start extent : laid_out b start (map as_member fs) os extent -> H5Tpack b (combine fs os) = pack b 0 fs.
Proof.
  intros HL. unfold H5Tpack. destruct (sort_ascending b _ _ _ _ HL) as [-> _]. rewrite map_fst_combine; [reflexivity|]. rewrite (laid_length b _ _ _ _ HL), map_length. reflexivity.
Qed.
Definition field_dec (f g : field) : {f = g} + {f <> g}.
Proof. decide equality; [apply (list_eq_dec Nat.eq_dec)|decide equality|apply string_dec]. Defined.
Definition not_id (m : member) : bool := is_number m && negb (m_name m =? "Id")%string.
Lemma subhalo_ok b : NoDup (map m_name (members (subhalo_struct b))) /\ map as_member (subhalo_fields b) = filter is_number (members (subhalo_struct b)).
Proof. split; [apply distinct_ok|]; destruct b as [[|] [|] [|] [|] [|] [|]]; vm_compute; reflexivity. Qed.
Lemma particle_ok b : NoDup (map m_name (members (particle_struct b))) /\ map as_member (particle_fields b) = filter not_id (members (particle_struct b)).
Proof. split; [apply distinct_ok|]; destruct b as [[|] [|] [|] [|] [|] [|]]; vm_compute; reflexivity. Qed.

(** C74: in every build and layout no insertion fails, and the file holds every number of a subhalo exactly once, under its own name,
    with its own type and length, in the order of the structure and without gaps; of a particle, all but the id. *)
Theorem C74_catalogue_fields : forall (b : build),
  (forall offs extent, laid_out b 0 (members (subhalo_struct b)) offs extent -> exists t,
     insert_members b (members (subhalo_struct b)) offs extent (subhalo_fields b) [] = Some t /\
     map as_member (map fst (H5Tpack b t)) = filter is_number (members (subhalo_struct b)) /\ gapless b 0 (H5Tpack b t)) /\
  (forall offs extent, laid_out b 0 (members (particle_struct b)) offs extent -> exists t,
     insert_members b (members (particle_struct b)) offs extent (particle_fields b) [] = Some t /\
     map as_member (map fst (H5Tpack b t)) = filter (fun m => is_number m && negb (m_name m =? "Id")%string) (members (particle_struct b)) /\ gapless b 0 (H5Tpack b t)).
Proof.
  intros b. split; intros offs extent HL.
  - destruct (subhalo_ok b) as [ND HF]. destruct (type_built b _ _ _ _ _ ND HF HL) as (E & HK & _). eexists. split; [exact E|]. rewrite (packed b _ _ _ _ HK), pack_fields. split; [exact HF|apply pack_gapless].
  - destruct (particle_ok b) as [ND HF]. destruct (type_built b _ _ _ _ _ ND HF HL) as (E & HK & _). eexists. split; [exact E|]. rewrite (packed b _ _ _ _ HK), pack_fields. split; [exact HF|apply pack_gapless].
Qed.
Print Assumptions C74_catalogue_fields.

(** ... and a catalogue can be read by the program built in another way, with another layout: numbers that both have arrive,
    converted by HDF5 where their size differs and unchanged where not; all others, and the vectors, are left as they were. *)
Theorem C74_read_back : forall (B : Type) (conv : h5type -> build -> build -> list B -> list B) (b b' : build) offs extent offs' extent' (src dst : list B),
  (forall t l, length l mod csize b (ctype_of t) = 0 -> length (conv t b b' l) = csize b' (ctype_of t) * (length l / csize b (ctype_of t))) ->
  laid_out b 0 (members (subhalo_struct b)) offs extent -> length src = extent ->
  laid_out b' 0 (members (subhalo_struct b')) offs' extent' -> length dst = extent' ->
  exists t t' dst', insert_members b (members (subhalo_struct b)) offs extent (subhalo_fields b) [] = Some t /\
    insert_members b' (members (subhalo_struct b')) offs' extent' (subhalo_fields b') [] = Some t' /\
    read_record conv b b' (H5Tpack b t) (write_record b t src) t' dst = Some dst' /\ length dst' = extent' /\
    forall m' o', In (m', o') (combine (members (subhalo_struct b')) offs') ->
      (forall m o, In (m, o) (combine (members (subhalo_struct b)) offs) -> m_name m = m_name m' -> is_number m' = true -> m = m' /\
         exists ty, ctype_of ty = m_type m /\ part o' (m_size b' m) dst' = (let v := part o (m_size b m) src in if csize b (m_type m) =? csize b' (m_type m) then v else conv ty b b' v)) /\
      (is_number m' = false \/ ~ In (m_name m') (map m_name (members (subhalo_struct b))) -> part o' (m_size b' m') dst' = part o' (m_size b' m') dst).
Proof.
  intros B conv b b' offs extent offs' extent' src dst Hconv HL Hs HL' Hd.
  destruct (subhalo_ok b) as [ND HF]. destruct (subhalo_ok b') as [ND' HF'].
  destruct (type_built b _ _ _ _ _ ND HF HL) as (E & HK & NDf & Hin). destruct (type_built b' _ _ _ _ _ ND' HF' HL') as (E' & HK' & NDf' & Hin').
  set (os := keep is_number (members (subhalo_struct b)) offs) in *. set (qs := keep is_number (members (subhalo_struct b')) offs') in *.
  assert (Hall : forall bb, incl (subhalo_fields bb) (subhalo_fields (mkbuild true true false false true false))).
  { intros bb f Hf. assert (HC : forallb (fun f => if in_dec field_dec f (subhalo_fields (mkbuild true true false false true false)) then true else false) (subhalo_fields bb) = true) by (destruct bb as [i8 r8 [|] th [|] se]; vm_compute; reflexivity).
    rewrite forallb_forall in HC. specialize (HC f Hf). cbn beta in HC. destruct (in_dec field_dec f (subhalo_fields (mkbuild true true false false true false))); [assumption|discriminate]. }
  assert (NDa : NoDup (map f_name (subhalo_fields (mkbuild true true false false true false)))) by (apply distinct_ok; vm_compute; reflexivity).
  assert (Hsame : forall g f, In g (subhalo_fields b') -> In f (subhalo_fields b) -> f_name g = f_name f -> g = f).
  { intros g f Hg Hf En. apply (Hall b') in Hg. apply (Hall b) in Hf. revert g f Hg Hf En. generalize NDa. generalize (subhalo_fields (mkbuild true true false false true false)). clear. induction l as [|x l IH]; intros ND g f Hg Hf En; [destruct Hg|].
    cbn [map] in ND. apply NoDup_cons_iff in ND as [Hx ND]. destruct Hg as [->|Hg], Hf as [->|Hf]; [reflexivity| | |apply IH; assumption]; exfalso; apply Hx; [rewrite En|rewrite <- En]; apply in_map; assumption. }
  destruct (read_ok conv b b' _ os extent src Hconv HK ltac:(lia) NDf _ qs 0 extent' dst HK' Hd Hsame) as (dst' & R1 & R2 & R3 & R4).
  exists (combine (subhalo_fields b) os), (combine (subhalo_fields b') qs), dst'. split; [exact E|]. split; [exact E'|]. split.
  { rewrite (packed b _ _ _ _ HK). unfold write_record. destruct (sort_ascending b _ _ _ _ HK) as [-> _]. exact R1. }
  split; [congruence|]. intros m' o' Hm'.
  assert (Hfield : forall bb m, In m (members (subhalo_struct bb)) -> is_number m = true -> exists f, In f (subhalo_fields bb) /\ as_member f = m).
  { intros bb m Hm Hn. assert (H : In m (map as_member (subhalo_fields bb))) by (rewrite (proj2 (subhalo_ok bb)); apply filter_In; auto). apply in_map_iff in H as (f & Ef & Hf). eauto. }
  split.
  - intros m o Hm En Hn. destruct (Hfield b' m' (in_combine_l _ _ _ _ Hm') Hn) as (g & Hg & Eg).
    assert (Hnum : is_number m = true). { destruct (is_number m) eqn:En'; [reflexivity|exfalso]. 
      assert (Hv : forall bb, forallb (fun x => is_number x || existsb (String.eqb (m_name x)) ["Particles"; "Energies"; "NestedSubhalos"]) (members (subhalo_struct bb)) = true) by (intros [[|] [|] [|] [|] [|] [|]]; vm_compute; reflexivity).
      assert (Hw : forall bb, forallb (fun x => negb (is_number x && existsb (String.eqb (m_name x)) ["Particles"; "Energies"; "NestedSubhalos"])) (members (subhalo_struct bb)) = true) by (intros [[|] [|] [|] [|] [|] [|]]; vm_compute; reflexivity).
      specialize (Hv b). specialize (Hw b'). rewrite forallb_forall in Hv, Hw. specialize (Hv m (in_combine_l _ _ _ _ Hm)). specialize (Hw m' (in_combine_l _ _ _ _ Hm')). cbn beta in Hv, Hw. rewrite En' in Hv. rewrite Hn in Hw. rewrite <- En in Hw. cbn [orb] in Hv. rewrite Hv in Hw. discriminate. }
    destruct (Hfield b m (in_combine_l _ _ _ _ Hm) Hnum) as (f & Hf & Ef). assert (g = f) by (apply Hsame; [exact Hg|exact Hf|]; rewrite <- Eg, <- Ef in En; cbn in En; congruence). subst g.
    subst m. rewrite <- Eg in *. split; [reflexivity|]. exists (f_type f). split; [reflexivity|]. cbn zeta. change (m_type (as_member f)) with (ctype_of (f_type f)).
    rewrite !size_member. apply R3; [apply Hin'|apply Hin]; split; assumption.
  - intros Hout. apply R4. intros g q' Hgq Hgn. apply Hin' in Hgq as [Hg Hgm].
    destruct (in_combine_nth _ _ _ _ Hm') as (u & Hu & Huo). destruct (in_combine_nth _ _ _ _ Hgm) as (v & Hv & Hvo).
    assert (Huv : u <> v).
    { intros ->. assert (m' = as_member g) by congruence. subst m'. destruct Hout as [Hout|Hout]; [unfold is_number in Hout; cbn [as_member m_type] in Hout; destruct (f_type g); discriminate Hout|]. apply Hout. cbn [m_name as_member].
      apply in_map_iff in Hgn as (f & Efn & Hf). rewrite <- Efn. change (f_name f) with (m_name (as_member f)). apply in_map.
      assert (H : In (as_member f) (filter is_number (members (subhalo_struct b)))) by (rewrite <- HF; apply in_map; exact Hf). apply filter_In in H. apply H. }
    assert (Hgap : forall i j mi oi oj, nth_error (members (subhalo_struct b')) i = Some mi -> nth_error offs' i = Some oi -> nth_error offs' j = Some oj -> i < j -> oi + m_size b' mi <= oj).
    { intros i j mi oi oj Hi Hoi Hoj Hij. pose proof (laid_between b' _ _ _ _ _ _ _ HL' Hoi Hoj ltac:(lia)) as G. destruct (j - i) as [|n] eqn:En; [lia|]. rewrite (skipn_cons i _ mi Hi) in G. cbn [firstn] in G. rewrite total_cons in G. lia. }
    destruct (Nat.lt_trichotomy u v) as [H|[H|H]]; [left; apply (Hgap u v m' o' q' Hu Huo Hvo H)|contradiction|right; apply (Hgap v u (as_member g) q' o' Hv Hvo Huo H)].
Qed.
Print Assumptions C74_read_back.

Fixpoint laidb (b : build) (start : nat) (ms : list member) (offs : list nat) (extent : nat) : bool :=
  match ms, offs with [], [] => start <=? extent | m :: ms, o :: offs => (start <=? o) && laidb b (o + m_size b m) ms offs extent | _, _ => false end.
Lemma laidb_ok b : forall ms start offs extent, laidb b start ms offs extent = true -> laid_out b start ms offs extent.
Proof. induction ms as [|m ms IH]; intros start [|o offs] extent H; cbn in *; try discriminate; [apply Nat.leb_le; exact H|]. apply andb_true_iff in H as [H1 H2]. split; [apply Nat.leb_le; exact H1|apply IH; exact H2]. Qed.
(** A catalogue of a DM_ONLY build read by a full one, both with the usual layouts: ids arrive, the counts by type stay. *)
Example C74_witness : exists t t' (dst' : list bool), let b := mkbuild true false true false false false in let b' := mkbuild true false false false true false in
  let offs := natural b 0 (members (subhalo_struct b)) in let offs' := natural b' 0 (members (subhalo_struct b')) in
  laid_out b 0 (members (subhalo_struct b)) offs 400 /\ laid_out b' 0 (members (subhalo_struct b')) offs' 600 /\
  insert_members b (members (subhalo_struct b)) offs 400 (subhalo_fields b) [] = Some t /\ insert_members b' (members (subhalo_struct b')) offs' 600 (subhalo_fields b') [] = Some t' /\
  read_record (fun _ _ _ l => l) b b' (H5Tpack b t) (write_record b t (repeat true 400)) t' (repeat false 600) = Some dst' /\
  firstn 24 dst' = (repeat true 20 ++ repeat false 4)%list.
Proof.
  do 3 eexists. cbn zeta. split; [apply laidb_ok; vm_compute; reflexivity|]. split; [apply laidb_ok; vm_compute; reflexivity|]. split; [vm_compute; reflexivity|]. split; [vm_compute; reflexivity|]. split; [vm_compute; reflexivity|]. vm_compute. reflexivity.
Qed.

(** C75: ids that are not negative survive saving and loading, whether written as signed or unsigned, if HBT_INT8 is set; negative
    ones too if UNSIGNED_LONG_ID_OUTPUT is not; what is stored then is what the model of whole catalogues (C41, [vl_read]) stores. *)
Local Open Scope Z_scope.
Theorem C75_ids_survive : forall (int8 ulong : bool) (buffer : list Z) (len p : nat),
  Forall (fun i => - int_limit int8 <= i < int_limit int8) buffer ->
  (ulong = true -> int8 = true /\ Forall (fun i => 0 <= i) buffer) ->
  ids_to_file int8 ulong buffer len p = vl_read buffer len p /\
  forall l, ids_to_file int8 ulong buffer len p = Some l -> ids_from_file int8 l = l.
Proof.
  intros int8 ulong buffer len p HR HU.
  assert (Hsub : forall i n q, In i (firstn n (skipn q buffer)) -> In i buffer). { intros i n q H. rewrite <- (firstn_skipn q buffer). apply in_app_iff. right. rewrite <- (firstn_skipn n (skipn q buffer)). apply in_app_iff. left. exact H. }
  rewrite Forall_forall in HR.
  assert (E : ids_to_file int8 ulong buffer len p = vl_read buffer len p).
  { unfold ids_to_file, vl_read. destruct ulong; cbn [andb].
    - destruct (HU eq_refl) as [-> HN]. cbn [negb]. rewrite Forall_forall in HN. destruct (p + len <=? length buffer)%nat; [|reflexivity]. f_equal. rewrite <- (map_id (firstn len (skipn p buffer))) at 2. apply map_ext_in. intros i Hi. apply Hsub in Hi.
      specialize (HR i Hi). specialize (HN i Hi). cbn in HR. apply Z.mod_small. lia.
    - reflexivity. }
  split; [exact E|]. intros l Hl. rewrite E in Hl. unfold vl_read in Hl. destruct (p + len <=? length buffer)%nat; [|discriminate]. injection Hl as <-. unfold ids_from_file.
  rewrite <- (map_id (firstn len (skipn p buffer))) at 2. apply map_ext_in. intros i Hi. apply Hsub in Hi. specialize (HR i Hi). lia.
Qed.
Print Assumptions C75_ids_survive.

(** It fails for negative ids (as HBTInt) with UNSIGNED_LONG_ID_OUTPUT: after a restart all of them are the same, 2^63 - 1. *)
Theorem C75_negative_ids_refuted : forall (i : Z), - 2 ^ 63 <= i < 0 -> exists l, ids_to_file true true [i] 1 0 = Some l /\ ids_from_file true l = [2 ^ 63 - 1].
Proof.
  intros i Hi. exists [i mod 2 ^ 64]. split; [reflexivity|]. unfold ids_from_file. cbn [map]. f_equal. replace (i mod 2 ^ 64) with (i + 2 ^ 64); [|apply (Z.mod_unique i (2 ^ 64) (-1)); lia]. unfold int_limit. rewrite Z.min_r by lia. apply Z.max_r. lia.
Qed.
Print Assumptions C75_negative_ids_refuted.
(** ... and without HBT_INT8 every list of ids is taken from twice as many bytes as it has: the last one lies beyond the buffer. *)
Theorem C75_short_ids_refuted : forall (buffer : list Z) (len : nat), (0 < len)%nat ->
  (forall l, length buffer = len -> ids_to_file false true buffer len 0 <> Some l) /\
  forall a c rest, (2 <= len)%nat -> length rest = (len - 2)%nat -> forall l, ids_to_file false true ((a :: c :: rest) ++ buffer) len 0 = Some l -> 0 < a < 2 ^ 31 -> 0 < c < 2 ^ 31 -> hd 0 l = a + 2 ^ 32 * c /\ hd 0 (ids_from_file false l) = 2 ^ 31 - 1.
Proof.
  intros buffer len Hlen. split.
  - intros l Hb. unfold ids_to_file. cbn [andb negb]. destruct (Nat.leb_spec (0 + 2 * len) (length buffer)); [lia|discriminate].
  - intros a c rest H2 Hr l Hl Ha Hc. unfold ids_to_file in Hl. cbn [andb negb] in Hl. destruct (0 + 2 * len <=? length ((a :: c :: rest) ++ buffer))%nat; [|discriminate]. injection Hl as <-.
    cbn [skipn app]. replace (len + (len + 0))%nat with (S (S (2 * len - 2))) by lia. cbn [firstn pairs hd]. unfold ids_from_file. cbn [map hd]. rewrite !Z.mod_small by lia. cbn [int_limit]. split; [reflexivity|]. lia.
Qed.
Print Assumptions C75_short_ids_refuted.
Example C75_witness : exists buffer, Forall (fun i => - int_limit true <= i < int_limit true) buffer /\ Forall (fun i => 0 <= i) buffer /\ ids_to_file true true buffer 2 1 = Some [2 ^ 62; 5].
Proof. exists [7; 2 ^ 62; 5]. split; [repeat constructor; vm_compute; discriminate|]. split; [repeat constructor; vm_compute; discriminate|]. vm_compute. reflexivity. Qed.
