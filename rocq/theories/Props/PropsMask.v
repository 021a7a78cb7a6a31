(** Property C31: masking of source particles. *)
From Coq Require Import List ZArith QArith Bool Lia Sorting.Permutation.
From Verif.Model Require Import ListMem Mpi Run Hash Subhalo Tracks Nest UpdateTracks Mask.
From Verif.Spec Require Import Members Forest Nesting NestHistory Masking.
From Verif.Proofs Require Import ListMemProofs MpiProofs ListExtra MemberProofs CentralProofs NestProofs NestProofs2 LocalizeProofs HistorySteps HistoryProofs NestFinal GlueProofs GlueTree HaloWork MaskProofs MaskFinal.
From Verif.Props Require Import PropsNest.
Import ListNotations.
Local Open Scope Z_scope.

Lemma exclusive_ext {X R} (a b : list (sub X R)) (m m' : Z -> Prop) below : (forall i, m i <-> m' i) -> exclusive a b m below -> exclusive a b m' below.
Proof.
  intros H [Q1 Q2 Q3 Q4 Q5 Q6]. split.
  - intros i s Hi. apply Q1. apply H. exact Hi.
  - intros i j id Hi Hj. apply Q2; apply H; assumption.
  - intros id. split; intros (i & Hi & Hd); apply H in Hi; [destruct (proj1 (Q3 id) (ex_intro _ i (conj Hi Hd))) as (j & A & B)|destruct (proj2 (Q3 id) (ex_intro _ i (conj Hi Hd))) as (j & A & B)]; exists j; rewrite <- H; auto.
  - intros i j id Hi. apply Q4. apply H. exact Hi.
  - intros i s Hi. apply Q5. apply H. exact Hi.
  - intros i s Hi. apply Q6. apply H. exact Hi.
Qed.

(** C31: after every history, in every order of the threads: masking ends, and for every host its members of more than one
    bound particle hold every id once altogether; no id is lost or added; an id held by a subhalo nested (at any depth)
    inside another, or by any member besides the central, is no longer held by the outer one; the remaining particles keep
    values and order; orphans, field subhalos and new subhalos are untouched; nothing but particle lists changes. *)
Theorem C31_masking : forall (X R H : Type) (before : list (list (sub X R))) (ps : list (@proc X R H)) p order,
  nest_history (H := H) before -> nest_begun before ps -> In p ps -> Permutation order (seq 0 (length (p_halos p))) ->
  exists out, mask_halos (length (p_nested p)) order (tl (p_table p)) (p_heads p) (p_nested p) = Done out /\
    (forall h, (h < length (p_halos p))%nat ->
      exclusive (p_nested p) out (fun i => exists s, zget (p_moved p) i = Some s /\ s_host s = Z.of_nat h)
        (fun i j => (exists d, reach (p_nested p) i (S d) j) \/
                    (exists h' c rest, nth_error (p_table p) (S h') = Some (c :: rest) /\ i = Z.of_nat c /\ exists k, In k rest /\ j = Z.of_nat k))) /\
    (forall i s, nth_error (p_nested p) i = Some s -> (length (p_moved p) <= i)%nat \/ s_host s = -1 -> nth_error out i = Some s) /\
    Forall2 (fun a b => exists kept, b = set_parts kept a) (p_nested p) out.
Proof.
  intros X R H before ps p order HH HB Hp Hord. assert (Hk := Hp). apply In_nth_error in Hk as [k Hk]. destruct (begun_spec before ps (history_ok _ HH) HB) as [H1 _].
  destruct (H1 k p Hk) as (_ & (tn & HN) & Hm & _).
  destruct (mask_halos_spec (p_moved p) (length (p_halos p)) (p_table p) (p_nested p) tn (p_heads p) HN Hm (length (p_nested p)) order (le_n _) Hord) as (out & E & HL & HX & HU & HF).
  exists out. split; [exact E|]. split; [|split; [|exact HF]].
  - intros h Hh. assert (HN' := HN). destruct HN' as (_ & _ & HTL & HTG & _). destruct (nth_error_in_range (p_table p) (S h)) as [g Hg]; [lia|].
    eapply exclusive_ext; [|specialize (HX h g Hg)].
    2:{ destruct HX as [Q1 Q2 Q3 Q4 Q5 Q6]. split; [exact Q1|exact Q2|exact Q3| |exact Q5|exact Q6]. intros i j id Hi Hij. apply Q4; [exact Hi|].
        destruct Hij as [Hd|(h' & c & rest & A & B & k' & C & ->)]; [left; exact Hd|right; exists h', c, rest; split; [exact A|split; [exact B|apply in_zs; exact C]]]. }
    intros i. cbv beta. destruct (HTG _ _ Hg) as [Hin _]. replace (Z.of_nat (S h) - 1) with (Z.of_nat h) in Hin by lia. split.
    + intros Hi. apply in_map_iff in Hi as (j & <- & Hj). apply Hin in Hj as (s & Hs & Es). exists s. rewrite zget_of_nat. auto.
    + intros (s & Hs & Es). pose proof (zget_some _ _ _ Hs). replace i with (Z.of_nat (Z.to_nat i)) in * by lia. rewrite zget_of_nat in Hs. apply in_zs. apply Hin. exists s. auto.
  - intros i s Hs Hc. rewrite HU; [exact Hs|]. eapply unmembered; eauto.
Qed.
Print Assumptions C31_masking.
(** Process 0 of the third snapshot: the central (index 2) was fed with all particles of the halo and loses those of the others. *)
Example C31_witness : nest_history (H := Q) (map p_out sim1) /\ nest_begun (map p_out sim1) sim2 /\
  option_map (fun p => (map (fun s => map fst (s_parts s)) (p_nested p),
      match mask_halos 3 [0%nat] (tl (p_table p)) (p_heads p) (p_nested p) with Done out => map (fun s => map fst (s_parts s)) out | _ => [] end)) (nth_error sim2 0) =
    Some ([[10; 11; 12; 13; 14; 15]; [20; 21; 22]; [30; 11; 12; 13; 14; 15; 16; 17; 18; 19; 20; 21; 22; 23; 24; 25; 26; 27; 28; 29; 10; 31; 32; 33; 34; 35; 36; 37]],
          [[10; 11; 12; 13; 14; 15]; [20; 21; 22]; [30; 16; 17; 18; 19; 23; 24; 25; 26; 27; 28; 29; 31; 32; 33; 34; 35; 36; 37]]).
Proof. split; [apply sim_history|]. split; [apply sim2_run|]. vm_compute. reflexivity. Qed.
