(** Vocabulary for program start. *)
From Coq Require Import List ZArith QArith Bool Ascii String.
From Verif.Model Require Import Config Startup.
Import ListNotations.

(** Every member of the configuration agrees. *)
Definition same_settings (a b : settings) : Prop :=
  (forall p, c_val (s_conf a) p = c_val (s_conf b) p) /\ c_set (s_conf a) = c_set (s_conf b) /\ c_ids (s_conf a) = c_ids (s_conf b) /\
  s_names a = s_names b /\ s_angle2 a = s_angle2 b /\ s_res a = s_res b /\ s_reshalf a = s_reshalf b /\ s_half a = s_half b /\
  s_loaded a = s_loaded b /\ s_G a = s_G b /\ s_H0 a = s_H0 b.
Definition one_line (t : text) : Prop := ~ In nl t.
