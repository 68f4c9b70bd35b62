(** Specification for C95: how much of a calibration read after a crash is right. *)
From Verif Require Import F64 Model_text Model_corr Model_track Model_io Spec_io Model_par Base.
Local Open Scope Z_scope.

(** [c'] is [c] to the written digits, with the rotation matrix of its own angles *)
Definition same_pose (fsin fcos : f64 -> f64) (c c' : calf) : Prop :=
  Forall2 (to_digits 8) (xf_pos (cf_ext c)) (xf_pos (cf_ext c')) /\ Forall2 (to_digits 8) (xf_ang (cf_ext c)) (xf_ang (cf_ext c')) /\
  exists omega phi kappa, xf_ang (cf_ext c') = [omega; phi; kappa] /\ xf_dm (cf_ext c') = frotation fsin fcos omega phi kappa.
(** the orientation file was cut: the last number that is left may be wrong, numbers after it are missing *)
Definition cut_orientation (fsin fcos : f64 -> f64) (c c' : calf) : Prop :=
  same_pose fsin fcos c c' /\
  length (cf_int c') = 3%nat /\ Forall2 (to_digits 4) (firstn 2 (cf_int c)) (firstn 2 (cf_int c')) /\
  (cf_glass c' <> [] -> Forall2 (to_digits 4) (cf_int c) (cf_int c')) /\
  (length (cf_glass c') <= 3)%nat /\
  let right := (length (cf_glass c') - 1)%nat in Forall2 (to_digits 15) (firstn right (cf_glass c)) (firstn right (cf_glass c')).
(** the orientation file is complete *)
Definition whole_orientation (fsin fcos : f64 -> f64) (c c' : calf) : Prop :=
  same_pose fsin fcos c c' /\ Forall2 (to_digits 4) (cf_int c) (cf_int c') /\ Forall2 (to_digits 15) (cf_glass c) (cf_glass c').
