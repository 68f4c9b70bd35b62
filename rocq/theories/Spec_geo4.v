(** Specification for C70: reconstruction from image points that are not exact. *)
From Verif Require Import Base Model_geo Spec_geo.
Local Open Scope R_scope.

(** the direction in which a camera looks through its image point (x, y), in world coordinates *)
Definition line_of_sight (c : calib) (xy : R * R) : vec := mapply (dm (c_ext c)) (V (fst xy) (snd xy) (- cc (c_int c))).
(** distance of two image points *)
Definition image_dist (a b : R * R) : R := sqrt ((fst a - fst b) ^ 2 + (snd a - snd b) ^ 2).
(** the camera sees the ball of radius e around p, and the ball is on the far side of
    the plane through the camera that is parallel to the glass *)
Definition faces (c : calib) (p : vec) (e : R) : Prop :=
  consistent (c_ext c) /\ 0 < cc (c_int c) /\ c_glass c <> vzero /\ depth c p < 0 /\
  dot (unit_vector (c_glass c)) (vsub p (e_pos (c_ext c))) + e < 0.
(** an image point that is off the true one by no more than what e is at the depth of p *)
Definition measured (c : calib) (p : vec) (e : R) (xy : R * R) : Prop :=
  - depth c p / cc (c_int c) * image_dist xy (pinhole c p) <= e.
(** distance from the principal point at which the lens sees p *)
Definition lens_radius (c : calib) (p : vec) : R :=
  let '(x, y) := pinhole c p in sqrt ((x + xh (c_int c)) ^ 2 + (y + yh (c_int c)) ^ 2).
(** a lens with radial distortion only, whose distortion grows slowly at the place of p *)
Definition radial_lens (c : calib) (p : vec) : Prop :=
  radial_only (c_added c) /\ exists B, 11 / 10 * lens_radius c p <= B /\ radial_slope (c_added c) B <= / 10.
