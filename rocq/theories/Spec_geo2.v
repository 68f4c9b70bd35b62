(** Specification for C70: reconstruction of a point from its pixels. *)
From Verif Require Import Base Model_geo Spec_geo.
Local Open Scope R_scope.

(** what point_position is given for a camera that sees p: p is projected to a
    pixel, and the pixel is turned into flat metric coordinates *)
Definition detected (cp : cpar) (tol : R) (p : vec) (c : calib) (target : R * R) : Prop :=
  exists x y, img_coord p c (mm_ cp) = Ok (x, y) /\
    target = let '(u, v) := metric_to_pixel x y (imx_ cp) (imy_ cp) (pix_x_ cp) (pix_y_ cp) in
             let '(a, b) := pixel_to_metric u v (imx_ cp) (imy_ cp) (pix_x_ cp) (pix_y_ cp) in dist_to_flat a b c tol.
(** the lens only scales and shears, and can be inverted *)
Definition affine_lens (c : calib) : Prop := affine_only (c_added c) /\ scx (c_added c) <> 0 /\ cos (she (c_added c)) <> 0.
(** the pairs of a target and its camera, for the cameras that see the point *)
Inductive views : list (option (R * R)) -> list calib -> list (calib * (R * R)) -> Prop :=
| v_no_target cals : views [] cals []
| v_no_camera targets : views targets [] []
| v_unseen t cal cals l : views t cals l -> views (None :: t) (cal :: cals) l
| v_seen xy t cal cals l : views t cals l -> views (Some xy :: t) (cal :: cals) ((cal, xy) :: l).
(** two directions enclose an angle whose sine is at least s *)
Definition apart (s : R) (d d' : vec) : Prop := cross d d' <> vzero /\ s * (vnorm d * vnorm d') <= vnorm (cross d d').
(** the conditions of C68 for one camera and a plate (n2, d), with the error bound e *)
Definition sees_refracted (mm : mmpar) (n2 d e : R) (p : vec) (c : calib) : Prop :=
  let g := unit_vector (c_glass c) in let C := e_pos (c_ext c) in let inner := vnorm (c_glass c) in let outer := inner + d in
  consistent (c_ext c) /\ 0 < cc (c_int c) /\ c_glass c <> vzero /\ outer < dot g C /\ dot g p <= inner /\
  depth c p < 0 /\ depth c (level_with g (vscale g outer) p) < 0 /\
  Rmax (1 / 1000) ((1 - (dot g C - outer) / (dot g C - dot g p)) ^ 41 * vec_diff_norm p (level_with g p C)) <= e.
