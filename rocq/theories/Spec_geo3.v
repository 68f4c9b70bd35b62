(** Specifications for C71 (epipolar curve), C72 (look-up table) and C73 (tracking run). *)
From Verif Require Import Base Model_geo Spec_geo Spec_geo2.
Local Open Scope R_scope.

(** the pixel at which camera c sees p *)
Definition seen_at (cp : cpar) (c : calib) (p : vec) (q : R * R) : Prop :=
  exists x y, img_coord p c (mm_ cp) = Ok (x, y) /\ metric_to_pixel x y (imx_ cp) (imy_ cp) (pix_x_ cp) (pix_y_ cp) = q.
(** height of point k of a curve of n points: equal steps from the lower to the upper limit of the first layer *)
Definition step_z (v : volpar) (n k : nat) : R := zmin0 v + INR k * (zmax0 v - zmin0 v) / INR (n - 1).
(** p lies on the ray *)
Definition on_ray (r : vec * vec) (p : vec) : Prop := on_line (fst r) (snd r) p.

(** height of a point above the inner face of the glass, and its distance from the
    straight line through the camera that is normal to the glass *)
Definition glass_height (c : calib) (p : vec) : R := dot (unit_vector (c_glass c)) p - vnorm (c_glass c).
Definition axis_distance (c : calib) (p : vec) : R :=
  let q := vsub p (e_pos (c_ext c)) in let g := unit_vector (c_glass c) in vnorm (vsub q (vscale g (dot g q))).
(** a point of the measuring volume's slice at x, between the layers *)
Definition in_layers (v : volpar) (z : R) : Prop := Rmin (zmin0 v) (zmin1 v) <= z <= Rmax (zmax0 v) (zmax1 v).
(** the same camera with another table *)
Definition with_lut (c : calib) (l : lut) : calib := mk_calib (c_ext c) (c_int c) (c_glass c) (c_added c) l.
(** displacements within the limits *)
Definition within_limits (l : dvlim) (d : vec) : Prop :=
  vx (dvmin l) <= vx d <= vx (dvmax l) /\ vy (dvmin l) <= vy d <= vy (dvmax l) /\ vz (dvmin l) <= vz d <= vz (dvmax l).
(** the true shift factor of camera c for a point at distance r from its axis and height h above the glass: computed without any table *)
Definition factor (c : calib) (mm : mmpar) (r h f : R) : Prop :=
  multimed_r_nlay empty_lut mm (V 0 0 (glass_height c (e_pos (c_ext c)))) (V r 0 h) = Ok f.
(** a camera whose table has not been computed *)
Definition no_table (c : calib) : Prop := l_nr (c_lut c) = 0%Z /\ l_nz (c_lut c) = 0%Z /\ l_data (c_lut c) = [].
