(** Specifications for the geometry properties, independent of how the code computes. *)
From Verif Require Import Base Model_geo.
Local Open Scope R_scope.

(** matrix product, elementary rotations about the three axes *)
Definition mmul (a b : mat) : mat :=
  let r v := V (dot v (col1 b)) (dot v (col2 b)) (dot v (col3 b)) in M (r (row1 a)) (r (row2 a)) (r (row3 a)).
Definition rot_x (t : R) : mat := M (V 1 0 0) (V 0 (cos t) (- sin t)) (V 0 (sin t) (cos t)).
Definition rot_y (t : R) : mat := M (V (cos t) 0 (sin t)) (V 0 1 0) (V (- sin t) 0 (cos t)).
Definition rot_z (t : R) : mat := M (V (cos t) (- sin t) 0) (V (sin t) (cos t) 0) (V 0 0 1).
Definition identity3 : mat := M (V 1 0 0) (V 0 1 0) (V 0 0 1).
Definition mdet (m : mat) : R := dot (row1 m) (cross (row2 m) (row3 m)).
Definition orthonormal (m : mat) : Prop :=
  dot (row1 m) (row1 m) = 1 /\ dot (row2 m) (row2 m) = 1 /\ dot (row3 m) (row3 m) = 1 /\
  dot (row1 m) (row2 m) = 0 /\ dot (row1 m) (row3 m) = 0 /\ dot (row2 m) (row3 m) = 0.
(** p lies on the line through v with direction d *)
Definition on_line (v d p : vec) : Prop := exists t, p = vadd v (vscale d t).
(** w is a linear combination of a and b *)
Definition in_plane (a b w : vec) : Prop := exists s t, w = vadd (vscale a s) (vscale b t).
(** Snell's law in vector form between directions s and t at a surface with normal g:
    ns (g x s) = nt (g x t).  With unit vectors: the refracted ray lies in the plane of
    incidence, on the same side of the normal, and ns sin = nt sin. *)
Definition snell (g s t : vec) (ns nt : R) : Prop := vscale (cross g s) ns = vscale (cross g t) nt.
Definition is_unit (v : vec) : Prop := dot v v = 1.
(** the camera does not distort *)
Definition no_distortion : addp := mk_addp 0 0 0 0 0 1 0.
(** only scale and shear *)
Definition affine_only (ap : addp) : Prop := k1 ap = 0 /\ k2 ap = 0 /\ k3 ap = 0 /\ p1 ap = 0 /\ p2 ap = 0.
(** relative radial displacement k1 r^2 + k2 r^4 + k3 r^6 *)
Definition radial_c (ap : addp) (r : R) : R := k1 ap * r ^ 2 + k2 ap * r ^ 4 + k3 ap * r ^ 6.
(** only radial distortion *)
Definition radial_only (ap : addp) : Prop := p1 ap = 0 /\ p2 ap = 0 /\ scx ap = 1 /\ she ap = 0.
(** bound of the derivative of r -> r * radial_c r on [0, B] *)
Definition radial_slope (ap : addp) (B : R) : R := 3 * Rabs (k1 ap) * B ^ 2 + 5 * Rabs (k2 ap) * B ^ 4 + 7 * Rabs (k3 ap) * B ^ 6.
(** direction of the camera ray in world coordinates *)
Definition incoming (camera : vec) (d_m : mat) : vec := mapply d_m (unit_vector camera).
(** a matrix that preserves lengths *)
Definition keeps_length (m : mat) : Prop := forall a, dot (mapply m a) (mapply m a) = dot a a.
(** m m^T = 1 *)
Definition cols_orthonormal (m : mat) : Prop := forall v, mapply m (V (dot (col1 m) v) (dot (col2 m) v) (dot (col3 m) v)) = v.
(** third camera coordinate of a point *)
Definition depth (c : calib) (p : vec) : R := dot (col3 (dm (c_ext c))) (vsub p (e_pos (c_ext c))).
(** refractive index and thickness of the first glass layer *)
Definition first_layer (mm : mmpar) (n d : R) : Prop := nth_error (m_n2 mm) 0 = Some n /\ nth_error (m_d mm) 0 = Some d.
(** all media have the same refractive index, and the number of layers is right *)
Definition same_index (mm : mmpar) : Prop :=
  m_n1 mm <> 0 /\ m_n3 mm = m_n1 mm /\ m_nlay mm = Z.of_nat (length (m_d mm)) /\ exists d, first_layer mm (m_n1 mm) d.
(** one layer, and everything has the refractive index of air *)
Definition single_medium (mm : mmpar) : Prop := m_nlay mm = 1%Z /\ m_n1 mm = 1 /\ m_n3 mm = 1 /\ nth_error (m_n2 mm) 0 = Some 1.
(** pinhole projection of a point that is not level with the camera *)
Definition pinhole (c : calib) (p : vec) : R * R :=
  let v := vsub p (e_pos (c_ext c)) in
  (- cc (c_int c) * dot (col1 (dm (c_ext c))) v / depth c p, - cc (c_int c) * dot (col2 (dm (c_ext c))) v / depth c p).
(** the volume's z limits at x, linear between the two layers *)
Definition lower_z (v : volpar) (x : R) : R := zmin0 v + (zmin1 v - zmin0 v) * ((x - x_lay0 v) / (x_lay1 v - x_lay0 v)).
Definition upper_z (v : volpar) (x : R) : R := zmax0 v + (zmax1 v - zmax0 v) * ((x - x_lay0 v) / (x_lay1 v - x_lay0 v)).
(** the rays of the cameras that see a point, in camera order *)
Inductive rays_seen (mm : mmpar) : list (option (R * R)) -> list calib -> list (vec * vec) -> Prop :=
| no_target cals : rays_seen mm [] cals []
| no_camera targets : rays_seen mm targets [] []
| unseen t cal cals rays : rays_seen mm t cals rays -> rays_seen mm (None :: t) (cal :: cals) rays
| seen x y t cal cals rays : rays_seen mm t cals rays -> rays_seen mm (Some (x, y) :: t) (cal :: cals) (ray_tracing x y cal mm :: rays).
(** all pairs of two different places *)
Fixpoint all_pairs {A} (l : list A) : list (A * A) := match l with [] => [] | a :: t => map (fun b => (a, b)) t ++ all_pairs t end.
Definition mean (l : list R) : R := fold_right Rplus 0 l / INR (length l).
(** the ray that belongs to a pixel *)
Definition pixel_ray (cp : cpar) (tol : R) (c : calib) (px py : R) : vec * vec :=
  let '(x, y) := pixel_to_metric px py (imx_ cp) (imy_ cp) (pix_x_ cp) (pix_y_ cp) in
  let '(x, y) := dist_to_flat x y c tol in
  ray_tracing x y c (mm_ cp).
(** the point is in front of the camera, the glass normal faces the camera *)
Definition in_front (c : calib) (p : vec) : Prop := 0 < cc (c_int c) /\ depth c p < 0 /\ dot (vsub p (e_pos (c_ext c))) (c_glass c) < 0.
(** all rays pass through p *)
Definition meet (rays : list (vec * vec)) (p : vec) : Prop := Forall (fun r => on_line (fst r) (snd r) p) rays.
(** no two rays are parallel *)
Definition non_parallel (rays : list (vec * vec)) : Prop := ForallOrdPairs (fun r q => cross (snd r) (snd q) <> vzero) rays.
(** points 0-1, 2-3, ... are exactly db apart *)
Inductive exact_pairs (db : R) : list (R * vec) -> Prop :=
| ep_nil : exact_pairs db []
| ep_one a : exact_pairs db [a]
| ep_two a b t : vec_diff_norm (snd a) (snd b) = db -> exact_pairs db t -> exact_pairs db (a :: b :: t).
(** x is the minimum of l *)
Definition is_min (x : R) (l : list R) : Prop := In x l /\ forall y, In y l -> x <= y.
(** x is the maximum of l *)
Definition is_max (x : R) (l : list R) : Prop := In x l /\ forall y, In y l -> y <= x.
(** nearest image coordinate *)
Definition clamp (hi x : R) : R := Rmax 0 (Rmin hi x).
(** the eight corners of the displacement box *)
Definition extremes (p : vec) (l : dvlim) : list vec :=
  flat_map (fun dx => flat_map (fun dy => map (fun dz => vadd p (V dx dy dz)) [vz (dvmin l); vz (dvmax l)]) [vy (dvmin l); vy (dvmax l)]) [vx (dvmin l); vx (dvmax l)].
(** table entry of radius index i and depth index j *)
Definition entry (l : lut) (i j : Z) : option R := nth_error (l_data l) (Z.to_nat (i * l_nz l + j)).
(** x and y of the point of the ray at height z *)
Definition at_z (r : vec * vec) (z : R) : R * R := (vx (fst r) + (z - vz (fst r)) * vx (snd r) / vz (snd r), vy (fst r) + (z - vz (fst r)) * vy (snd r) / vz (snd r)).
(** no table *)
Definition empty_lut : lut := mk_lut vzero 0 0 0 [].
(** a simple camera: at height 10 above the origin, looking down through a glass plane at height 1 *)
Definition simple_ext : ext := set_angles (mk_ext (V 0 0 10) 0 0 0 identity3) 0 0 0.
Definition simple_cal : calib := mk_calib simple_ext (mk_int 0 0 1) (V 0 0 1) no_distortion empty_lut.
Definition simple_mm : mmpar := mk_mm 1 1 [1] [1] 1.
Definition simple_cpar : cpar := mk_cpar 2 2 1 1 simple_mm.
Definition deep_vol : volpar := mk_volpar 0 1 (-5) (-5) 0 0.
(** the stored rotation matrix belongs to the stored angles *)
Definition consistent (e : ext) : Prop := dm e = mmul (mmul (rot_x (omega e)) (rot_y (phi e))) (rot_z (kappa e)).
(** (x, y) lies on the segment between a and b *)
Definition on_segment (a b q : R * R) : Prop :=
  exists t, 0 <= t <= 1 /\ fst q = (1 - t) * fst a + t * fst b /\ snd q = (1 - t) * snd a + t * snd b.
(** a single plane plate of refractive index n and thickness d *)
Definition one_plate (mm : mmpar) (n d : R) : Prop := m_nlay mm = 1%Z /\ m_n2 mm = [n] /\ m_d mm = [d].
(** the point straight above or below p, in the direction of the glass normal, at the height of q *)
Definition level_with (g q p : vec) : vec := vadd p (vscale g (dot g q - dot g p)).
