(** More of the geometry: the epipolar curve (epi.py), the multimedia look-up table
    (multimed.py init_mmlut) and the set-up of a tracking run (tracking_run.py).
    Real numbers as in Model_geo.v. *)
From Verif Require Import Base Model_geo.
Local Open Scope R_scope.

(** ---- epi.py ---- *)
(** np.linspace(a, b, n) *)
Definition linspace (a b : R) (n : Z) : result (list R) :=
  if (n <? 0)%Z then Exn ValueError else
  if (n =? 1)%Z then Ok [a] else
  Ok (map (fun i => a + IZR i * ((b - a) / IZR (n - 1))) (zrange 0 n)).
(** epi.py:326-388; the tolerance 0.00001 of dist_to_flat is the argument tol;
    np.empty and np.linspace refuse a negative number of points *)
Definition epipolar_curve (px py : R) (cal1 cal2 : calib) (num : Z) (cp : cpar) (v : volpar) (tol : R) : result (list (R * R)) :=
  let '(x, y) := pixel_to_metric px py (imx_ cp) (imy_ cp) (pix_x_ cp) (pix_y_ cp) in
  let '(x, y) := dist_to_flat x y cal1 tol in
  let '(vertex, direct) := ray_tracing x y cal1 (mm_ cp) in
  do zs <- linspace (zmin0 v) (zmax0 v) num;
  foldM (fun acc z =>
    do xy <- img_coord (move_along_ray z vertex direct) cal2 (mm_ cp);
    Ok (acc ++ [metric_to_pixel (fst xy) (snd xy) (imx_ cp) (imy_ cp) (pix_x_ cp) (pix_y_ cp)])) zs [].

(** ---- multimed.py init_mmlut ---- *)
(** np.fmod: the remainder has the sign of x *)
Definition fmod (x m : R) : R := x - IZR (trunc (x / m)) * m.
(** multimed.py:274-289, 291-304: one point of a corner ray; state z_min_t, z_max_t, Rmax.
    cal_t stands at (0, 0, .), so R is the norm of (xyz_t[0], xyz_t[1], 0) *)
Definition lut_point (c : calib) (mm : mmpar) (st : R * R * R) (xyz : vec) : R * R * R :=
  let '(zl, zh, rm) := st in
  let '(p, _, _, _) := trans_cam_point (e_pos (c_ext c)) (d_0 mm) (c_glass c) xyz in
  let zl := if Rlt_dec (vz p) zl then vz p else zl in
  let zh := if Rlt_dec zh (vz p) then vz p else zh in
  let r := vnorm (V (vx p) (vy p) 0) in
  (zl, zh, if Rlt_dec rm r then r else rm).
(** multimed.py:266-304; the corner ray is that of volumedimension (same lines of code) *)
Definition lut_corner (c : calib) (cp : cpar) (tol z_min z_max : R) (st : R * R * R) (ij : bool * bool) : R * R * R :=
  let '(pos, a) := corner_ray cp tol c ij in
  lut_point c (mm_ cp) (lut_point c (mm_ cp) st (move_along_ray z_min pos a)) (move_along_ray z_max pos a).
(** z0 of cal_t: trans_cam_point gives the same for every point *)
Definition lut_z0 (c : calib) (mm : mmpar) : R :=
  let '(_, _, _, z0) := trans_cam_point (e_pos (c_ext c)) (d_0 mm) (c_glass c) vzero in z0.
(** multimed.py:244-333.  min and max of the two layers; cal_t gets a copy of the old
    table description and a zero table of that shape (calibration.py:113-114).
    Simplifications: mmlut_data.shape == (0, 0) is "no table entries"; nr, nz are
    unbounded; np.empty refuses negative sizes. *)
Definition init_mmlut (v : volpar) (cp : cpar) (tol : R) (c : calib) : result calib :=
  let z_min := Rmin (zmin0 v) (zmin1 v) in
  let z_max := Rmax (zmax0 v) (zmax1 v) in
  let z_min := z_min - fmod z_min 2 in
  let z_max := z_max + (2 - fmod z_max 2) in
  let '(zl, zh, rm) := fold_left (lut_corner c cp tol z_min z_max) four_corners (z_min, z_max, 0) in
  let rm := rm + (2 - fmod rm 2) in
  let nr := trunc (rm / 2 + 1) in
  let nz := trunc ((zh - zl) / 2 + 1) in
  let l := c_lut c in
  let with_data d := mk_calib (c_ext c) (c_int c) (c_glass c) (c_added c) (mk_lut (V 0 0 zl) nr nz 2 d) in
  match l_data l with
  | _ :: _ => Ok (with_data (l_data l))
  | [] =>
    if ((nr <? 0) || (nz <? 0))%Z then Exn ValueError else
    let lt := mk_lut (l_origin l) (l_nr l) (l_nz l) (l_rw l) (repeat 0 (Z.to_nat (l_nr l * l_nz l))) in
    do data <- foldM (fun acc i => foldM (fun acc j =>
        do s <- multimed_r_nlay lt (mm_ cp) (V 0 0 (lut_z0 c (mm_ cp))) (V (IZR i * 2) 0 (IZR j * 2 + zl)); Ok (acc ++ [s]))
        (zrange 0 nz) acc) (zrange 0 nr) [];
    Ok (with_data data)
  end.

(** ---- tracking_run.py ---- *)
(** tracking_run.py:72-76; the differences are squared, so the order does not matter *)
Definition run_lmax (l : dvlim) : R :=
  sqrt ((vx (dvmin l) - vx (dvmax l)) ^ 2 + (vy (dvmin l) - vy (dvmax l)) ^ 2 + (vz (dvmin l) - vz (dvmax l)) ^ 2).
(** tracking_run.py:35-38 (ymin = ymax = 0 before), 78-99: the caller's volume parameters
    afterwards, ymin, ymax; num_cams = number of calibrations *)
Definition run_volume (v : volpar) (cp : cpar) (tol : R) (cals : list calib) : volpar * R * R :=
  let '(xmax, xmin, ymax, ymin, z_max, z_min) := volumedimension (x_lay1 v) (x_lay0 v) 0 0 v cp tol cals in
  (mk_volpar xmin xmax z_min (zmin1 v) (zmax0 v) z_max, ymin, ymax).

(** ---- parameters.py MultimediaPar ---- *)
(** parameters.py:63-71: the constructor, __post_init__ checks the lengths *)
Definition new_medium (nlay : Z) (n1 : R) (n2 d : list R) (n3 : R) : result mmpar :=
  if Nat.eqb (length n2) (length d) then Ok (mk_mm nlay n1 n2 d n3) else Exn ValueError.
(** parameters.py:63-67: MultimediaPar() *)
Definition default_medium : mmpar := mk_mm 1 1 [1] [0] 1.
(** parameters.py:101-108: the medium afterwards and the outcome; nlay is not set (108) *)
Definition set_layers (mm : mmpar) (n2 d : list R) : mmpar * result unit :=
  if Nat.eqb (length n2) (length d) then (mk_mm (m_nlay mm) (m_n1 mm) n2 d (m_n3 mm), Ok tt) else (mm, Exn ValueError).
(** parameters.py:81-83 and 89-91 *)
Definition set_n1 (mm : mmpar) (n : R) : mmpar := mk_mm (m_nlay mm) n (m_n2 mm) (m_d mm) (m_n3 mm).
Definition set_n3 (mm : mmpar) (n : R) : mmpar := mk_mm (m_nlay mm) (m_n1 mm) (m_n2 mm) (m_d mm) n.
(** parameters.py:60-108: what a caller can do with a medium *)
Inductive mm_call := SetN1 (n : R) | SetN3 (n : R) | SetLayers (n2 d : list R).
Definition mm_step (mm : mmpar) (x : mm_call) : mmpar :=
  match x with SetN1 n => set_n1 mm n | SetN3 n => set_n3 mm n | SetLayers a b => fst (set_layers mm a b) end.
