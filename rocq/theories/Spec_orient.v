(** Specification vocabulary for the calibration properties. *)
From Verif Require Import Model_par Model_geo Spec_geo Model_orient Base.
Local Open Scope R_scope.

(** the six exterior parameters x0 y0 z0 omega phi kappa *)
Definition ext_params (c : calib) : list R :=
  let e := c_ext c in [vx (e_pos e); vy (e_pos e); vz (e_pos e); omega e; phi e; kappa e].
(** the camera c with other exterior parameters and the rotation matrix that belongs to them *)
Definition camera_at (c : calib) (l : list R) : calib :=
  let p i := nth i l 0 in
  mk_calib (mk_ext (V (p 0%nat) (p 1%nat) (p 2%nat)) (p 3%nat) (p 4%nat) (p 5%nat) (mmul (mmul (rot_x (p 3%nat)) (rot_y (p 4%nat))) (rot_z (p 5%nat))))
    (c_int c) (c_glass c) (c_added c) (c_lut c).
(** s added to entry i *)
Definition shift_at (l : list R) (i : nat) (s : R) : list R := firstn i l ++ (nth i l 0 + s) :: skipn (S i) l.
(** the camera with exterior parameter i increased by s *)
Definition moved (c : calib) (i : nat) (s : R) : calib := camera_at c (shift_at (ext_params c) i s).
(** the ten interior and distortion parameters, in the order of the flags of the orientation parameters *)
Definition inner_params (c : calib) : list R :=
  let i := c_int c in let a := c_added c in
  [cc i; xh i; yh i; k1 a; k2 a; k3 a; p1 a; p2 a; scx a; she a].
Definition inner_flags (f : orientpar) : list Z :=
  [op_cc f; op_xh f; op_yh f; op_k1 f; op_k2 f; op_k3 f; op_p1 f; op_p2 f; op_scx f; op_she f].
(** componentwise sum of solution vectors *)
Definition total (i : nat) (betas : list (nat -> R)) : R := fold_right Rplus 0 (map (fun b => b i) betas).
(** point i takes part: it is matched to reference point i and not excluded by the use flag
    (0 all, 1 odd, 2 even, 3 not divisible by three) *)
Definition takes_part (f : orientpar) (pix : list pixel) (i : nat) : Prop :=
  exists xy, nth_error pix i = Some (Z.of_nat i, xy) /\
  (op_use f = 1%Z -> Nat.odd i = true) /\ (op_use f = 2%Z -> Nat.even i = true) /\ (op_use f = 3%Z -> (i mod 3 <> 0)%nat).
(** the exterior parameters of c after the corrections bs *)
Definition corrected (c : calib) (bs : list (nat -> R)) : list R := map (fun i => nth i (ext_params c) 0 + total i bs) (seq 0 6).
(** the linear system for the camera cam: two rows per reference point, the forward differences of
    its image coordinates with respect to the six exterior parameters; right-hand side: the metric
    coordinates of the pixel minus the image coordinates *)
Definition ext_system (mm : mmpar) (cp : cpar) (fix_ : list vec) (pix : list pixel) (dpos dang : R) (cam : calib) (X : list (list R)) (y : list R) : Prop :=
  length X = (2 * length fix_)%nat /\ length y = (2 * length fix_)%nat /\
  forall i P, nth_error fix_ i = Some P -> exists pnr px py x0 y0,
    nth_error pix i = Some (pnr, (px, py)) /\ img_coord P cam mm = Ok (x0, y0) /\
    nth (2 * i) y 0 = (px - IZR (imx_ cp) / 2) * pix_x_ cp - x0 /\ nth (2 * i + 1) y 0 = (IZR (imy_ cp) / 2 - py) * pix_y_ cp - y0 /\
    forall j, (j < 6)%nat -> let s := if (j <? 3)%nat then dpos else dang in
      exists xj yj, img_coord P (moved cam j s) mm = Ok (xj, yj) /\
      nth j (nth (2 * i) X []) 0 = (xj - x0) / s /\ nth j (nth (2 * i + 1) X []) 0 = (yj - y0) / s.

(** ---- the linear system of the full calibration ---- *)
(** the camera with another principal distance, another glass vector *)
Definition cc_moved (c : calib) (s : R) : calib := mk_calib (c_ext c) (mk_int (xh (c_int c)) (yh (c_int c)) (cc (c_int c) + s)) (c_glass c) (c_added c) (c_lut c).
Definition glass_at (c : calib) (g : vec) : calib := mk_calib (c_ext c) (c_int c) g (c_added c) (c_lut c).
(** forward difference quotient of the image coordinates, from (x0, y0) to those in the camera cam' *)
Definition quotient (mm : mmpar) (P : vec) (cam' : calib) (x0 y0 s : R) (dx dy : R) : Prop :=
  exists x y, img_coord P cam' mm = Ok (x, y) /\ dx = (x - x0) / s /\ dy = (y - y0) / s.
(** the two rows (18 entries matter) and right-hand sides of one reference point P seen at pixel (px, py);
    d1, d2: the directions in which the glass is moved, g0 the glass vector before the calibration *)
Definition point_rows (mm : mmpar) (cp : cpar) (tol h drad : R) (g0 d1 d2 : vec) (cam : calib) (P : vec) (px py : R) (rx ry : list R) (ex ey : R) : Prop :=
  exists x0 y0, img_coord P cam mm = Ok (x0, y0) /\
  (let q := correct_brown_affine ((px - IZR (imx_ cp) / 2) * pix_x_ cp) ((IZR (imy_ cp) / 2 - py) * pix_y_ cp) (c_added cam) tol in ex = fst q - x0 /\ ey = snd q - y0) /\
  (forall j, (j < 6)%nat -> let s := if (j <? 3)%nat then h else drad in quotient mm P (moved cam j s) x0 y0 s (nth j rx 0) (nth j ry 0)) /\
  quotient mm P (cc_moved cam h) x0 y0 h (nth 6 rx 0) (nth 6 ry 0) /\
  (let a := c_added cam in let q := x0 * x0 + y0 * y0 in
   firstn 9 (skipn 7 rx) = [scx a; 0; scx a * x0 * q; scx a * x0 * q ^ 2; scx a * x0 * q ^ 3; scx a * (q + 2 * x0 ^ 2); scx a * (2 * x0 * y0);
     x0 * (1 + k1 a * q + k2 a * q ^ 2 + k3 a * q ^ 3) + p1 a * (q + 2 * x0 ^ 2) + 2 * p2 a * x0 * y0; - cos (she a) * y0] /\
   firstn 9 (skipn 7 ry) = [sin (she a); 1; y0 * q; y0 * q ^ 2; y0 * q ^ 3; 2 * x0 * y0; q + 2 * y0 ^ 2; 0; - sin (she a) * y0]) /\
  quotient mm P (glass_at cam (vadd (c_glass cam) (vscale d1 h))) x0 y0 h (nth 16 rx 0) (nth 16 ry 0) /\
  quotient mm P (glass_at cam (vadd g0 (vscale d2 h))) x0 y0 h (nth 17 rx 0) (nth 17 ry 0).
(** the number of unknowns *)
Definition unknowns (fl : orientpar) : nat := if (op_interf fl =? 0)%Z then 16 else 18.
(** us: the indices of the points that take part; c: the camera before the calibration, cam: now *)
Definition full_system (mm : mmpar) (cp : cpar) (tol : R) (fix_ : list vec) (pix : list pixel) (fl : orientpar) (h drad : R) (d1 d2 : vec)
    (us : list nat) (c cam : calib) (X : list (list R)) (y : list R) : Prop :=
  let m := (2 * length us)%nat in let n := unknowns fl in
  length X = (2 * length fix_ + 10)%nat /\ length y = (2 * length fix_ + 10)%nat /\
  (forall j i, nth_error us j = Some i -> exists P px py rx ry ex ey,
     nth_error fix_ i = Some P /\ nth_error pix i = Some (Z.of_nat i, (px, py)) /\
     point_rows mm cp tol h drad (c_glass c) d1 d2 (if (j =? 0)%nat then cam else glass_at cam (c_glass c)) P px py rx ry ex ey /\
     nth (2 * j) X [] = firstn n rx /\ nth (2 * j + 1) X [] = firstn n ry /\ nth (2 * j) y 0 = ex /\ nth (2 * j + 1) y 0 = ey) /\
  (* one row per interior parameter, with a large weight if it is to be kept *)
  (forall i, (i < 10)%nat -> let w := if (nth i (inner_flags fl) 1 =? 0)%Z then 10 ^ 10 else 1 in
     length (nth (m + i) X []) = n /\ (forall k, (k < n)%nat -> nth k (nth (m + i) X []) 0 = if (k =? 6 + i)%nat then w else 0) /\
     nth (m + i) y 0 = if (i <? 3)%nat then 0 else w * (nth i (inner_params c) 0 - nth i (inner_params cam) 0)) /\
  (forall r, (m + 10 <= r)%nat -> nth r y 0 = 0 /\ forall k, nth k (nth r X []) 0 = 0).
(** a correction as it is applied: interior parameters that are not to be estimated are kept *)
Definition applied (fl : orientpar) (b : nat -> R) (i : nat) : R := if (6 <=? i)%nat && (i <? 16)%nat && (nth (i - 6) (inner_flags fl) 1 =? 0)%Z then 0 else b i.
(** the camera c with exterior and interior parameters corrected by bs and the glass vector g *)
Definition calibrated (c : calib) (bs : list (nat -> R)) (g : vec) : calib :=
  let q i := nth i (inner_params c) 0 + total (6 + i) bs in
  let e := camera_at c (corrected c bs) in
  mk_calib (c_ext e) (mk_int (q 1%nat) (q 2%nat) (q 0%nat)) g (mk_addp (q 3%nat) (q 4%nat) (q 5%nat) (q 6%nat) (q 7%nat) (q 8%nat) (q 9%nat)) (c_lut c).
(** the sum over the entries of a row *)
Definition row_sum (row : list R) (b : nat -> R) : R := fold_right Rplus 0 (map (fun k => nth k row 0 * b k) (seq 0 (length row))).
(** the directions of the code: not perpendicular to the glass vector (see C52_directions_refuted) *)
Definition glass_dir1 (g : vec) : vec := vscale (unit_vector (V (2 * vz g - 3 * vx g) (3 * vx g - vz g) (vy g - 2 * vy g))) (vnorm g).
Definition glass_dir2 (g : vec) : vec :=
  let e := V (2 * vz g - 3 * vx g) (3 * vx g - vz g) (vy g - 2 * vy g) in
  vscale (unit_vector (V (vy e * vz g - vz e * vx g) (vz e * vx g - vx e * vz g) (vx e * vy g - vy e * vy g))) (vnorm g).
(** the glass vector after the corrections bs: only the last one counts, if the glass is estimated at all *)
Definition glass_after (fl : orientpar) (c : calib) (bs : list (nat -> R)) : vec :=
  match rev bs with
  | [] => c_glass c
  | b :: _ => if (op_interf fl =? 0)%Z then c_glass c else vadd (vadd (c_glass c) (vscale (glass_dir1 (c_glass c)) (b 16%nat))) (vscale (glass_dir2 (c_glass c)) (b 17%nat))
  end.
