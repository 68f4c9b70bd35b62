(** Geometry over the real numbers: trafo.py, vec_utils.py, calibration.py
    (rotation), ray_tracing.py, multimed.py, imgcoord.py, epi.py (lines),
    orientation.py (positions), track.py (angle_acc, searchquader).
    Simplification everywhere in this file: binary64 numbers are read as exact
    real numbers (no rounding, overflow, NaN); x/0 and sqrt of a negative number
    are unspecified here, so every theorem excludes them by hypothesis. *)
From Coq Require Export Reals Lra.
From Verif Require Import Base.
Local Open Scope R_scope.

(** ---- vec_utils.py ---- *)
Record vec := V { vx : R; vy : R; vz : R }.
Definition vzero : vec := V 0 0 0.
(** vec_utils.py:36-39, 42-45, 48-51 *)
Definition vsub (a b : vec) : vec := V (vx a - vx b) (vy a - vy b) (vz a - vz b).
Definition vadd (a b : vec) : vec := V (vx a + vx b) (vy a + vy b) (vz a + vz b).
Definition vscale (a : vec) (s : R) : vec := V (vx a * s) (vy a * s) (vz a * s).
(** vec_utils.py:61-65 *)
Definition dot (a b : vec) : R := vx a * vx b + vy a * vy b + vz a * vz b.
(** vec_utils.py:12-15 (also np.linalg.norm of a 3-vector) *)
Definition vnorm (a : vec) : R := sqrt (vx a * vx a + vy a * vy a + vz a * vz a).
(** vec_utils.py:54-58 *)
Definition vec_diff_norm (a b : vec) : R :=
  let v := vsub a b in sqrt (vx v ^ 2 + vy v ^ 2 + vz v ^ 2).
(** vec_utils.py:68-78 (also np.cross) *)
Definition cross (a b : vec) : vec :=
  V (vy a * vz b - vz a * vy b) (vz a * vx b - vx a * vz b) (vx a * vy b - vy a * vx b).
(** vec_utils.py:87-93 *)
Definition unit_vector (a : vec) : vec :=
  let m := vnorm a in if Req_EM_T m 0 then a else V (vx a / m) (vy a / m) (vz a / m).
(** 3x3 matrix, by rows; @ with a vector (ray_tracing.py:76); dm[:, k] (imgcoord.py:52-57) *)
Record mat := M { row1 : vec; row2 : vec; row3 : vec }.
Definition mapply (m : mat) (v : vec) : vec := V (dot (row1 m) v) (dot (row2 m) v) (dot (row3 m) v).
Definition col1 (m : mat) : vec := V (vx (row1 m)) (vx (row2 m)) (vx (row3 m)).
Definition col2 (m : mat) : vec := V (vy (row1 m)) (vy (row2 m)) (vy (row3 m)).
Definition col3 (m : mat) : vec := V (vz (row1 m)) (vz (row2 m)) (vz (row3 m)).

(** ---- calibration.py ---- *)
(** calibration.py:53-63 *)
Record ext := mk_ext { e_pos : vec; omega : R; phi : R; kappa : R; dm : mat }.
(** calibration.py:69 *)
Record inter := mk_int { xh : R; yh : R; cc : R }.
(** calibration.py:72-81, ap[0] .. ap[6] *)
Record addp := mk_addp { k1 : R; k2 : R; k3 : R; p1 : R; p2 : R; scx : R; she : R }.
(** calibration.py:84-91 and the table data *)
Record lut := mk_lut { l_origin : vec; l_nr : Z; l_nz : Z; l_rw : Z; l_data : list R }.
Record calib := mk_calib { c_ext : ext; c_int : inter; c_glass : vec; c_added : addp; c_lut : lut }.
(** calibration.py:11-49 *)
Definition rotation_of (om ph ka : R) : mat :=
  let co := cos om in let so := sin om in let cp := cos ph in let sp := sin ph in let ck := cos ka in let sk := sin ka in
  M (V (cp * ck) (- cp * sk) sp)
    (V (co * sk + so * sp * ck) (co * ck - so * sp * sk) (- so * cp))
    (V (so * sk - co * sp * ck) (so * ck + co * sp * sk) (co * cp)).
Definition rotation_matrix (e : ext) : ext :=
  mk_ext (e_pos e) (omega e) (phi e) (kappa e) (rotation_of (omega e) (phi e) (kappa e)).
(** calibration.py:247-261 *)
Definition set_angles (e : ext) (om ph ka : R) : ext := rotation_matrix (mk_ext (e_pos e) om ph ka (dm e)).
(** calibration.py:227-241 *)
Definition set_pos (e : ext) (p : vec) : ext := mk_ext p (omega e) (phi e) (kappa e) (dm e).

(** ---- trafo.py ---- *)
(** trafo.py:33-42; the image size is an integer *)
Definition pixel_to_metric (x y : R) (imx imy : Z) (pix_x pix_y : R) : R * R :=
  ((x - IZR imx / 2) * pix_x, (IZR imy / 2 - y) * pix_y).
(** trafo.py:92-100 *)
Definition metric_to_pixel (x y : R) (imx imy : Z) (pix_x pix_y : R) : R * R :=
  (x / pix_x + IZR imx / 2, IZR imy / 2 - y / pix_y).
(** x == 0 and y == 0 *)
Definition at_origin (x y : R) : bool := if Req_EM_T x 0 then if Req_EM_T y 0 then true else false else false.
(** trafo.py:135-166; y's terms use the already updated x, as in the code *)
Definition distort_brown_affine (x y : R) (ap : addp) : R * R :=
  if at_origin x y then (0, 0) else
  let r := sqrt (x ^ 2 + y ^ 2) in
  let c := k1 ap * r ^ 2 + k2 ap * r ^ 4 + k3 ap * r ^ 6 in
  let x' := x + (x * c + p1 ap * (r ^ 2 + 2 * x ^ 2) + 2 * p2 ap * x * y) in
  let y' := y + (y * c + p2 ap * (r ^ 2 + 2 * y ^ 2) + 2 * p1 ap * x' * y) in
  (scx ap * x' - sin (she ap) * y', cos (she ap) * y').
(** trafo.py:188-199: the new estimate from estimate (xq, yq) and radius r *)
Definition correct_step (x y : R) (ap : addp) (r xq yq : R) : R * R :=
  let c := k1 ap * r ^ 2 + k2 ap * r ^ 4 + k3 ap * r ^ 6 in
  let xq' := (x + yq * sin (she ap)) / scx ap - xq * c - p1 ap * (r ^ 2 + 2 * xq ^ 2) - 2 * p2 ap * xq * yq in
  let yq' := y / cos (she ap) - yq * c - p2 ap * (r ^ 2 + 2 * yq ^ 2) - 2 * p1 ap * xq' * yq in
  (xq', yq').
(** trafo.py:186-209: the loop; [left] iterations remain (201 at the start).
    Result: last r, rq, xq, yq *)
Fixpoint correct_loop (left : nat) (x y : R) (ap : addp) (tol rq xq yq : R) : R * R * R * R :=
  let r := rq in
  let '(xq', yq') := correct_step x y ap r xq yq in
  let rq1 := sqrt (xq' ^ 2 + yq' ^ 2) in
  let rq' := if Rlt_dec (12 / 10 * r) rq1 then r / 2 else rq1 in
  match left with
  | O => (r, rq', xq', yq')
  | S k => if Rle_dec (Rabs (rq' - r)) (tol * r) then (r, rq', xq', yq') else correct_loop k x y ap tol rq' xq' yq'
  end.
(** trafo.py:169-221; common_term (c) is that of the last iteration *)
Definition correct_brown_affine (x y : R) (ap : addp) (tol : R) : R * R :=
  if at_origin x y then (x, y) else
  let '(r0, r, xq, yq) := correct_loop 200 x y ap tol (sqrt (x ^ 2 + y ^ 2)) x y in
  let c := k1 ap * r0 ^ 2 + k2 ap * r0 ^ 4 + k3 ap * r0 ^ 6 in
  ((x + yq * sin (she ap)) / scx ap - xq * c - p1 ap * (r ^ 2 + 2 * xq ^ 2) - 2 * p2 ap * xq * yq,
   y / cos (she ap) - yq * c - p2 ap * (r ^ 2 + 2 * yq ^ 2) - 2 * p1 ap * xq * yq).
(** trafo.py:224-240 *)
Definition flat_to_dist (x y : R) (c : calib) : R * R :=
  distort_brown_affine (x + xh (c_int c)) (y + yh (c_int c)) (c_added c).
(** trafo.py:243-248 *)
Definition dist_to_flat (x y : R) (c : calib) (tol : R) : R * R :=
  let '(fx, fy) := correct_brown_affine x y (c_added c) tol in (fx - xh (c_int c), fy - yh (c_int c)).

(** ---- ray_tracing.py ---- *)
(** parameters.py:60-71; n2 and d have the same length, at least 1 *)
Record mmpar := mk_mm { m_nlay : Z; m_n1 : R; m_n2 : list R; m_d : list R; m_n3 : R }.
Definition n2_0 (m : mmpar) : R := nth 0 (m_n2 m) 0.
Definition d_0 (m : mmpar) : R := nth 0 (m_d m) 0.
(** ray_tracing.py:62-132.  gd: glass direction, s: ray direction in world coordinates *)
Definition refract (gd s : vec) (na nb : R) : vec :=
  let n := dot s gd in
  let bp := unit_vector (vsub s (vscale gd n)) in
  let p := sqrt (1 - n ^ 2) * na / nb in
  vadd (vscale bp p) (vscale gd (- sqrt (1 - p ^ 2))).
Definition fast_ray_tracing (camera : vec) (d_m : mat) (pp glass : vec) (d n1 n2 n3 : R) : vec * vec :=
  let s := mapply d_m (unit_vector camera) in
  let gd := unit_vector glass in
  let c := vnorm glass + d in
  let dist_cam_glass := dot gd pp - c in
  let sd := if Req_EM_T (dot gd s) 0 then / 1000000 else dot gd s in
  let d1 := - dist_cam_glass / sd in
  let Xb := vadd pp (vscale s d1) in
  let a2 := refract gd s n1 n2 in
  let ad := if Req_EM_T (Rabs (dot gd a2)) 0 then / 1000000 else Rabs (dot gd a2) in
  let d2 := d / ad in
  let X := vadd Xb (vscale a2 d2) in
  (* 117-119: the parallel part is a2 minus the normal part gd * n of a2 *)
  let n := dot s gd in
  let p := sqrt (1 - n ^ 2) * n1 / n2 in
  let bp := unit_vector (vsub a2 (vscale gd (- sqrt (1 - p ^ 2)))) in
  let p' := sqrt (1 - dot a2 gd ^ 2) * n2 / n3 in
  (X, vadd (vscale bp p') (vscale gd (- sqrt (1 - p' ^ 2)))).
(** ray_tracing.py:14-59 *)
Definition ray_tracing (x y : R) (c : calib) (mm : mmpar) : vec * vec :=
  fast_ray_tracing (V x y (- cc (c_int c))) (dm (c_ext c)) (e_pos (c_ext c)) (c_glass c) (d_0 mm) (m_n1 mm) (n2_0 mm) (m_n3 mm).

(** ---- multimed.py ---- *)
(** int() of a real number: truncation toward zero *)
Definition trunc (x : R) : Z := if Rlt_dec x 0 then (- Int_part (- x))%Z else Int_part x.
(** multimed.py:350-392 *)
Definition get_mmf_from_mmlut (l : lut) (pos : vec) : result R :=
  let t := vsub pos (l_origin l) in
  let sz := vz t / IZR (l_rw l) in
  let iz := trunc sz in
  let sz := sz - IZR iz in
  let sr := vnorm (V (vx t) (vy t) 0) / IZR (l_rw l) in
  let ir := trunc sr in
  let sr := sr - IZR ir in
  if (ir >? l_nr l)%Z then Ok 0 else
  if ((iz <? 0) || (iz >? l_nz l))%Z then Ok 0 else
  let v0 := (ir * l_nz l + iz)%Z in let v1 := (ir * l_nz l + (iz + 1))%Z in
  let v2 := ((ir + 1) * l_nz l + iz)%Z in let v3 := ((ir + 1) * l_nz l + (iz + 1))%Z in
  if existsb (fun v => (v <? 0) || (v >? l_nr l * l_nz l))%Z [v0; v1; v2; v3] then Ok 0 else
  do a <- pyget (l_data l) v0; do b <- pyget (l_data l) v1; do c <- pyget (l_data l) v2; do e <- pyget (l_data l) v3;
  Ok (a * (1 - sr) * (1 - sz) + b * (1 - sr) * sz + c * sr * (1 - sz) + e * sr * sz).
(** np.sum *)
Definition rsum (l : list R) : R := fold_right Rplus 0 l.
(** d[1:nlay] *)
Definition layers_from1 (nlay : Z) (d : list R) : list R :=
  skipn 1 (firstn (Z.to_nat (if (nlay <? 0)%Z then Z.max 0 (Z.of_nat (length d) + nlay) else nlay)) d).
(** multimed.py:85-95: one round; returns rdiff *)
Definition nlay_rdiff (mm : mmpar) (z0 zdiff zout r rq : R) : R :=
  let beta1 := atan (rq / zdiff) in
  let beta2 := asin (sin beta1 * m_n1 mm / n2_0 mm) in
  let beta3 := asin (sin beta1 * m_n1 mm / m_n3 mm) in
  let rbeta := (z0 - d_0 mm) * tan beta1 - zout * tan beta3 + rsum (map (fun d => d * tan beta2) (m_d mm)) in
  r - rbeta.
(** multimed.py:84-97: the loop with its current rdiff, at most [left] more rounds *)
Fixpoint nlay_loop (left : nat) (mm : mmpar) (z0 zdiff zout r rdiff rq : R) : R :=
  match left with
  | O => rq
  | S k => if Rlt_dec (/ 1000) (Rabs rdiff) then
             let rdiff := nlay_rdiff mm z0 zdiff zout r rq in nlay_loop k mm z0 zdiff zout r rdiff (rq + rdiff)
           else rq
  end.
(** multimed.py:60-99 *)
Definition fast_multimed_r_nlay (mm : mmpar) (cam pos : vec) : R :=
  let r := sqrt ((vx pos - vx cam) * (vx pos - vx cam) + (vy pos - vy cam) * (vy pos - vy cam)) in
  let zout := vz pos + rsum (layers_from1 (m_nlay mm) (m_d mm)) in
  let zdiff := if Req_EM_T (vz cam - vz pos) 0 then 1 else vz cam - vz pos in
  let rq := nlay_loop 40 mm (vz cam) zdiff zout r (/ 10) r in
  if Req_EM_T r 0 then 1 else rq / r.
(** multimed.py:33 *)
Definition one_medium (mm : mmpar) : bool :=
  if Req_EM_T (m_n1 mm) 1 then if Req_EM_T (n2_0 mm) 1 then if Req_EM_T (m_n3 mm) 1 then (m_nlay mm =? 1)%Z else false else false else false.
(** multimed.py:30-57.  The table of the camera counts if its shape is not (0, 0). *)
Definition multimed_r_nlay (l : lut) (mm : mmpar) (cam pos : vec) : result R :=
  if one_medium mm then Ok 1 else
  do f <- (if negb ((l_nr l =? 0) && (l_nz l =? 0))%Z then get_mmf_from_mmlut l pos else Ok 0);
  Ok (if Rlt_dec 0 f then f else fast_multimed_r_nlay mm cam pos).
(** multimed.py:17-27 *)
Definition multimed_nlay (l : lut) (mm : mmpar) (cam pos : vec) : result (R * R) :=
  do s <- multimed_r_nlay l mm cam pos;
  Ok (vx cam + (vx pos - vx cam) * s, vy cam + (vy pos - vy cam) * s).
(** multimed.py:120-151: pos_t, cross_p, cross_c, z0 *)
Definition trans_cam_point (pp : vec) (d : R) (glass pos : vec) : vec * vec * vec * R :=
  let og := if Req_EM_T (vnorm glass) 0 then 1 else vnorm glass in
  let dc := dot pp glass / og - og - d in
  let dp := dot pos glass / og - og in
  let cross_c := vsub pp (vscale glass (dc / og)) in
  let cross_p := vsub pos (vscale glass (dp / og)) in
  let temp := vsub cross_p (vsub cross_c (vscale glass (d / og))) in
  (V (vnorm temp) 0 dp, cross_p, cross_c, dc + d).
(** multimed.py:179-214 *)
Definition back_trans_point (glass : vec) (d : R) (cross_c cross_p pos_t : vec) : vec :=
  let ng := vnorm glass in
  let after := vsub cross_c (vscale glass (d / ng)) in
  let temp := vsub cross_p after in
  let nt := vnorm temp in
  let pos := vsub after (vscale glass (- vz pos_t / ng)) in
  if Rlt_dec 0 nt then vsub pos (vscale temp (- vx pos_t / nt)) else pos.
(** multimed.py:217-241 (the write to direct[2] is visible to the caller; not needed here) *)
Definition move_along_ray (z : R) (vertex direct : vec) : vec :=
  let dz := if Req_EM_T (vz direct) 0 then 1 else vz direct in
  V (vx vertex + (z - vz vertex) * vx direct / dz) (vy vertex + (z - vz vertex) * vy direct / dz) z.

(** ---- imgcoord.py ---- *)
(** imgcoord.py:51-59: pinhole projection of the apparent position *)
Definition project (c : calib) (pos : vec) : R * R :=
  let e := c_ext c in
  let v := vsub pos (e_pos e) in
  let deno := if Req_EM_T (dot (col3 (dm e)) v) 0 then 1 else dot (col3 (dm e)) v in
  (- cc (c_int c) * dot (col1 (dm e)) v / deno, - cc (c_int c) * dot (col2 (dm e)) v / deno).
(** imgcoord.py:13-60.  cal_t = Calibration(mmlut=cal.mmlut) has position (0, 0, z0) and a
    table of zeros of the same shape (calibration.py:113-114). *)
Definition flat_image_coord (orig : vec) (c : calib) (mm : mmpar) : result (R * R) :=
  let '(pos_t, cross_p, cross_c, z0) := trans_cam_point (e_pos (c_ext c)) (d_0 mm) (c_glass c) orig in
  let l := c_lut c in
  let l0 := mk_lut (l_origin l) (l_nr l) (l_nz l) (l_rw l) (repeat 0 (Z.to_nat (l_nr l * l_nz l))) in
  do xy <- multimed_nlay l0 mm (V 0 0 z0) pos_t;
  let pos := back_trans_point (c_glass c) (d_0 mm) cross_c cross_p (V (fst xy) (snd xy) (vz pos_t)) in
  Ok (project c pos).
(** imgcoord.py:75-91 *)
Definition img_coord (pos : vec) (c : calib) (mm : mmpar) : result (R * R) :=
  do xy <- flat_image_coord pos c mm; Ok (flat_to_dist (fst xy) (snd xy) c).

(** ---- epi.py ---- *)
(** parameters.py, VolumePar *)
Record volpar := mk_volpar { x_lay0 : R; x_lay1 : R; zmin0 : R; zmin1 : R; zmax0 : R; zmax1 : R }.
(** epi.py:89-100 *)
Definition z_limits (v : volpar) (pos : vec) : R * R :=
  (zmin0 v + (vx pos - x_lay0 v) * (zmin1 v - zmin0 v) / (x_lay1 v - x_lay0 v),
   zmax0 v + (vx pos - x_lay0 v) * (zmax1 v - zmax0 v) / (x_lay1 v - x_lay0 v)).
(** epi.py:51-105 *)
Definition epi_mm (xl yl : R) (cal1 cal2 : calib) (mm : mmpar) (v : volpar) : result (R * R * (R * R)) :=
  let '(pos, dir) := ray_tracing xl yl cal1 mm in
  let '(zmin, zmax) := z_limits v pos in
  do a <- flat_image_coord (move_along_ray zmin pos dir) cal2 mm;
  do b <- flat_image_coord (move_along_ray zmax pos dir) cal2 mm;
  Ok (a, b).
(** epi.py:108-153 *)
Definition epi_mm_2D (xl yl : R) (cal1 : calib) (mm : mmpar) (v : volpar) : vec :=
  let '(pos, dir) := ray_tracing xl yl cal1 mm in
  let '(zmin, zmax) := z_limits v pos in
  move_along_ray (/ 2 * (zmin + zmax)) pos dir.

(** ---- orientation.py ---- *)
(** orientation.py:30-49 *)
Definition skew_midpoint (v1 d1 v2 d2 : vec) : R * vec :=
  let perp := cross d1 d2 in
  let scale := dot perp perp in
  let sp := vsub v2 v1 in
  let q1 := dot perp (cross sp d2) in
  let on1 := vadd v1 (V (vx d1 * q1 / scale) (vy d1 * q1 / scale) (vz d1 * q1 / scale)) in
  let q2 := dot perp (cross sp d1) in
  let on2 := vadd v2 (V (vx d2 * q2 / scale) (vy d2 * q2 / scale) (vz d2 * q2 / scale)) in
  (vnorm (vsub on1 on2), vscale (vadd on1 on2) (/ 2)).
(** the rays of the cameras that see the point (orientation.py:85-90); None: COORD_UNUSED *)
Definition rays_of (targets : list (option (R * R))) (cals : list calib) (mm : mmpar) : list (vec * vec) :=
  flat_map (fun tc => match fst tc with
                      | Some (x, y) => [ray_tracing x y (snd tc) mm]
                      | None => []
                      end) (combine targets cals).
(** orientation.py:92-106: all pairs of used cameras, in order *)
Fixpoint pair_results (rays : list (vec * vec)) : list (R * vec) :=
  match rays with
  | [] => []
  | r :: t => map (fun q => skew_midpoint (fst r) (snd r) (fst q) (snd q)) t ++ pair_results t
  end.
(** orientation.py:108-109; no pair: division by zero, point_tot / 0 is a numpy
    division (nan), but dtot /= 0 divides Python floats *)
Definition mean_results (l : list (R * vec)) : result (R * vec) :=
  match l with
  | [] => Exn ZeroDivisionError
  | _ => let n := INR (length l) in
         let s := fold_left (fun s a => vadd s (snd a)) l vzero in
         Ok (fold_left (fun s a => s + fst a) l 0 / n, V (vx s / n) (vy s / n) (vz s / n))
  end.
(** orientation.py:52-111; num_cams cameras *)
Definition point_position (targets : list (option (R * R))) (cals : list calib) (mm : mmpar) : result (R * vec) :=
  mean_results (pair_results (rays_of targets cals mm)).
(** orientation.py:134-137 *)
Definition len_err (db_length : R) (a b : vec) : R :=
  let dist := vnorm (vsub a b) in
  1 - (if Rlt_dec db_length dist then db_length / dist else dist / db_length).
(** orientation.py:114-139: the points come in pairs; an odd last point has no length *)
Fixpoint dumbbell_sums (db_length : R) (pts : list (R * vec)) : R * R :=
  match pts with
  | a :: b :: t => let '(s, l) := dumbbell_sums db_length t in (fst a + fst b + s, len_err db_length (snd a) (snd b) + l)
  | [a] => (fst a, 0)
  | [] => (0, 0)
  end.
Definition dumbbell_precision (pts : list (R * vec)) (db_length db_weight : R) : R :=
  let '(s, l) := dumbbell_sums db_length pts in
  let n := INR (length pts) in
  s / n + db_weight * l / (/ 2 * n).
Fixpoint all_ok {A} (l : list (result A)) : result (list A) :=
  match l with [] => Ok [] | r :: t => do a <- r; do b <- all_ok t; Ok (a :: b) end.
Definition weighted_dumbbell_precision (targets : list (list (option (R * R)))) (mm : mmpar) (cals : list calib) (db_length db_weight : R) : result R :=
  do pts <- all_ok (map (fun t => point_position t cals mm) targets);
  if (length pts =? 0)%nat then Exn ZeroDivisionError else Ok (dumbbell_precision pts db_length db_weight).
(** orientation.py:1027-1065: res is rebound in the loop, so only the last
    position is returned; initially it is an array of num_targets rows *)
Inductive positions := Rows (n : Z) | One (p : vec).
Definition multi_cam_point_positions (targets : list (list (option (R * R)))) (mm : mmpar) (cals : list calib) : result (positions * list R) :=
  foldM (fun st t => let '(_, rcm) := st in do r <- point_position t cals mm; Ok (One (snd r), rcm ++ [fst r]))
    targets (Rows (Z.of_nat (length targets)), []).

(** ---- track.py ---- *)
Definition vneg (a : vec) : vec := V (- vx a) (- vy a) (- vz a).
Definition veq_dec (a b : vec) : {a = b} + {a <> b}.
Proof. decide equality; apply Req_EM_T. Defined.
(** track.py:232-268 *)
Definition angle_acc (start pred cand : vec) : R * R :=
  let v0 := vsub pred start in
  let v1 := vsub cand start in
  let acc := vnorm (vsub v0 v1) in
  if veq_dec v0 (vneg v1) then (200, acc) else
  if veq_dec v0 v1 then (0, acc) else
  (200 / PI * acos (dot v0 v1 / (vnorm (vsub start pred) * vnorm (vsub start cand))), acc).
(** parameters.py TrackPar: displacement limits *)
Record dvlim := mk_dvlim { dvmin : vec; dvmax : vec }.
(** track.py:432-439: corner pt of the displacement box *)
Definition corner (p : vec) (l : dvlim) (pt : Z) : vec :=
  V (vx p + (if Z.testbit pt 0 then vx (dvmax l) else vx (dvmin l)))
    (vy p + (if Z.testbit pt 1 then vy (dvmax l) else vy (dvmin l)))
    (vz p + (if Z.testbit pt 2 then vz (dvmax l) else vz (dvmin l))).
Section Quader.
(** point_to_pixel (track.py:556-577) of one camera: any function *)
Variable to_pixel : vec -> R * R.
Variables imx imy : R.
(** track.py:455-466: state xl, yu, xr, yd *)
Definition widen (st : R * R * R * R) (c : R * R) : R * R * R * R :=
  let '(xl, yu, xr, yd) := st in
  (if Rlt_dec (fst c) xl then fst c else xl, if Rlt_dec (snd c) yu then snd c else yu,
   if Rlt_dec xr (fst c) then fst c else xr, if Rlt_dec yd (snd c) then snd c else yd).
(** track.py:443-483 for one camera: xr, xl, yd, yu *)
Definition searchquader (p : vec) (l : dvlim) : R * R * R * R :=
  let center := to_pixel p in
  let '(xl, yu, xr, yd) := fold_left widen (map (fun pt => to_pixel (corner p l pt)) (zrange 0 8)) (imx, imy, 0, 0) in
  let xl := if Rlt_dec xl 0 then 0 else xl in
  let yu := if Rlt_dec yu 0 then 0 else yu in
  let xr := if Rlt_dec imx xr then imx else xr in
  let yd := if Rlt_dec imy yd then imy else yd in
  (xr - fst center, fst center - xl, yd - snd center, snd center - yu).
End Quader.

(** ---- multimed.py volumedimension ---- *)
Record cpar := mk_cpar { imx_ : Z; imy_ : Z; pix_x_ : R; pix_y_ : R; mm_ : mmpar }.
(** multimed.py:421-430: the ray through corner (i, j) of the image of one camera *)
Definition corner_ray (cp : cpar) (tol : R) (c : calib) (ij : bool * bool) : vec * vec :=
  let '(x, y) := pixel_to_metric (if fst ij then IZR (imx_ cp) else 0) (if snd ij then IZR (imy_ cp) else 0) (imx_ cp) (imy_ cp) (pix_x_ cp) (pix_y_ cp) in
  let '(x, y) := correct_brown_affine (x - xh (c_int c)) (y - yh (c_int c)) (c_added c) tol in
  ray_tracing x y c (mm_ cp).
Definition four_corners : list (bool * bool) := [(false, false); (false, true); (true, false); (true, true)].
(** multimed.py:436-443: state xmax, xmin, ymax, ymin *)
Definition grow (b : R * R * R * R) (xy : R * R) : R * R * R * R :=
  let '(xmax, xmin, ymax, ymin) := b in
  let '(X, Y) := xy in
  (if Rlt_dec xmax X then X else xmax, if Rlt_dec X xmin then X else xmin,
   if Rlt_dec ymax Y then Y else ymax, if Rlt_dec Y ymin then Y else ymin).
(** multimed.py:432-455: note the plus sign in the first point *)
Definition grow_ray (z_min z_max : R) (b : R * R * R * R) (r : vec * vec) : R * R * R * R :=
  let '(pos, a) := r in
  let b := grow b (vx pos + (z_min + vz pos) * vx a / vz a, vy pos + (z_min + vz pos) * vy a / vz a) in
  grow b (vx pos + (z_max - vz pos) * vx a / vz a, vy pos + (z_max - vz pos) * vy a / vz a).
(** multimed.py:395-455; tol: the tolerance default of correct_brown_affine *)
Definition volumedimension (xmax xmin ymax ymin : R) (v : volpar) (cp : cpar) (tol : R) (cals : list calib) : R * R * R * R * R * R :=
  let z_min := if Rlt_dec (zmin1 v) (zmin0 v) then zmin1 v else zmin0 v in
  let z_max := if Rlt_dec (zmax0 v) (zmax1 v) then zmax1 v else zmax0 v in
  let rays := flat_map (fun c => map (corner_ray cp tol c) four_corners) cals in
  let '(xmax, xmin, ymax, ymin) := fold_left (grow_ray z_min z_max) rays (xmax, xmin, ymax, ymin) in
  (xmax, xmin, ymax, ymin, z_max, z_min).
