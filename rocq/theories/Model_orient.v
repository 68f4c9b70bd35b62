(** Calibration: orientation.py (num_deriv_exterior, orient, raw_orient,
    full_calibration, external_calibration, single camera positions).
    Over the real numbers like Model_geo.v.  The linear least squares solver
    (scipy.linalg.lstsq) is an arbitrary function that may also fail.
    Not modelled: print output; sigmabeta (error estimates, 577-606) is in Model_est.v. *)
From Verif Require Import Model_par Model_geo Base.
Local Open Scope R_scope.

(** assignment to one part of a calibration object (calibration.py:94-137) *)
Definition with_ext (c : calib) (e : ext) : calib := mk_calib e (c_int c) (c_glass c) (c_added c) (c_lut c).
Definition with_int (c : calib) (i : inter) : calib := mk_calib (c_ext c) i (c_glass c) (c_added c) (c_lut c).
Definition with_glass (c : calib) (g : vec) : calib := mk_calib (c_ext c) (c_int c) g (c_added c) (c_lut c).
Definition with_added (c : calib) (a : addp) : calib := mk_calib (c_ext c) (c_int c) (c_glass c) a (c_lut c).
(** calibration.py:217-219 *)
Definition update_rot (c : calib) : calib := with_ext c (rotation_matrix (c_ext c)).
(** calibration.py:202-215 with attr_name = var[pd], var = x0 y0 z0 omega phi kappa (orientation.py:174) *)
Definition bump (pd : nat) (s : R) (c : calib) : calib :=
  let e := c_ext c in let p := e_pos e in
  with_ext c (match pd with
    | 0%nat => mk_ext (V (vx p + s) (vy p) (vz p)) (omega e) (phi e) (kappa e) (dm e)
    | 1%nat => mk_ext (V (vx p) (vy p + s) (vz p)) (omega e) (phi e) (kappa e) (dm e)
    | 2%nat => mk_ext (V (vx p) (vy p) (vz p + s)) (omega e) (phi e) (kappa e) (dm e)
    | 3%nat => mk_ext p (omega e + s) (phi e) (kappa e) (dm e)
    | 4%nat => mk_ext p (omega e) (phi e + s) (kappa e) (dm e)
    | _ => mk_ext p (omega e) (phi e) (kappa e + s) (dm e)
    end).
Definition add_cc (s : R) (c : calib) : calib := with_int c (mk_int (xh (c_int c)) (yh (c_int c)) (cc (c_int c) + s)).

(** code that changes the calibration and may raise: the calibration is changed also when it raises *)
Definition St (A : Type) := calib -> calib * result A.
Definition sret {A} (a : A) : St A := fun c => (c, Ok a).
Definition sraise {A} (e : exn) : St A := fun c => (c, Exn e).
Definition sbind {A B} (m : St A) (k : A -> St B) : St B :=
  fun c => let '(c', r) := m c in match r with Ok a => k a c' | Exn e => (c', Exn e) end.
Definition smod (f : calib -> calib) : St unit := fun c => (f c, Ok tt).
Definition sget : St calib := fun c => (c, Ok c).
Definition slift {A} (r : result A) : St A := fun c => (c, r).
Notation "'sdo' x <- m ;; k" := (sbind m (fun x => k)) (at level 200, x name, m at level 100, k at level 200, right associativity).
Notation "'sdo_' m ;; k" := (sbind m (fun _ => k)) (at level 200, m at level 100, k at level 200, right associativity).

Section Orient.
Variable mm : mmpar.
Variable cp : cpar.
Variable tol : R.                                   (* tolerance of correct_brown_affine *)
Variable lstsq : list (list R) -> list R -> result (nat -> R).   (* the solution vector, by index *)

Definition simg (pos : vec) : St (R * R) := fun c => (c, img_coord pos c mm).

(** orientation.py:175-188, the loop over the parameters; result: pairs (x derivative, y derivative) *)
Fixpoint deriv_loop (dpos dang : R) (pos : vec) (xs ys : R) (pds : list nat) : St (list (R * R)) :=
  match pds with
  | [] => sret []
  | pd :: r =>
      let step := if (pd <? 3)%nat then dpos else dang in
      sdo_ smod (bump pd step);;
      sdo_ smod (if (2 <? pd)%nat then update_rot else (fun c => c));;
      sdo xy <- simg pos;;
      sdo_ smod (bump pd (- step));;
      sdo rest <- deriv_loop dpos dang pos xs ys r;;
      sret (((fst xy - xs) / step, (snd xy - ys) / step) :: rest)
  end.
(** orientation.py:142-193 *)
Definition num_deriv_exterior (dpos dang : R) (pos : vec) : St (list R * list R) :=
  sdo_ smod update_rot;;
  sdo xy <- simg pos;;
  sdo l <- deriv_loop dpos dang pos (fst xy) (snd xy) (seq 0 6);;
  sdo_ smod update_rot;;
  sret (map fst l, map snd l).

(** ---- orient ---- *)
Definition CONVERGENCE : R := / 10000.   (* constants.py:33, the later of two definitions *)
Definition POS_INF : R := 10 ^ 20.       (* constants.py:32 *)
(** orientation.py:331-340 *)
Definition usable (use : Z) (i : nat) (pnr : Z) : bool :=
  (pnr =? Z.of_nat i)%Z &&
  negb ((use =? 1)%Z && Nat.even i) && negb ((use =? 2)%Z && negb (Nat.even i)) && negb ((use =? 3)%Z && (i mod 3 =? 0)%nat).
(** orientation.py:286-303: glass directions; e2 is made from the unnormalised e1 *)
Definition e1_raw (g : vec) : vec := V (2 * vz g - 3 * vx g) (3 * vx g - 1 * vz g) (1 * vy g - 2 * vy g).
Definition e1_of (g : vec) : vec := unit_vector (e1_raw g).
Definition e2_of (g : vec) : vec :=
  let e := e1_raw g in unit_vector (V (vy e * vz g - vz e * vx g) (vz e * vx g - vx e * vz g) (vx e * vy g - vy e * vy g)).

(** one calibration point, 342-446: the two rows of X and the two entries of y.
    [g0] is the glass vector at the start of orient (safety_x, safety_y, safety_z). *)
Definition obs := (list R * list R * (R * R))%type.
Definition orient_point (g0 : vec) (h drad : R) (pos : vec) (px py : R) : St obs :=
  let nGl := vnorm g0 in
  sdo c0 <- sget;;
  let m := pixel_to_metric px py (imx_ cp) (imy_ cp) (pix_x_ cp) (pix_y_ cp) in
  let '(xc, yc) := correct_brown_affine (fst m) (snd m) (c_added c0) tol in
  sdo_ smod update_rot;;
  sdo p <- simg pos;;
  let '(xp, yp) := p in
  let a := c_added c0 in
  let r := sqrt (xp * xp + yp * yp) in
  let qq := k1 a * r * r + k2 a * r ^ 4 + k3 a * r ^ 6 + 1 in
  sdo der <- num_deriv_exterior h drad pos;;
  sdo_ smod (add_cc h);;
  sdo_ smod update_rot;;
  sdo q6 <- simg pos;;
  sdo_ smod (add_cc (- h));;
  sdo_ smod (fun c => with_glass c (vadd (c_glass c) (vscale (vscale (e1_of g0) nGl) h)));;
  sdo q16 <- simg pos;;
  sdo_ smod (fun c => with_glass c g0);;
  sdo_ smod (fun c => with_glass c (vadd (c_glass c) (vscale (vscale (e2_of g0) nGl) h)));;
  sdo q17 <- simg pos;;
  sdo_ smod (fun c => with_glass c g0);;
  sdo_ smod (fun c => with_glass c (vadd (c_glass c) (vscale (vscale (c_glass c) nGl) h)));;
  sdo q18 <- simg pos;;
  sdo_ smod (fun c => with_glass c g0);;
  sret (fst der ++ [(fst q6 - xp) / h; scx a; 0; scx a * xp * r * r; scx a * xp * r ^ 4; scx a * xp * r ^ 6; scx a * (2 * xp * xp + r * r); 2 * scx a * xp * yp;
                    xp * qq + p1 a * (r * r + 2 * xp * xp) + 2 * p2 a * xp * yp; - cos (she a) * yp; (fst q16 - xp) / h; (fst q17 - xp) / h; (fst q18 - xp) / h],
        snd der ++ [(snd q6 - yp) / h; sin (she a); 1; yp * r * r; yp * r ^ 4; yp * r ^ 6; 2 * xp * yp; 2 * yp * yp + r * r; 0; - sin (she a) * yp;
                    (snd q16 - yp) / h; (snd q17 - yp) / h; (snd q18 - yp) / h],
        (xc - xp, yc - yp)).

Definition pixel := (Z * (R * R))%type.    (* pnr, (x, y) *)
Variable fix_ : list vec.
Variable pix : list pixel.
Variable fl : orientpar.
Variables h drad : R.

(** 330-448: the loop over the points *)
Fixpoint points (g0 : vec) (idx : list nat) : St (list obs) :=
  match idx with
  | [] => sret []
  | i :: r =>
      match nth_error pix i with
      | None => sraise IndexError
      | Some (pnr, (px, py)) =>
          if usable (op_use fl) i pnr then
            sdo o <- orient_point g0 h drad (nth i fix_ vzero) px py;;
            sdo rest <- points g0 r;; sret (o :: rest)
          else points g0 r
      end
  end.
Definition numbers : nat := if (op_interf fl =? 0)%Z then 16 else 18.
Definition on (f : Z) : bool := negb (f =? 0)%Z.
Definition flag_list : list bool :=
  [on (op_cc fl); on (op_xh fl); on (op_yh fl); on (op_k1 fl); on (op_k2 fl); on (op_k3 fl); on (op_p1 fl); on (op_p2 fl); on (op_scx fl); on (op_she fl)].
(** 451-464: X[n_obs + i][6 + i] = 1 and y[n_obs + i] = ident[i] - current value.
    ident[0..2] are zero-dimensional array views of the record, i.e. always the current
    value; ident[3..9] are the values at the start of orient. *)
Definition ident_rows : list (list R) := map (fun i => map (fun j => if (j =? 6 + i)%nat then 1 else 0) (seq 0 19)) (seq 0 10).
Definition ident_y (a0 : addp) (c : calib) : list R :=
  let a := c_added c in let i := c_int c in
  [cc i - cc i; xh i - xh i; yh i - yh i; k1 a0 - k1 a; k2 a0 - k2 a; k3 a0 - k3 a; p1 a0 - p1 a; p2 a0 - p2 a; scx a0 - scx a; she a0 - she a].
Definition pad_to {A} (n : nat) (z : A) (l : list A) : list A := l ++ repeat z (n - length l).
Definition maxsize : nat := length fix_ * 2 + 10.
Definition design_x (os : list obs) : list (list R) := pad_to maxsize (repeat 0 19) (flat_map (fun o => [fst (fst o); snd (fst o)]) os ++ ident_rows).
Definition design_y (os : list obs) (a0 : addp) (c : calib) : list R := pad_to maxsize 0 (flat_map (fun o => [fst (snd o); snd (snd o)]) os ++ ident_y a0 c).
(** 466-479 *)
Definition weights (os : list obs) : list R := pad_to maxsize 1 (repeat 1 (length os * 2) ++ map (fun b : bool => if b then 1 else POS_INF) flag_list).
Definition zip_with {A B C} (f : A -> B -> C) (l : list A) (m : list B) : list C := map (fun p => f (fst p) (snd p)) (combine l m).
(** 481-503: homogenize and solve.  Rows after n_obs stay zero. *)
Definition solve (os : list obs) (a0 : addp) (c : calib) : result (nat -> R) :=
  lstsq (zip_with (fun w x => map (Rmult (sqrt w)) (firstn numbers x)) (weights os) (design_x os)) (zip_with (fun w y => sqrt w * y) (weights os) (design_y os a0 c)).
Definition Rleb (a b : R) : bool := if Rle_dec a b then true else false.
(** 513-516 *)
Definition converged (beta : nat -> R) : bool := forallb (fun i => Rleb (Rabs (beta i)) CONVERGENCE) (seq 0 numbers).
(** 518-538 *)
Definition freeze (beta : nat -> R) : nat -> R := fun i => if ((6 <=? i) && (i <? 16))%nat then if nth (i - 6) flag_list true then beta i else 0 else beta i.
(** 540-563 *)
Definition apply_beta (g0 : vec) (b : nat -> R) (c : calib) : calib :=
  let e := c_ext c in let p := e_pos e in let i := c_int c in let a := c_added c in
  let g := c_glass c in
  let g := if on (op_interf fl) then
      vadd (vadd g (vscale (vscale (e1_of g0) (vnorm g0)) (b 16%nat))) (vscale (vscale (e2_of g0) (vnorm g0)) (b 17%nat)) else g in
  mk_calib (mk_ext (V (vx p + b 0%nat) (vy p + b 1%nat) (vz p + b 2%nat)) (omega e + b 3%nat) (phi e + b 4%nat) (kappa e + b 5%nat) (dm e))
    (mk_int (xh i + b 7%nat) (yh i + b 8%nat) (cc i + b 6%nat)) g
    (mk_addp (k1 a + b 9%nat) (k2 a + b 10%nat) (k3 a + b 11%nat) (p1 a + b 12%nat) (p2 a + b 13%nat) (scx a + b 14%nat) (she a + b 15%nat)) (c_lut c).

(** one pass of the while loop, 327-563 *)
Record pass_result := mk_pass { ps_stop : bool; ps_obs : list obs; ps_y : list R; ps_beta : nat -> R }.
Definition pass (g0 : vec) (a0 : addp) : St pass_result :=
  sdo os <- points g0 (seq 0 (length fix_));;
  sdo c <- sget;;
  sdo beta <- slift (solve os a0 c);;
  sdo_ smod (apply_beta g0 (freeze beta));;
  sret (mk_pass (converged beta) os (design_y os a0 c) (freeze beta)).
(** at most k + 1 passes *)
Fixpoint passes (g0 : vec) (a0 : addp) (k : nat) : St pass_result :=
  sdo p <- pass g0 a0;;
  if ps_stop p then sret p else match k with O => sret p | S k' => passes g0 a0 k' end.
(** 574-576 *)
Definition rowdot (b : nat -> R) (x : list R) : R := fold_right Rplus 0 (map (fun p => fst p * b (snd p)) (combine x (seq 0 (length x)))).
Definition residuals (p : pass_result) : list R := zip_with (fun x y => rowdot (ps_beta p) (firstn numbers x) - y) (design_x (ps_obs p)) (ps_y p).
(** orientation.py:196-612; NUM_ITER = 80 *)
Definition orient : St (option (list R)) :=
  sdo c <- sget;;
  sdo p <- passes (c_glass c) (c_added c) 79;;
  if ps_stop p then sdo_ smod update_rot;; sret (Some (residuals p)) else sret None.

(** orientation.py:892-894: (ret[ix], used[ix]) *)
Fixpoint table (resi : list R) (ix : nat) (ts : list pixel) : result (list (R * R * Z)) :=
  match ts with
  | [] => Ok []
  | t :: r => match nth_error resi (2 * ix), nth_error resi (2 * ix + 1) with
              | Some a, Some b => do rest <- table resi (S ix) r; Ok ((a, b, fst t) :: rest)
              | _, _ => Exn IndexError
              end
  end.
(** orientation.py:818-897 (without err_est) *)
Definition full_calibration : St (list (R * R * Z)) :=
  sdo r <- orient;; match r with None => sraise ValueError | Some resi => slift (table resi 0 pix) end.

(** ---- raw_orient ---- *)
Definition default_added : addp := mk_addp 0 0 0 0 0 1 0.
(** 652-660 *)
Fixpoint raw_points (idx : list nat) : St (list obs) :=
  match idx with
  | [] => sret []
  | i :: r =>
      match nth_error pix i with
      | None => sraise IndexError
      | Some (_, (px, py)) =>
          let '(xc, yc) := pixel_to_metric px py (imx_ cp) (imy_ cp) (pix_x_ cp) (pix_y_ cp) in
          sdo_ smod update_rot;;
          sdo p <- simg (nth i fix_ vzero);;
          sdo der <- num_deriv_exterior h drad (nth i fix_ vzero);;
          sdo rest <- raw_points r;;
          sret ((fst der, snd der, (xc - fst p, yc - snd p)) :: rest)
      end
  end.
Definition raw_converged (beta : nat -> R) : bool := forallb (fun i => Rleb (Rabs (beta i)) (/ 10)) (seq 0 6).
(** 687-692 *)
Definition raw_apply (b : nat -> R) (c : calib) : calib :=
  let e := c_ext c in let p := e_pos e in
  with_ext c (mk_ext (V (vx p + b 0%nat) (vy p + b 1%nat) (vz p + b 2%nat)) (omega e + b 3%nat) (phi e + b 4%nat) (kappa e + b 5%nat) (dm e)).
Definition raw_pass : St bool :=
  sdo os <- raw_points (seq 0 (length fix_));;
  sdo beta <- slift (lstsq (flat_map (fun o => [fst (fst o); snd (fst o)]) os) (flat_map (fun o => [fst (snd o); snd (snd o)]) os));;
  sdo_ smod (raw_apply beta);; sret (raw_converged beta).
Fixpoint raw_passes (k : nat) : St bool :=
  sdo s <- raw_pass;; if s : bool then sret true else match k with O => sret false | S k' => raw_passes k' end.
(** orientation.py:615-697; external_calibration (773-815) returns the same truth value *)
Definition raw_orient : St bool :=
  sdo_ smod (fun c => with_added c default_added);;
  sdo s <- raw_passes 19;;
  if s : bool then sdo_ smod update_rot;; sret true else sret false.
End Orient.

(** ---- positions from one camera ---- *)
(** orientation.py:994-1024; targets: per point the list of cameras' coordinates *)
Definition single_cam_point_positions (targets : list (list (R * R))) (mm : mmpar) (cals : list calib) (v : volpar) : result (list vec * list R) :=
  match cals with
  | [] => Exn IndexError
  | c :: _ =>
      do res <- all_ok (map (fun t => match t with (x, y) :: _ => Ok (epi_mm_2D x y c mm v) | [] => Exn IndexError end) targets);
      Ok (res, repeat 0 (length targets))
  end.
(** orientation.py:949-991: what the number of cameras selects *)
Inductive which_positions := SingleCamera (r : result (list vec * list R)) | MultiCamera (r : result (positions * list R)) | NoCamera (e : exn).
Definition point_positions (targets : list (list (option (R * R)))) (seen : list (list (R * R))) (mm : mmpar) (cals : list calib) (v : volpar) : which_positions :=
  match cals with
  | [] => NoCamera ValueError
  | [_] => SingleCamera (single_cam_point_positions seen mm cals v)
  | _ => MultiCamera (multi_cam_point_positions targets mm cals)
  end.
