(** The error estimates of the full calibration (orientation.py: orient, full_calibration).
    Numbers are reals; None stands for inf and nan.  np.linalg.matrix_rank, inv and pinv are
    arbitrary functions (inv and pinv may raise). *)
From Verif Require Import Model_par Model_geo Model_orient Base.
Local Open Scope R_scope.

Section Estimates.
Variable mm : mmpar.
Variable cp : cpar.
Variable tol : R.
Variable lstsq : list (list R) -> list R -> result (nat -> R).
Variable rank : list (list R) -> nat.
Variables inv pinv : list (list R) -> result (nat -> nat -> R).   (* the entries of the matrix *)
Variable fix_ : list vec.
Variable pix : list pixel.
Variable fl : orientpar.
Variables h drad : R.

Definition sumR (l : list R) : R := fold_right Rplus 0 l.
(** orientation.py:577: np.sum(resi * P * resi) *)
Definition omega_sum (p : pass_result) : R := sumR (zip_with (fun r w => r * w * r) (residuals fix_ fl p) (weights fix_ fl (ps_obs p))).
(** orientation.py:578: n_obs counts two rows per used point and the ten identities (450, 481).
    np.float64 division: no exception for a divisor 0, sqrt of a negative number is nan *)
Definition sigma0 (p : pass_result) : option R :=
  let dof := (Z.of_nat (length (ps_obs p)) * 2 + 10 - Z.of_nat (numbers fl))%Z in
  if (0 <? dof)%Z then Some (sqrt (omega_sum p / IZR dof)) else None.
(** orientation.py:586: np.dot(X.T, X), without weights *)
Definition xtx (p : pass_result) : list (list R) :=
  map (fun j => map (fun k => sumR (map (fun x => nth j x 0 * nth k x 0) (design_x fix_ (ps_obs p)))) (seq 0 (numbers fl))) (seq 0 (numbers fl)).
(** orientation.py:25-27, 587-590 *)
Definition is_singular (m : list (list R)) : bool := (rank m <? length m)%nat.
Definition xpx (p : pass_result) : result (nat -> nat -> R) := if is_singular (xtx p) then pinv (xtx p) else inv (xtx p).
(** np.sqrt *)
Definition np_sqrt (a : R) : option R := if Rle_dec 0 a then Some (sqrt a) else None.
Definition np_mul (a b : option R) : option R := match a, b with Some x, Some y => Some (x * y) | _, _ => None end.
(** orientation.py:578, 606: sigmabeta[NPAR] and sigmabeta[:numbers] are written, NPAR = 19 *)
Definition write_estimates (s0 : option R) (d : nat -> nat -> R) (est : list (option R)) : list (option R) :=
  map (fun i => if (i <? numbers fl)%nat then np_mul s0 (np_sqrt (d i i)) else if (i =? 19)%nat then s0 else nth i est None) (seq 0 (length est)).
(** orientation.py:196-612 with the array sigmabeta (20 numbers) *)
Definition orient_est (est : list (option R)) : St (option (list R) * list (option R)) :=
  sdo c <- sget;;
  sdo p <- passes mm cp tol lstsq fix_ pix fl h drad (c_glass c) (c_added c) 79;;
  sdo d <- slift (xpx p);;
  let est' := write_estimates (sigma0 p) d est in
  if ps_stop p then sdo_ smod update_rot;; sret (Some (residuals fix_ fl p), est') else sret (None, est').
(** orientation.py:818-897; memory: what np.empty finds *)
Definition full_calibration_est (memory : list (option R)) : St (list (R * R * Z) * list (option R)) :=
  sdo r <- orient_est memory;;
  match fst r with
  | None => sraise ValueError
  | Some resi => sdo t <- slift (table resi 0 pix);; sret (t, snd r)
  end.
End Estimates.
