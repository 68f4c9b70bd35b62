(** The calibration functions as a user calls them (orientation.py: match_detection_to_ref,
    full_calibration, external_calibration, dumbbell_target_func): the conversion of
    detections, whose positions are double precision numbers, into the observations of
    Model_orient.v. *)
From Verif Require Import F64 F64R Model_corr Model_misc Model_par Model_geo Model_orient Base.
Local Open Scope R_scope.

(** a Target as orient and raw_orient read it: pnr, x, y (orientation.py:332, 344, 653) *)
Definition as_pixel (t : target) : pixel := (t_pnr t, (val (t_x t), val (t_y t))).

Section Wrap.
Variable mm : mmpar.
Variable cp : cpar.
Variable tol : R.
Variable lstsq : list (list R) -> list R -> result (nat -> R).
Variables h drad : R.

(** orientation.py:900-946; project: the image of reference point i (sortgrid.py:50-52), any function.
    Also the detections after the call. *)
Definition match_detection_to_ref (project : Z -> result (f64 * f64)) (eps imx imy : f64) (ref_pts : list vec) (img_pts : list target)
  : result (list target * list target) :=
  sortgrid project eps imx imy (Z.of_nat (length ref_pts)) img_pts.

(** orientation.py:864-871: an array of positions becomes targets numbered by their row *)
Definition array_targets (img_pts : list (f64 * f64)) : list target :=
  map (fun ip => mk_target (fst ip) (fst (snd ip)) (snd (snd ip)) 0 0 0 0 (-1)) (enumerate img_pts).
(** orientation.py:798-802: here they keep the number of a fresh Target *)
Definition bare_targets (img_pts : list (f64 * f64)) : list target :=
  map (fun p => mk_target (t_pnr new_target) (fst p) (snd p) 0 0 0 0 (-1)) img_pts.

(** orientation.py:818-897 for a list of Target objects (without err_est) *)
Definition full_calibration_targets (ref_pts : list vec) (img_pts : list target) (fl : orientpar) : St (list (R * R * Z)) :=
  full_calibration mm cp tol lstsq ref_pts (map as_pixel img_pts) fl h drad.
(** orientation.py:818-897 for an array *)
Definition full_calibration_array (ref_pts : list vec) (img_pts : list (f64 * f64)) (fl : orientpar) : St (list (R * R * Z)) :=
  full_calibration_targets ref_pts (array_targets img_pts) fl.
(** orientation.py:773-815 *)
Definition external_calibration (ref_pts : list vec) (img_pts : list (f64 * f64)) : St bool :=
  sdo s <- raw_orient mm cp lstsq ref_pts (map as_pixel (bare_targets img_pts)) h drad;;
  sret (if s : bool then true else false).

End Wrap.
