(** Specification vocabulary for the decision values of tracking (C82). *)
From Verif Require Import Base F64 Model_corr Model_cand Spec_cand Model_track Spec_track.
Local Open Scope Z_scope.

(** when the cameras look around the pixels [px] for a particle expected at [centre], [n] of them
    (at least one) have particle [k] of the frame among their four candidates *)
Definition shown_by (pixdist : f64 -> f64 -> f64 -> f64 -> f64) (ncam : nat) (imx imy : Z)
    (quader : Z -> vec -> f64 * f64 * f64 * f64) (frm : frame) (centre : vec) (px : list (f64 * f64)) (k n : Z) : Prop :=
  exists ids, length ids = (4 * ncam)%nat /\
    (forall c, (c < ncam)%nat -> cam_slots pixdist imx imy quader centre px frm c (firstn 4 (skipn (4 * c) ids))) /\
    n = votes ncam ids k /\ 1 <= n.
(** the decision value: step length, acceleration and angle relative to their limits, divided by the number
    of cameras; [aa] = (angle, acceleration) *)
Definition score (tp : tpar) (vl : vol) (len : f64) (aa : f64 * f64) (n : Z) : f64 :=
  fdiv (fadd (fadd (fdiv len (lmax vl)) (fdiv (snd aa) (dacc tp))) (fdiv (fst aa) (dangle tp))) (f_of_Z n).
Definition mean_length (a b : f64) : f64 := fdiv (fadd a b) (f_of_Z 2).
(** the decision values for going from [x1] to particle [k], at [x3]; as in [justified], with
    [cams2 k n]: n cameras show particle k of the next frame, [cams3 x m n]: n cameras show particle m of the
    frame after next when it is expected at x *)
Inductive scored (vec_subt : vec -> vec -> vec) (norm : vec -> vec -> f64) (angle_acc : vec -> vec -> vec -> f64 * f64)
    (point_position : list (f64 * f64) -> vec) (tp : tpar) (vl : vol)
    (cams2 : Z -> Z -> Prop) (cams3 : vec -> Z -> Z -> Prop)
    (sight3 : vec -> Z -> list (f64 * f64) -> Prop) (later : list vec)
    (has_prev : bool) (x0 x1 x2 : vec) (k : Z) (x3 x5 : vec) : f64 -> Prop :=
| goes_on : forall m x4 n n', nth_error later m = Some x4 -> cams2 k n -> cams3 x5 (Z.of_nat m) n' ->
    within_step_limits tp (vec_subt x4 x3) ->
    let aa := mean_of (if has_prev then angle_acc x1 x2 x3 else angle_acc x3 x4 x5) (angle_acc x3 x4 x5) in
    smooth_motion tp aa ->
    scored vec_subt norm angle_acc point_position tp vl cams2 cams3 sight3 later has_prev x0 x1 x2 k x3 x5
      (score tp vl (mean_length (norm x1 x3) (norm x4 x3)) aa (n' + n))
| measured_on : forall n n' flats, cams2 k n -> sight3 x5 n' flats -> 2 <= n' ->
    let x4 := point_position flats in let aa := angle_acc x3 x4 x5 in
    inside_volume vl x4 -> within_step_limits tp (vec_subt x3 x4) -> smooth_motion tp aa ->
    scored vec_subt norm angle_acc point_position tp vl cams2 cams3 sight3 later has_prev x0 x1 x2 k x3 x5
      (score tp vl (mean_length (norm x1 x3) (norm x4 x3)) aa (n' + n))
| from_past : forall n, has_prev = true -> cams2 k n -> within_step_limits tp (vec_subt x3 x1) ->
    let aa := angle_acc x1 x2 x3 in smooth_motion tp aa ->
    scored vec_subt norm angle_acc point_position tp vl cams2 cams3 sight3 later has_prev x0 x1 x2 k x3 x5
      (score tp vl (mean_length (norm x1 x3) (norm x0 x1)) aa n).
