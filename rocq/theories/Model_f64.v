(** The coordinate conversions, the vector helpers and the kinematics of tracking in
    double precision (binary64), operation by operation in the order of the source.
    Simplification: numba's fastmath may regroup the sums of three terms in vec_utils.py
    and track.py; trafo.py is compiled without it. *)
From Verif Require Import F64 Model_track Base.
Local Open Scope Z_scope.

(** trafo.py:38-39, 97-98: float(imx) / 2.0 *)
Definition fhalf (i : Z) : f64 := fdiv (f_of_Z i) (f_of_Z 2).
(** trafo.py:33-41 *)
Definition fpixel_to_metric (x y : f64) (imx imy : Z) (pix_x pix_y : f64) : f64 * f64 :=
  (fmul (fsub x (fhalf imx)) pix_x, fmul (fsub (fhalf imy) y) pix_y).
(** trafo.py:92-100 *)
Definition fmetric_to_pixel (x y : f64) (imx imy : Z) (pix_x pix_y : f64) : f64 * f64 :=
  (fadd (fdiv x pix_x) (fhalf imx), fsub (fhalf imy) (fdiv y pix_y)).

(** componentwise operations of numpy *)
Definition fmap2 (op : f64 -> f64 -> f64) (a b : vec) : vec :=
  let '(a0, a1, a2) := a in let '(b0, b1, b2) := b in (op a0 b0, op a1 b1, op a2 b2).
(** vec_utils.py:36-39 *)
Definition fvec_subt (a b : vec) : vec := fmap2 fsub a b.
(** vec_utils.py:42-45 *)
Definition fvec_add (a b : vec) : vec := fmap2 fadd a b.
(** vec_utils.py:48-51 *)
Definition fvec_scale (a : vec) (k : f64) : vec := let '(a0, a1, a2) := a in (fmul a0 k, fmul a1 k, fmul a2 k).
(** vec_utils.py:61-65 *)
Definition fvec_dot (a b : vec) : f64 :=
  let '(a0, a1, a2) := a in let '(b0, b1, b2) := b in fadd (fadd (fmul a0 b0) (fmul a1 b1)) (fmul a2 b2).
(** vec_utils.py:12-15 *)
Definition fvec_norm (a : vec) : f64 := fsqrt (fvec_dot a a).
(** vec_utils.py:54-58: x ** 2 is compiled to x * x *)
Definition fvec_diff_norm (a b : vec) : f64 := fvec_norm (fvec_subt a b).
(** vec_utils.py:68-78 *)
Definition fvec_cross (a b : vec) : vec :=
  let '(a0, a1, a2) := a in let '(b0, b1, b2) := b in
  (fsub (fmul a1 b2) (fmul a2 b1), fsub (fmul a2 b0) (fmul a0 b2), fsub (fmul a0 b1) (fmul a1 b0)).
(** vec_utils.py:87-93 *)
Definition funit_vector (a : vec) : vec :=
  let m := fvec_norm a in
  if feq m fzero then a else let '(a0, a1, a2) := a in (fdiv a0 m, fdiv a1 m, fdiv a2 m).

(** track.py:157-179, also predict (182-199): 2 * curr_pos - prev_pos *)
Definition fmoving (prev_pos curr_pos : vec) : vec := fvec_subt (fvec_scale curr_pos (f_of_Z 2)) prev_pos.
(** track.py:865: 0.5 * (5 * X[3] - 4 * X[1] + X[0]), as a function of X[0], X[1], X[3] *)
Definition fextrap (x0 x1 x3 : vec) : vec :=
  fvec_scale (fvec_add (fvec_subt (fvec_scale x3 (f_of_Z 5)) (fvec_scale x1 (f_of_Z 4))) x0) (fhalf 1).

Section Angle.
Variable acos : f64 -> f64.        (* np.arccos *)
Variable gon : f64.                (* 200.0 / np.pi *)
Definition fall_eq (a b : vec) : bool :=
  let '(a0, a1, a2) := a in let '(b0, b1, b2) := b in feq a0 b0 && feq a1 b1 && feq a2 b2.
Definition fvec_neg (a : vec) : vec := let '(a0, a1, a2) := a in (fneg a0, fneg a1, fneg a2).
(** track.py:260-265: the argument of np.arccos; np.linalg.norm as the root of the sum of squares *)
Definition fcosine (start pred cand : vec) : f64 :=
  fdiv (fvec_dot (fvec_subt pred start) (fvec_subt cand start))
       (fmul (fvec_norm (fvec_subt start pred)) (fvec_norm (fvec_subt start cand))).
(** track.py:232-268 *)
Definition fangle_acc (start pred cand : vec) : f64 * f64 :=
  let v0 := fvec_subt pred start in
  let v1 := fvec_subt cand start in
  let acc := fvec_norm (fvec_subt v0 v1) in
  let angle := if fall_eq v0 (fvec_neg v1) then f_of_Z 200
               else if fall_eq v0 v1 then fzero
               else fmul gon (acos (fcosine start pred cand)) in
  (angle, acc).
End Angle.
