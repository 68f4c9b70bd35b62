(** Specification vocabulary for match_coords, get_by_pnrs, sortgrid, prepare_image. *)
From Coq Require Import Permutation Sorted.
From Verif Require Import Base F64 Model_corr Spec_corr Model_misc.
Local Open Scope Z_scope.

(** assumed of numpy's sort(order="x"): a permutation ascending in x, NaN last *)
Definition sorts_by_x (f : list coord2d -> list coord2d) : Prop :=
  forall l, Permutation (f l) l /\ StronglySorted (fun a b => np_le (c_x a) (c_x b) = true) (f l).
(** the flat coordinate computed for a target *)
Definition flat_of (flat : f64 -> f64 -> f64 * f64) (t : target) : coord2d :=
  mk_coord2d (t_pnr t) (fst (flat (t_x t) (t_y t))) (snd (flat (t_x t) (t_y t))).
(** the last entry with target number v *)
Definition last_with (mc : list coord2d) (v : Z) (c : coord2d) : Prop :=
  exists a b, mc = a ++ c :: b /\ c_pnr c = v /\ forall d, In d b -> c_pnr d <> v.

(** the detection lies in the open box of half width eps around (x, y) *)
Definition near (x y eps : f64) (t : target) : Prop :=
  flt (fsub x eps) (t_x t) = true /\ flt (t_x t) (fadd x eps) = true /\
  flt (fsub y eps) (t_y t) = true /\ flt (t_y t) (fadd y eps) = true.
(** its computed distance from (x, y) *)
Definition distance (x y : f64) (t : target) : f64 :=
  fsqrt (fadd (fmul (fsub x (t_x t)) (fsub x (t_x t))) (fmul (fsub y (t_y t)) (fsub y (t_y t)))).
(** nearer than 1e20, which NaN and infinity are not *)
Definition measurable (d : f64) : Prop := flt d (f_of_Z (10 ^ 20)) = true.
(** target j is the nearest detection to (x, y) in the box: no other detection in
    the box is nearer, and among equally near ones it is the first *)
Definition nearest (pix : list target) (x y eps : f64) (j : nat) : Prop :=
  exists t, nth_error pix j = Some t /\ near x y eps t /\ measurable (distance x y t) /\
  forall k u, nth_error pix k = Some u -> near x y eps u ->
    flt (distance x y u) (distance x y t) = false /\
    ((k < j)%nat -> flt (distance x y t) (distance x y u) = true \/ is_nan (distance x y u) = true).
(** the point lies less than eps outside the sensor *)
Definition on_image (eps imx imy : f64) (p : f64 * f64) : Prop :=
  flt (fneg eps) (fst p) = true /\ flt (fst p) (fadd imx eps) = true /\
  flt (fneg eps) (snd p) = true /\ flt (snd p) (fadd imy eps) = true.
(** calibration point i is assigned detection j *)
Definition assigned (project : Z -> result (f64 * f64)) (eps imx imy : f64) (pix : list target) (i : Z) (j : nat) : Prop :=
  exists p, project i = Ok p /\ on_image eps imx imy p /\ nearest pix (fst p) (snd p) eps j.
(** i is the last calibration point that is assigned detection j *)
Definition last_assigned project eps imx imy pix nfix (i : Z) (j : nat) : Prop :=
  0 <= i < nfix /\ assigned project eps imx imy pix i j /\
  forall i', i < i' < nfix -> ~ assigned project eps imx imy pix i' j.
(** the same detection with number i *)
Definition numbered (t : target) (i : Z) : target :=
  mk_target i (t_x t) (t_y t) (t_n t) (t_nx t) (t_ny t) (t_sumg t) (t_tnr t).
Definition no_target : target := mk_target (-999) fzero fzero 0 0 0 0 (-1).
Definition is_byte (v : Z) : Prop := 0 <= v <= 255.
