(** Specification vocabulary for C88: which detections a calibration uses. *)
From Verif Require Import F64 F64R Model_corr Model_misc Spec_misc Model_par Model_geo Model_orient Base.
Local Open Scope R_scope.

(** reference point i is not excluded by the use flag (0 all, 1 odd, 2 even, 3 not divisible by three) *)
Definition admitted (fl : orientpar) (i : nat) : Prop :=
  (op_use fl = 1%Z -> Nat.odd i = true) /\ (op_use fl = 2%Z -> Nat.even i = true) /\ (op_use fl = 3%Z -> (i mod 3 <> 0)%nat).
(** where a detection was seen, as real numbers *)
Definition seen_at (t : target) : R * R := (val (t_x t), val (t_y t)).
(** reference point i owns detection j: j is the detection nearest to the image of point i, inside the box,
    and no later reference point has the same nearest detection *)
Definition owns (project : Z -> result (f64 * f64)) (eps imx imy : f64) (n : nat) (img : list target) (i j : nat) : Prop :=
  last_assigned project eps imx imy img (Z.of_nat n) (Z.of_nat i) j.
