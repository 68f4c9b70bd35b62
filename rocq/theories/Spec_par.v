(** Vocabulary for the parameter and orientation files. *)
From Coq Require Import Reals.
From Verif Require Import F64 F64R Model_text Model_corr Model_track Model_io Spec_io Model_par Base.
From Verif Require Model_geo.
Local Open Scope Z_scope.

(** line i (counted from 0) of a text file; lines after the end are empty *)
Definition line_no (t : text) (i : nat) : text := nth i (lines t) [].
(** line i holds this number (surrounding blanks do not matter) *)
Definition int_at (t : text) (i : nat) (z : Z) : Prop := parse_int (line_no t i) = Ok z.
Definition float_at (t : text) (i : nat) (x : f64) : Prop := parse_float (line_no t i) = Ok x.
(** line i without surrounding blanks *)
Definition name_at (t : text) (i : nat) : text := strip (line_no t i).

(** a calibration with all its arrays of the right shape and float64 entries *)
Definition cal_ok (c : calf) : Prop :=
  length (xf_pos (cf_ext c)) = 3%nat /\ length (xf_ang (cf_ext c)) = 3%nat /\ length (xf_dm (cf_ext c)) = 3%nat /\
  Forall (fun r => length r = 3%nat) (xf_dm (cf_ext c)) /\ length (cf_int c) = 3%nat /\ length (cf_glass c) = 3%nat /\ length (cf_added c) = 7%nat /\
  Forall float_ok (xf_pos (cf_ext c)) /\ Forall float_ok (xf_ang (cf_ext c)) /\ Forall float_ok (cf_int c) /\ Forall float_ok (cf_glass c) /\ Forall float_ok (cf_added c).

(** == on numbers, on lists entry by entry *)
Definition num_eq (x y : f64) : Prop := feq x y = true.
Definition nums_eq (a b : list f64) : Prop := Forall2 num_eq a b.

Local Open Scope R_scope.
(** the entries of a matrix, by rows *)
Definition entries (m : Model_geo.mat) : list (list R) :=
  map (fun r => [Model_geo.vx r; Model_geo.vy r; Model_geo.vz r]) [Model_geo.row1 m; Model_geo.row2 m; Model_geo.row3 m].
(** sine and cosine of x are computed to within d and lie in [-1, 1] *)
Definition trig_ok (fsin fcos : f64 -> f64) (d : R) (x : f64) : Prop :=
  fin (fsin x) /\ fin (fcos x) /\ Rabs (val (fsin x)) <= 1 /\ Rabs (val (fcos x)) <= 1 /\
  Rabs (val (fsin x) - sin (val x)) <= d /\ Rabs (val (fcos x) - cos (val x)) <= d.
(** dot product of two rows of doubles and determinant of a matrix of doubles, as real numbers *)
Definition vdot (a b : list f64) : R :=
  match a, b with [x; y; z], [x'; y'; z'] => val x * val x' + val y * val y' + val z * val z' | _, _ => 0 end.
Definition vdet (m : list (list f64)) : R :=
  match m with
  | [[a; b; c]; [d; e; f]; [g; h; i]] =>
      val a * (val e * val i - val f * val h) + val b * (val f * val g - val d * val i) + val c * (val d * val h - val e * val g)
  | _ => 0
  end.
