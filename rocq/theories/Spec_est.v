(** Specification for C86: the error estimates of the full calibration. *)
From Verif Require Import Model_par Model_geo Spec_geo Model_orient Spec_orient Base.
Local Open Scope R_scope.

(** sum of f i for i = 0 .. n - 1 *)
Definition sum_to (n : nat) (f : nat -> R) : R := fold_right Rplus 0 (map f (seq 0 n)).
(** sum of squares of what the correction b leaves unexplained in the system X, y *)
Definition unexplained (X : list (list R)) (y : list R) (b : nat -> R) : R :=
  sum_to (length y) (fun i => (row_sum (nth i X []) b - nth i y 0) ^ 2).
(** entry (j, k) of the normal matrix without weights: the first m rows of X, and one row
    with a single 1 per interior parameter *)
Definition normal_entry (X : list (list R)) (m j k : nat) : R :=
  sum_to m (fun i => nth j (nth i X []) 0 * nth k (nth i X []) 0) + (if (j =? k)%nat && (6 <=? j)%nat && (j <? 16)%nat then 1 else 0).
Definition normal_matrix (X : list (list R)) (m n : nat) : list (list R) := map (fun j => map (fun k => normal_entry X m j k) (seq 0 n)) (seq 0 n).
(** the standard deviation of unit weight, from the number of equations and unknowns; none if there
    are not more equations than unknowns *)
Definition unit_deviation (S : R) (equations unknowns : nat) : option R :=
  if (unknowns <? equations)%nat then Some (sqrt (S / INR (equations - unknowns))) else None.
(** W is an inverse of the matrix N (n x n) *)
Definition inverts (n : nat) (N : list (list R)) (W : nat -> nat -> R) : Prop :=
  forall j k, (j < n)%nat -> (k < n)%nat -> sum_to n (fun l => nth l (nth j N []) 0 * W l k) = if (j =? k)%nat then 1 else 0.
