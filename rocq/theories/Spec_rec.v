(** Words used by the statements of C83. *)
From Coq Require Import SpecFloat Sorting.Permutation Sorting.Sorted.
From Verif Require Import F64 Model_corr Model_cand Model_track Base.
Local Open Scope Z_scope.

(** the same number: no nan, and the two zeros count as one number *)
Definition same_number (a b : f64) : Prop :=
  (a = b /\ is_nan a = false) \/ exists s s', a = S754_zero s /\ b = S754_zero s'.

(** no earlier element has a larger y than a later one *)
Definition by_y (l : list target) : Prop :=
  forall i j a b, (i < j)%nat -> nth_error l i = Some a -> nth_error l j = Some b -> fle (t_y a) (t_y b) = true.

(** the elements with a given y, in order *)
Definition level (y : f64) (l : list target) : list target := filter (fun t => feq (t_y t) y) l.
