(** Vocabulary for the file properties. *)
From Coq Require Import Reals.
From Verif Require Import F64 F64R Model_text Model_corr Model_track Model_io Base.
Local Open Scope R_scope.

(** a float64 value: NaN, an infinity, or a finite number in range and precision *)
Definition float_ok (x : f64) : Prop := x = S754_nan \/ (exists s, x = S754_infinity s) \/ fin x.

(** y is x rounded to k decimal digits: the decimal number q / 10^k is within half
    a unit of the last digit of x, and y is the float64 nearest to it *)
Definition to_digits (k : nat) (x y : f64) : Prop :=
  (x = S754_nan /\ y = S754_nan) \/ (exists s, x = S754_infinity s /\ y = S754_infinity s) \/
  (fin x /\ fin y /\ exists q : Z,
     Rabs (val x - IZR q / IZR (10 ^ Z.of_nat k)) <= / 2 / IZR (10 ^ Z.of_nat k) /\ val y = rnd (IZR q / IZR (10 ^ Z.of_nat k))).

Definition exact_int (z : Z) : Prop := (Z.abs z <= 2 ^ 53)%Z.
Definition int32 (z : Z) : Prop := (- 2 ^ 31 <= z < 2 ^ 31)%Z.

Definition target_ok (t : target) : Prop :=
  exact_int (t_pnr t) /\ exact_int (t_n t) /\ exact_int (t_nx t) /\ exact_int (t_ny t) /\ exact_int (t_sumg t) /\ exact_int (t_tnr t) /\
  float_ok (t_x t) /\ float_ok (t_y t).
(** identical integers, coordinates to k digits *)
Definition same_target (k : nat) (t u : target) : Prop :=
  t_pnr u = t_pnr t /\ t_n u = t_n t /\ t_nx u = t_nx t /\ t_ny u = t_ny t /\ t_sumg u = t_sumg t /\ t_tnr u = t_tnr t /\
  to_digits k (t_x t) (t_x u) /\ to_digits k (t_y t) (t_y u).

Definition path_ok (p : path_rec) : Prop :=
  length (pr_x p) = 3%nat /\ Forall float_ok (pr_x p) /\ exact_int (pr_prev p) /\ exact_int (pr_next p) /\ exact_int (pr_prio p).
Definition corres_ok (c : corres) : Prop := length (co_p c) = 4%nat /\ Forall int32 (co_p c).
(** same links, priority; position to k digits; the scratch fields of the next step are fresh *)
Definition same_path (k : nat) (p q : path_rec) : Prop :=
  Forall2 (to_digits k) (pr_x p) (pr_x q) /\ pr_prev q = pr_prev p /\ pr_next q = pr_next p /\ pr_prio q = pr_prio p /\
  pr_inlist q = 0%Z /\ pr_final q = f_of_Z 1000000.
(** row i is numbered i + 1 and names the same targets *)
Definition same_corres (cs ds : list corres) : Prop :=
  map co_p ds = map co_p cs /\ forall i d, nth_error ds i = Some d -> co_nr d = (Z.of_nat i + 1)%Z.
