(** Specification for C87: how far results in double precision are from the exact ones. *)
From Coq Require Import Reals.
From Verif Require Import F64 F64R Model_track Base.
Local Open Scope R_scope.

(** x is a finite number that differs from the exact value r by at most e *)
Definition within (x : f64) (r e : R) : Prop := fin x /\ Rabs (val x - r) <= e.
(** a finite number of size at most b *)
Definition bounded (x : f64) (b : R) : Prop := fin x /\ Rabs (val x) <= b.
Definition vec_bounded (a : vec) (b : R) : Prop := let '(x, y, z) := a in bounded x b /\ bounded y b /\ bounded z b.
(** all components are finite numbers; the exact position *)
Definition vec_fin (a : vec) : Prop := let '(x, y, z) := a in fin x /\ fin y /\ fin z.
Definition exact (a : vec) : R * R * R := let '(x, y, z) := a in (val x, val y, val z).
(** exact dot product, sum of the sizes of its terms, and length *)
Definition rdot (a b : R * R * R) : R := let '(a0, a1, a2) := a in let '(b0, b1, b2) := b in a0 * b0 + a1 * b1 + a2 * b2.
Definition rsize (a b : R * R * R) : R := let '(a0, a1, a2) := a in let '(b0, b1, b2) := b in Rabs (a0 * b0) + Rabs (a1 * b1) + Rabs (a2 * b2).
Definition rlength (a : R * R * R) : R := sqrt (rdot a a).
Definition rminus (a b : R * R * R) : R * R * R := let '(a0, a1, a2) := a in let '(b0, b1, b2) := b in (a0 - b0, a1 - b1, a2 - b2).
