(** Specification for C89: a link is plausible in terms of exact positions (real numbers). *)
From Coq Require Import Reals.
From Verif Require Import F64 F64R Model_track Spec_track Spec_f64 Base.
Local Open Scope R_scope.

Definition rplus (a b : R * R * R) : R * R * R := let '(a0, a1, a2) := a in let '(b0, b1, b2) := b in (a0 + b0, a1 + b1, a2 + b2).
Definition rtimes (k : R) (a : R * R * R) : R * R * R := let '(a0, a1, a2) := a in (k * a0, k * a1, k * a2).
(** the exact displacement lies strictly between the velocity limits *)
Definition step_inside (tp : tpar) (d : R * R * R) : Prop := let '(x, y, z) := d in
  val (dvxmin tp) < x < val (dvxmax tp) /\ val (dvymin tp) < y < val (dvymax tp) /\ val (dvzmin tp) < z < val (dvzmax tp).
(** a particle at x0, then x1, moves on uniformly *)
Definition expected (x0 x1 : vec) : R * R * R := rminus (rtimes 2 (exact x1)) (exact x0).
(** the exact acceleration of x0, x1, x3: |x3 - 2 x1 + x0| *)
Definition acceleration (x0 x1 x3 : vec) : R := rlength (rminus (expected x0 x1) (exact x3)).
(** the position expected after x3: (5 x3 - 4 x1 + x0) / 2 if the position x0 before x1 is known, otherwise 2 x3 - x1 *)
Definition ahead (x0 : option vec) (x1 x3 : vec) : R * R * R :=
  match x0 with
  | Some p => rtimes (/ 2) (rplus (rminus (rtimes 5 (exact x3)) (rtimes 4 (exact x1))) (exact p))
  | None => expected x1 x3
  end.
(** x4 misses that position by *)
Definition miss (x0 : option vec) (x1 x3 x4 : vec) : R := rlength (rminus (exact x4) (ahead x0 x1 x3)).
(** a position as computed: within e of the exact one *)
Definition close_to (v : vec) (r : R * R * R) (e : R) : Prop := rlength (rminus (exact v) r) <= e.

(** the reasons for a link from x1 to x3, with the acceleration exceeding its limit by at most e; as in [justified] (C65) *)
Inductive plausible (point_position : list (f64 * f64) -> vec) (tp : tpar) (vl : vol)
    (sight2 sight3 : vec -> Z -> list (f64 * f64) -> Prop) (later : list vec) (e : R)
    (x0 : option vec) (x1 x3 : vec) : Prop :=
| p_continued : forall x4, In x4 later -> step_inside tp (rminus (exact x4) (exact x3)) ->
    (match x0 with Some p => acceleration p x1 x3 | None => miss x0 x1 x3 x4 end + miss x0 x1 x3 x4) / 2 <= val (dacc tp) + e ->
    plausible point_position tp vl sight2 sight3 later e x0 x1 x3
| p_reappears : forall x5 n flats, close_to x5 (ahead x0 x1 x3) e -> sight3 x5 n flats -> (2 <= n)%Z ->
    inside_volume vl (point_position flats) -> step_inside tp (rminus (exact x3) (exact (point_position flats))) ->
    miss x0 x1 x3 (point_position flats) <= val (dacc tp) + e ->
    plausible point_position tp vl sight2 sight3 later e x0 x1 x3
| p_direct : forall p, x0 = Some p -> step_inside tp (rminus (exact x3) (exact x1)) -> acceleration p x1 x3 <= val (dacc tp) + e ->
    plausible point_position tp vl sight2 sight3 later e x0 x1 x3
| p_filled_in : forall p x2 n flats, do_add tp = true -> x0 = Some p -> close_to x2 (expected p x1) e -> sight2 x2 n flats -> (2 <= n)%Z ->
    x3 = point_position flats -> inside_volume vl x3 -> step_inside tp (rminus (exact x2) (exact x3)) -> acceleration p x1 x3 <= val (dacc tp) + e ->
    plausible point_position tp vl sight2 sight3 later e x0 x1 x3.
(** the particle's position in the frame before, if it has a predecessor *)
Definition predecessor (buf0 : frame) (p : pinfo) (x0 : option vec) : Prop :=
  match x0 with
  | Some x => (0 <= p_prev p)%Z /\ exists q, nth_error (fr_path buf0) (Z.to_nat (p_prev p)) = Some q /\ x = p_x q
  | None => (p_prev p < 0)%Z
  end.
