(** Vocabulary for C92: windows, sums and box means of an image. *)
From Verif Require Import Base F64 Model_corr Model_seg.
Local Open Scope Z_scope.

(** the grey value at row y, column x; black outside the image *)
Definition level (m : image) (y x : Z) : Z :=
  if (0 <=? y) && (y <? im_h m) && (0 <=? x) && (x <? im_w m) then im_px m y x else 0.
Definition inside (m : image) (y x : Z) : Prop := 0 <= y < im_h m /\ 0 <= x < im_w m.
Definition bytes (m : image) : Prop := forall y x, inside m y x -> 0 <= im_px m y x < 256.
(** f (-d) + ... + f d *)
Fixpoint sum_upto (f : nat -> Z) (n : nat) : Z := match n with O => 0 | S n => sum_upto f n + f n end.
Definition around (f : Z -> Z) (c : Z) (d : nat) : Z := sum_upto (fun k => f (c - Z.of_nat d + Z.of_nat k)) (2 * d + 1).
(** the sum of all grey values of the square window of radius d *)
Definition window_sum (m : image) (d : nat) (y x : Z) : Z := around (fun i => around (fun j => level m j i) y d) x d.
(** around (y, x) the first image looks like the second one around (y', x'), up to distance d: the same part of the
    window is inside the image, with the same grey values *)
Definition looks_like (m : image) (y x : Z) (m' : image) (y' x' : Z) (d : Z) : Prop :=
  forall a b, Z.abs a <= d -> Z.abs b <= d ->
    (inside m (y + a) (x + b) <-> inside m' (y' + a) (x' + b)) /\
    (inside m (y + a) (x + b) -> im_px m (y + a) (x + b) = im_px m' (y' + a) (x' + b)).
(** how far the preparation looks: the low-pass, and one pixel more for the additional 3x3 smoothing *)
Definition reach (dim_lp filter_hp : Z) : Z := Z.max dim_lp 0 + (if filter_hp =? 1 then 1 else 0).
