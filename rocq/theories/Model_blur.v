(** The box blur written out in loops (image_processing.py:238-288), and masking (78-82).
    fast_box_blur_numba takes a dict, which numba does not accept, so it is modelled as Python runs it without numba (prange is
    range).  Simplifications: pixels and sums are integers of any size (the code's accumulator has the image's dtype, its rows are
    int32); adding arrays of different lengths raises ValueError (numpy would repeat an array of length 1, which only occurs in an
    image of width 1, where the row loop has failed before). *)
From Verif Require Import Base.
Local Open Scope Z_scope.

(** numpy slice a[i:j] for bounds that may be negative or too large *)
Definition clip (n : nat) (i : Z) : nat := Z.to_nat (Z.min (Z.of_nat n) (if i <? 0 then Z.max 0 (i + Z.of_nat n) else i)).
Definition slice {A} (l : list A) (i j : Z) : list A := let a := clip (length l) i in let b := clip (length l) j in firstn (b - a) (skipn a l).
(** numpy a[i:j] = v *)
Definition set_slice {A} (l : list A) (i j : Z) (v : list A) : result (list A) :=
  let a := clip (length l) i in let b := Nat.max a (clip (length l) j) in
  if Nat.eqb (length v) (b - a) then Ok (firstn a l ++ v ++ skipn b l) else Exn ValueError.
(** elementwise operations of arrays *)
Definition vmap2 (f : Z -> Z -> Z) (a b : list Z) : result (list Z) :=
  if Nat.eqb (length a) (length b) then Ok (map (fun xy => f (fst xy) (snd xy)) (combine a b)) else Exn ValueError.

Section Blur.
Variables span imx imy : Z.
Variable src : list Z.
(** image_processing.py:241-242 *)
Definition bn : Z := 2 * span + 1.
Definition bnq : Z := bn * bn.
(** image_processing.py:249-266: the sums along row i *)
Definition blur_row (row : list Z) (i : Z) : result (list Z) :=
  let r := i * imx in
  do accum <- pyget src r;                                                              (* 251 *)
  do row <- pyset row r (accum * bn);                                                   (* 252 *)
  do sa <- foldM (fun (sa : list Z * Z) j => let '(row, accum) := sa in                  (* 254-256 *)
      do a <- pyget src (r + j - 1); do b <- pyget src (r + j + span);
      let accum := accum + (a + b) in
      do row <- pyset row (r + j) (accum * bn / (2 * j + 1)); Ok (row, accum)) (zrange 1 (span + 1)) (row, accum);
  do sa <- foldM (fun (sa : list Z * Z) j => let '(row, accum) := sa in                  (* 258-260 *)
      do a <- pyget src (r + j + span); do b <- pyget src (r + j - span - 1);
      let accum := accum + (a - b) in
      do row <- pyset row (r + j) accum; Ok (row, accum)) (zrange (span + 1) (imx - span)) sa;
  do sa <- foldM (fun (sa : list Z * Z) j => let '(row, accum) := sa in                  (* 262-264 *)
      do a <- pyget src (r + j - span - 1); do b <- pyget src (r + j + span);
      let accum := accum - (a + b) in
      do row <- pyset row (r + j) (accum * bn / (2 * (imx - j - 1) + 1)); Ok (row, accum)) (zrange (imx - span) imx) sa;
  Ok (fst sa).
(** image_processing.py:238-288 *)
Definition fast_box_blur_numba : result (list Z) :=
  let row := repeat 0 (Z.to_nat (imx * imy)) in                                         (* 244 *)
  let col := repeat 0 (Z.to_nat imx) in                                                 (* 245 *)
  let dest := repeat 0 (length src) in                                                  (* 246 *)
  do row <- foldM blur_row (zrange 0 imy) row;                                          (* 249-264 *)
  do col <- set_slice col 0 imx (slice row 0 imx);                                      (* 267 *)
  do dest <- set_slice dest 0 imx (map (fun c => c / bn) col);                          (* 268 *)
  do cd <- foldM (fun (cd : list Z * list Z) i => let '(col, dest) := cd in              (* 270-274 *)
      let ptr1 := slice row ((2 * i - 1) * imx) ((2 * i + 1) * imx) in
      let ptr2 := skipn (clip (length ptr1) imx) ptr1 in
      do s <- vmap2 Z.add ptr1 ptr2; do col <- vmap2 Z.add col s;
      do dest <- set_slice dest (i * imx) ((i + 1) * imx) (map (fun c => bn * c / bnq / (2 * i + 1)) col); Ok (col, dest))
    (zrange 1 (span + 1)) (col, dest);
  do cd <- foldM (fun (cd : list Z * list Z) i => let '(col, dest) := cd in              (* 276-280 *)
      let ptr1 := slice row ((i - span - 1) * imx) (i * imx) in
      let ptr2 := slice row ((i + span) * imx) ((i + span + 1) * imx) in
      do s <- vmap2 Z.sub ptr2 ptr1; do col <- vmap2 Z.add col s;
      do dest <- set_slice dest (i * imx) ((i + 1) * imx) (map (fun c => c / bnq) col); Ok (col, dest))
    (zrange (span + 1) (imy - span)) cd;
  do cd <- foldM (fun (cd : list Z * list Z) i => let '(col, dest) := cd in              (* 282-286 *)
      let ptr1 := slice row ((imy - 2 * i - 1) * imx) ((imy - 2 * i + 1) * imx) in
      let ptr2 := skipn (clip (length ptr1) imx) ptr1 in
      do s <- vmap2 Z.add ptr1 ptr2; do col <- vmap2 Z.sub col s;
      do dest <- set_slice dest ((imy - i) * imx) (Z.of_nat (length dest)) (map (fun c => bn * c / bnq / (2 * i + 1)) col); Ok (col, dest))
    (rev (zrange 1 (span + 1))) cd;
  Ok (snd cd).
End Blur.
(** image_processing.py:78-82: np.where(img_mask == 0, 0, img), for arrays of one shape *)
Definition subtract_mask (img mask : list Z) : result (list Z) := vmap2 (fun p m => if m =? 0 then 0 else p) img mask.
