(** Model of the array forms of scalar functions (imgcoord.py, trafo.py), of the
    matrix product of ray_tracing.py and of the small vector helpers of
    vec_utils.py.  Over the reals, except the matrix product (binary64). *)
From Coq Require Import Reals.
From Verif Require Import F64 Base Model_geo.
Local Open Scope R_scope.

(** an array is a list of rows; all results of a loop over the rows, the first
    exception ends it *)
Definition each {A B} (f : A -> result B) (l : list A) : result (list B) :=
  foldM (fun out a => do b <- f a; Ok (out ++ [b])) l [].

(** imgcoord.py:63-72; [rows] is an (n, 3) array *)
Definition flat_image_coordinates (rows : list vec) (c : calib) (mm : mmpar) : result (list (R * R)) :=
  each (fun row => flat_image_coord row c mm) rows.

(** imgcoord.py:94-107; [rows] is an (n, k) array, k not necessarily 3 *)
Definition image_coordinates (rows : list (list R)) (c : calib) (mm : mmpar) : result (list (R * R)) :=
  each (fun row => match row with [x; y; z] => img_coord (V x y z) c mm | _ => Exn ValueError end) rows.

(** trafo.py:45-66; the pixels are integers (n, 2) *)
Definition arr_pixel_to_metric (pixel : list (Z * Z)) (imx imy : Z) (pix_x pix_y : R) : list (R * R) :=
  map (fun p => ((IZR (fst p) - IZR imx / 2) * pix_x, (IZR imy / 2 - IZR (snd p)) * pix_y)) pixel.

(** trafo.py:104-132; an (n, 2) array *)
Definition arr_metric_to_pixel (metric : list (R * R)) (imx imy : Z) (pix_x pix_y : R) : list (R * R) :=
  map (fun p => (fst p / pix_x + IZR imx / 2, IZR imy / 2 - snd p / pix_y)) metric.

(** vec_utils.py:19-21 *)
Definition vec_set (x y z : R) : vec := V x y z.
(** vec_utils.py:25-27 *)
Definition norm3 (x y z : R) : R := vnorm (vec_set x y z).
(** vec_utils.py:97-99 *)
Definition vec_init (length : Z) : list R := repeat 0 (Z.to_nat length).
(** vec_utils.py:82-84: np.allclose(vec1, vec2, atol=tol) with the default rtol = 1e-05
    (1e-05 and the products are taken as reals) *)
Definition vec_cmp (a b : vec) (tol : R) : bool :=
  let close x y := if Rle_dec (Rabs (x - y)) (tol + / 100000 * Rabs y) then true else false in
  close (vx a) (vx b) && close (vy a) (vy b) && close (vz a) (vz b).

(** ray_tracing.py:329-336.  The rows are computed by prange, that is, in any
    order: [order] is the order in which the values of i are done. *)
Definition matmul_entry (b c : list (list f64)) (i j n : Z) : result f64 :=
  foldM (fun temp ll => do br <- pyget b i; do x <- pyget br ll; do cr <- pyget c ll; do y <- pyget cr j;
                        Ok (fadd temp (fmul x y))) (zrange 0 n) fzero.
Definition matmul_row (b c : list (list f64)) (n k i : Z) (a : list (list f64)) : result (list (list f64)) :=
  foldM (fun a j => do t <- matmul_entry b c i j n; do r <- pyget a i; do r' <- pyset r j t; pyset a i r') (zrange 0 k) a.
Definition matmul_numba_optimized (order : list Z) (a b c : list (list f64)) (n k : Z) : result (list (list f64)) :=
  foldM (fun a i => matmul_row b c n k i a) order a.
