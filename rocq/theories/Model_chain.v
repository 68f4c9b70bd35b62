(** Model of the whole correspondence search, from detected targets to the
    lists of corresponding target numbers: match_coords (tracking_frame_buf.py),
    match_pairs with epi_mm and find_candidate, the clique searches and
    py_correspondences (correspondences.py).  Joins Model_misc, Model_cand and
    Model_corr. *)
From Verif Require Import Base F64 Model_corr Model_cand Model_misc.
Local Open Scope Z_scope.

Section Chain.
(** numpy's sort(order="corr") and sort(order="x"): any functions *)
Variable srt : list ntupel -> list ntupel.
Variable sort_x : list coord2d -> list coord2d.
(** flat metric coordinates of a pixel of a camera: pixel_to_metric and
    dist_to_flat with that camera's parameters; any function *)
Variable flat : Z -> f64 -> f64 -> f64 * f64.
(** epi_mm(x, y, calib[a], calib[b], mm, vpar) (epi.py): the end points of the
    epipolar segment in camera b, or an exception; any function *)
Variable epi : Z -> Z -> f64 -> f64 -> result (f64 * f64 * f64 * f64).
(** the volume parameters, and the sensor limits of camera b
    (find_candidate.py:66-76) *)
Variable vp : vol_limits.
Variable sens : Z -> sensor.

(** the shape arguments, correspondences.py:369-372 *)
Definition shape_of (t : target) : shape := mk_shape (t_n t) (t_nx t) (t_ny t) (t_sumg t).

(** correspondences.py:345-376: the candidates in camera i2 for entry i of the
    x-sorted coordinates of camera i1 *)
Definition pair_cands (counts : list Z) (flats : list (list coord2d)) (imgs : list (list target))
    (i1 i2 i : Z) : result (list (Z * f64 * f64)) :=
  do ca <- pyget flats i1;
  do c <- pyget ca i;
  do seg <- epi i1 i2 (c_x c) (c_y c);
  let '(xa12, ya12, xb12, yb12) := seg in
  do cb <- pyget flats i2;
  do tb <- pyget imgs i2;
  do nb <- pyget counts i2;
  do ta <- pyget imgs i1;
  do t <- pyget ta (c_pnr c);
  find_candidate cb tb nb xa12 ya12 xb12 yb12 (shape_of t) vp (sens i2).

(** correspondences.py:59-85: max(target_counts) entries per camera pair *)
Definition max_count (counts : list Z) : Z := fold_right Z.max 0 counts.

(** correspondences.py:472-585, 588-652 for num_cams >= 2: target counts
    (545-549), adjacency lists, match_pairs, then the clique searches and the
    distribution of the results *)
Definition py_correspondences (corrmin : f64) (num_cams all_cam_flag : Z)
    (flats : list (list coord2d)) (imgs : list (list target))
  : result (list (list (list (Z * f64 * f64))) * Z * list (list target)) :=
  let counts := map (fun ts => Z.of_nat (length ts)) imgs in
  do cl <- match_pairs (pair_cands counts flats imgs) num_cams counts
             (empty_adj (Z.to_nat num_cams) (Z.to_nat (max_count counts)));
  py_correspondences_multi srt cl counts corrmin num_cams all_cam_flag flats imgs.

(** what a caller runs: match_coords (tracking_frame_buf.py:887-921) with
    reset_numbers for every camera, then py_correspondences *)
Definition matched (imgs : list (list target)) : list (list target * list coord2d) :=
  map (fun '(a, ts) => match_coords (flat a) sort_x ts true) (enumerate imgs).
Definition match_targets (corrmin : f64) (num_cams all_cam_flag : Z) (imgs : list (list target)) :=
  let m := matched imgs in
  py_correspondences corrmin num_cams all_cam_flag (map snd m) (map fst m).
End Chain.
