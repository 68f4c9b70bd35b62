(** Models of match_coords and get_by_pnrs (tracking_frame_buf.py), sortgrid
    (sortgrid.py) and prepare_image (image_processing.py). *)
From Verif Require Import Base F64 Model_corr.
Local Open Scope Z_scope.

Definition set_pnr (t : target) (v : Z) : target :=
  mk_target v (t_x t) (t_y t) (t_n t) (t_nx t) (t_ny t) (t_sumg t) (t_tnr t).

(** ---- tracking_frame_buf.py:887-921 match_coords ---- *)
Section Match.
(** pixel_to_metric followed by dist_to_flat (914-915); any function of the pixel position *)
Variable flat : f64 -> f64 -> f64 * f64.
(** ndarray.sort(order="x") (918); any function, its properties are hypotheses *)
Variable sort_x : list coord2d -> list coord2d.
(** 908-916: one target. The Target objects are mutated when reset_numbers is set. *)
Definition match_one (reset : bool) (st : list target * list coord2d) (tt : Z * target) : list target * list coord2d :=
  let '(targs, mc) := st in
  let '(tnum, targ) := tt in
  let targ := if reset then set_pnr targ tnum else targ in
  let '(x, y) := flat (t_x targ) (t_y targ) in
  (targs ++ [targ], mc ++ [mk_coord2d (t_pnr targ) x y]).
Definition enumerate {A} (l : list A) : list (Z * A) := combine (zrange 0 (Z.of_nat (length l))) l.
(** result: the targets after the call, and the matched block *)
Definition match_coords (targs : list target) (reset : bool) : list target * list coord2d :=
  let '(targs', mc) := fold_left (match_one reset) (enumerate targs) ([], []) in
  (targs', sort_x mc).
End Match.

(** constants.py:7; -1e10 is exact *)
Definition COORD_UNUSED : f64 := f_of_Z (-10000000000).
(** np.flatnonzero(v == pnrs)[0] if any *)
Fixpoint first_index (pnrs : list Z) (v : Z) : option nat :=
  match pnrs with
  | [] => None
  | p :: t => if v =? p then Some O else option_map S (first_index t v)
  end.
(** tracking_frame_buf.py:949-966 *)
Definition get_by_pnrs (mc : list coord2d) (pnrs : list Z) : list (f64 * f64) :=
  fold_left (fun pos pt => match first_index pnrs (c_pnr pt) with
                           | Some k => upd pos k (c_x pt, c_y pt)
                           | None => pos
                           end) mc (repeat (COORD_UNUSED, COORD_UNUSED) (length pnrs)).

(** ---- sortgrid.py ---- *)
(** constants.py:32; 1e20 = 5^20 * 2^20 is exact *)
Definition POS_INF : f64 := f_of_Z (10 ^ 20).
(** sortgrid.py:88-91 *)
Definition in_box (x y eps : f64) (t : target) : bool :=
  flt (fsub y eps) (t_y t) && flt (t_y t) (fadd y eps) && (flt (fsub x eps) (t_x t) && flt (t_x t) (fadd x eps)).
(** sortgrid.py:92 *)
Definition pix_dist (x y : f64) (t : target) : f64 :=
  fsqrt (fadd (fmul (fsub x (t_x t)) (fsub x (t_x t))) (fmul (fsub y (t_y t)) (fsub y (t_y t)))).
(** sortgrid.py:69-97 *)
Definition nearest_neighbour_pix (pix : list target) (x y eps : f64) : Z :=
  fst (fold_left (fun (st : Z * f64) (ct : Z * target) =>
    let '(pnr, dmin) := st in let '(count, t) := ct in
    if in_box x y eps t then let d := pix_dist x y t in if flt d dmin then (count, d) else st else st)
    (enumerate pix) (PT_UNUSED, POS_INF)).
(** tracking_frame_buf.py:77-87, Target() *)
Definition new_target : target := mk_target PT_UNUSED fzero fzero 0 0 0 0 (-1).
(** an entry of sorted_pix: its own fresh Target, or the object pix[j] (sortgrid.py:62 stores a reference) *)
Inductive entry := Fresh | Shared (j : Z).
Section Sortgrid.
(** img_coord followed by metric_to_pixel for calibration point i (50-52); may fail *)
Variable project : Z -> result (f64 * f64).
Variables (eps imx imy : f64).
(** sortgrid.py:54-59 *)
Definition on_sensor (p : f64 * f64) : bool :=
  flt (fneg eps) (fst p) && flt (fneg eps) (snd p) && flt (fst p) (fadd imx eps) && flt (snd p) (fadd imy eps).
(** sortgrid.py:49-64: calibration point i; state: the detections and sorted_pix *)
Definition sort_one (st : list target * list entry) (i : Z) : result (list target * list entry) :=
  let '(pix, sorted) := st in
  do p <- project i;
  if on_sensor p then
    let j := nearest_neighbour_pix pix (fst p) (snd p) eps in
    if j =? -999 then Ok st else
    do t <- pyget pix j;
    do sorted <- pyset sorted i (Shared j);
    do pix <- pyset pix j (set_pnr t i);
    Ok (pix, sorted)
  else Ok st.
(** what the caller sees in an entry *)
Definition deref (pix : list target) (e : entry) : result target :=
  match e with Fresh => Ok new_target | Shared j => pyget pix j end.
(** sortgrid.py:15-66: the sorted list as the caller sees it, and the detections after the call *)
Definition sortgrid (nfix : Z) (pix : list target) : result (list target * list target) :=
  do st <- foldM sort_one (zrange 0 nfix) (pix, repeat Fresh (Z.to_nat nfix));
  let '(pix, sorted) := st in
  do l <- foldM (fun l e => do t <- deref pix e; Ok (l ++ [t])) sorted [];
  Ok (l, pix).
End Sortgrid.

(** ---- image_processing.py:91-143 prepare_image: uint8 image as list of pixels ---- *)
Section Prepare.
(** ndimage.uniform_filter(size) and the 3x3 convolution read from the file (None if unreadable) *)
Variable uniform : Z -> list Z -> list Z.
Variable file_filter : option (list Z -> list Z).
Fixpoint zip_or (a b : list Z) : list Z :=
  match a, b with x :: a, y :: b => Z.lor x y :: zip_or a b | _, _ => [] end.
(** image_processing.py:109-143; filter_hp, and whether a filter file is named *)
Definition prepare_image (img : list Z) (dim_lp filter_hp : Z) (has_file : bool) : result (list Z) :=
  let img_lp := uniform (dim_lp * 2 + 1) img in
  let img_hp := zip_or img img_lp in
  if filter_hp =? 1 then Ok (uniform 3 img_hp)
  else if (filter_hp =? 2) && has_file then
    match file_filter with Some f => Ok (f img_hp) | None => Exn IOError end
  else Ok img_hp.
End Prepare.
