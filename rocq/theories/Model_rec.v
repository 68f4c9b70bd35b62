(** Model of the record helpers of openptv_python/tracking_frame_buf.py (Target,
    Pathinfo, Corres: comparison, reset, field access, sorting) and of the
    foundpix array helpers of track.py. *)
From Verif Require Import F64 Model_corr Model_cand Model_track Base.
Local Open Scope Z_scope.

(** tracking_frame_buf.py:80-87 Target() *)
Definition target_new : target := mk_target PT_UNUSED fzero fzero 0 0 0 0 (-1).

(** tracking_frame_buf.py:89-91 *)
Definition target_set_pos (t : target) (pos : f64 * f64) : target :=
  mk_target (t_pnr t) (fst pos) (snd pos) (t_n t) (t_nx t) (t_ny t) (t_sumg t) (t_tnr t).
(** tracking_frame_buf.py:93-95 *)
Definition target_set_pnr (t : target) (pnr : Z) : target :=
  mk_target pnr (t_x t) (t_y t) (t_n t) (t_nx t) (t_ny t) (t_sumg t) (t_tnr t).
(** tracking_frame_buf.py:97-101 *)
Definition target_set_pixel_counts (t : target) (n nx ny : Z) : target :=
  mk_target (t_pnr t) (t_x t) (t_y t) n nx ny (t_sumg t) (t_tnr t).
(** tracking_frame_buf.py:103-105 *)
Definition target_set_sum_grey_value (t : target) (sumg : Z) : target :=
  mk_target (t_pnr t) (t_x t) (t_y t) (t_n t) (t_nx t) (t_ny t) sumg (t_tnr t).
(** tracking_frame_buf.py:107-109 *)
Definition target_sum_grey_value (t : target) : Z := t_sumg t.
(** tracking_frame_buf.py:111-114 *)
Definition target_pos (t : target) : f64 * f64 := (t_x t, t_y t).
(** tracking_frame_buf.py:116-118 *)
Definition target_count_pixels (t : target) : Z * Z * Z := (t_n t, t_nx t, t_ny t).

(** tracking_frame_buf.py:120-130 Target.__eq__, and 249-260 compare_targets,
    which is the same comparison *)
Definition target_eq (a b : target) : bool :=
  (t_pnr a =? t_pnr b) && feq (t_x a) (t_x b) && feq (t_y a) (t_y b) && (t_n a =? t_n b) &&
  (t_nx a =? t_nx b) && (t_ny a =? t_ny b) && (t_sumg a =? t_sumg b) && (t_tnr a =? t_tnr b).
Definition compare_targets (t1 t2 : target) : bool := target_eq t1 t2.

(** tracking_frame_buf.py:133-135: sorted(targets, key=lambda t: t.y).  Python's
    sorted is a stable sort: for keys that are not nan its result is unique, and
    insertion computes it.  Each new target goes behind those with the same y. *)
Fixpoint insert_y (t : target) (l : list target) : list target :=
  match l with
  | [] => [t]
  | u :: r => if flt (t_y t) (t_y u) then t :: u :: r else u :: insert_y t r
  end.
Definition sort_target_y (l : list target) : list target := fold_left (fun acc t => insert_y t acc) l [].

(** [a == b] for Python lists: elements are compared with "is" first, so a list
    with the same nan object at the same place is equal; [same i] says whether
    the two lists hold the same object at place i *)
Fixpoint pylist_eq (same : nat -> bool) (a b : list f64) : bool :=
  match a, b with
  | [], [] => true
  | x :: a', y :: b' => (same O || feq x y) && pylist_eq (fun i => same (S i)) a' b'
  | _, _ => false
  end.
(** ... and for lists of integers *)
Fixpoint intlist_eq (a b : list Z) : bool :=
  match a, b with
  | [], [] => true
  | x :: a', y :: b' => (x =? y) && intlist_eq a' b'
  | _, _ => false
  end.

(** tracking_frame_buf.py:276-288 Pathinfo.__eq__ of two Pathinfo objects, and
    303-305 compare_path_info; (self.x == other.x).all() compares three floats *)
Definition path_eq (same : nat -> bool) (a b : pinfo) : bool :=
  let '(ax, ay, az) := p_x a in let '(bx, by', bz) := p_x b in
  (feq ax bx && feq ay by' && feq az bz) && (p_prev a =? p_prev b) && (p_next a =? p_next b) && (p_prio a =? p_prio b) &&
  pylist_eq same (p_decis a) (p_decis b) && feq (p_final a) (p_final b) && intlist_eq (p_link a) (p_link b) &&
  (p_inlist a =? p_inlist b).
Definition compare_path_info (same : nat -> bool) (p1 p2 : pinfo) : bool := path_eq same p1 p2.

(** tracking_frame_buf.py:296-300 *)
Definition reset_links (p : pinfo) : pinfo :=
  mk_pinfo (p_x p) PREV_NONE NEXT_NONE PRIO_DEFAULT (p_decis p) (p_final p) (p_link p) (p_inlist p).

(** tracking_frame_buf.py:60-73 compare_corres for arrays of the same length: [==]
    compares records field by field, [all] over the array *)
Definition corres_eq (c1 c2 : list corres) : bool :=
  forallb (fun ab => (co_nr (fst ab) =? co_nr (snd ab)) && intlist_eq (co_p (fst ab)) (co_p (snd ab))) (combine c1 c2).

(** tracking_frame_buf.py:924-946 *)
Definition matched_coords_as_arrays (mc : list coord2d) : list (f64 * f64) * list Z :=
  (map (fun c => (c_x c, c_y c)) mc, map c_pnr mc).

(** track.py:65-81: arr[i] is a view of row i, so the rows are changed in place *)
Definition reset_foundpix_array (arr : list foundpix) (arr_len num_cams : Z) : result (list foundpix) :=
  foldM (fun arr i =>
    do f <- pyget arr i;
    do w <- foldM (fun w j => pyset w j 0) (zrange 0 num_cams) (whichcam f);
    pyset arr i (mk_fp TR_UNUSED 0 w)) (zrange 0 arr_len) arr.

(** track.py:84-97 *)
Definition copy_foundpix_array (dest src : list foundpix) (arr_len num_cams : Z) : result (list foundpix) :=
  foldM (fun dest i =>
    do d <- pyget dest i; do s <- pyget src i;
    do w <- foldM (fun w cam => do v <- pyget (whichcam s) cam; pyset w cam v) (zrange 0 num_cams) (whichcam d);
    pyset dest i (mk_fp (ftnr s) (freq s) w)) (zrange 0 arr_len) dest.
