(** Model of segmentation.py: targ_rec, fast_targ_rec and the beginning of
    peak_fit.  Grey values and all integer quantities are integers (numba
    promotes uint8 to int64; no overflow is modelled).  numba does not check
    array bounds: where it would access memory outside an array the model raises
    IndexError instead (the theorems show where this cannot happen). *)
From Verif Require Import Base F64 Model_corr.
Local Open Scope Z_scope.

(** a 2D grey value image: height, width and the pixel in row y, column x *)
Record image := mk_image { im_h : Z; im_w : Z; im_px : Z -> Z -> Z }.
(** numpy index along an axis of length n *)
Definition axis (n i : Z) : option Z :=
  if (0 <=? i) && (i <? n) then Some i else if (- n <=? i) && (i <? 0) then Some (i + n) else None.
(** img[y, x] *)
Definition iget (m : image) (y x : Z) : result Z :=
  match axis (im_h m) y, axis (im_w m) x with
  | Some y', Some x' => Ok (im_px m y' x')
  | _, _ => Exn IndexError
  end.
(** img[y, x] = v *)
Definition iset (m : image) (y x v : Z) : result image :=
  match axis (im_h m) y, axis (im_w m) x with
  | Some y', Some x' => Ok (mk_image (im_h m) (im_w m) (fun a b => if (a =? y') && (b =? x') then v else im_px m a b))
  | _, _ => Exn IndexError
  end.
(** a and b and ..., left to right, stopping at the first false *)
Fixpoint andM (l : list (result bool)) : result bool :=
  match l with
  | [] => Ok true
  | r :: t => do b <- r; if b then andM t else Ok false
  end.
(** v >= img[y, x] *)
Definition ge_px (v : Z) (m : image) (y x : Z) : result bool := do g <- iget m y x; Ok (v >=? g).

(** constants.py:26 *)
Definition MAX_TARGETS : Z := 20480.
Definition CORRES_NONE : Z := -1.

(** the limits passed to fast_targ_rec (segmentation.py:86-102) *)
Record limits := mk_limits
  { l_thres : Z; l_disco : Z; l_nnmin : Z; l_nnmax : Z; l_nxmin : Z; l_nxmax : Z; l_nymin : Z; l_nymax : Z; l_sumg_min : Z;
    l_xmin : Z; l_xmax : Z; l_ymin : Z; l_ymax : Z }.

(** local variables of the growing loop *)
Record grow := mk_grow
  { g_img0 : image; g_sumg : Z; g_xa : Z; g_xb : Z; g_ya : Z; g_yb : Z; g_x : Z; g_y : Z; g_numpix : Z;
    g_wait : list (Z * Z); g_nwait : Z }.

Section Rec.
Variable img : image.
Variable L : limits.

(** segmentation.py:171-210: neighbour (xn, yn) of a pixel with grey value gvref.
    [x], [y] are kept as exact integers (the code has them as float64, exact below 2^53). *)
Definition visit (gvref : Z) (st : grow) (xy : Z * Z) : result grow :=
  let '(xn, yn) := xy in
  if (xn >=? l_xmax L) || (yn >=? l_ymax L) || (xn <? 0) || (yn <? 0) then Ok st else
  do gv <- iget (g_img0 st) yn xn;
  do ok <- andM [Ok (gv >? l_thres L); Ok (xn >? l_xmin L - 1); Ok (xn <? l_xmax L + 1); Ok (yn >? l_ymin L - 1);
                 Ok (yn <? l_ymax L + 1); Ok (gv <=? gvref + l_disco L);
                 ge_px (gvref + l_disco L) img (yn - 1) xn; ge_px (gvref + l_disco L) img (yn + 1) xn;
                 ge_px (gvref + l_disco L) img yn (xn - 1); ge_px (gvref + l_disco L) img yn (xn + 1)];
  if ok then
    do img0 <- iset (g_img0 st) yn xn 0;
    do w <- pyset (g_wait st) (g_nwait st) (xn, yn);
    Ok (mk_grow img0 (g_sumg st + gv)
          (if xn <? g_xa st then xn else g_xa st) (if xn >? g_xb st then xn else g_xb st)
          (if yn <? g_ya st then yn else g_ya st) (if yn >? g_yb st then yn else g_yb st)
          (g_x st + xn * (gv - l_thres L)) (g_y st + yn * (gv - l_thres L)) (g_numpix st + 1) w (g_nwait st + 1))
  else Ok st.

(** segmentation.py:212-217: drop the first entry of the wait list *)
Definition shift (w : list (Z * Z)) (n_wait : Z) : result (list (Z * Z)) :=
  do w <- foldM (fun w m => do v <- pyget w (m + 1); pyset w m v) (zrange 0 n_wait) w;
  pyset w n_wait (0, 0).

(** segmentation.py:158-217: one round of the while loop *)
Definition round (st : grow) : result grow :=
  do p <- pyget (g_wait st) 0;
  let '(x0, y0) := p in
  do gvref <- iget img y0 x0;
  do st <- foldM (visit gvref) [(x0 - 1, y0); (x0 + 1, y0); (x0, y0 - 1); (x0, y0 + 1)] st;
  do w <- shift (g_wait st) (g_nwait st - 1);
  Ok (mk_grow (g_img0 st) (g_sumg st) (g_xa st) (g_xb st) (g_ya st) (g_yb st) (g_x st) (g_y st) (g_numpix st) w (g_nwait st - 1)).

(** segmentation.py:158: while n_wait > 0, at most [fuel] rounds *)
Fixpoint rounds (fuel : nat) (st : grow) : result grow :=
  if g_nwait st >? 0 then
    match fuel with O => Exn OutOfFuel | S k => do st <- round st; rounds k st end
  else Ok st.

(** segmentation.py:129-138: is pixel (i, j) of the working copy a local maximum *)
Definition local_max (img0 : image) (gv i j : Z) : result bool :=
  andM [ge_px gv img0 i (j - 1); ge_px gv img0 i (j + 1); ge_px gv img0 (i - 1) j; ge_px gv img0 (i + 1) j;
        ge_px gv img0 (i - 1) (j - 1); ge_px gv img0 (i + 1) (j - 1); ge_px gv img0 (i - 1) (j + 1); ge_px gv img0 (i + 1) (j + 1)].

(** segmentation.py:219-248: accept or drop the finished region.  The row
    [x, y, CORRES_NONE, n_targets, numpix, nx, ny, sumg] as the Target targ_rec makes of it (75-78). *)
Definition finish (st : grow) (pix : list target) : list target :=
  if (g_xa st =? l_xmin L - 1) || (g_ya st =? l_ymin L - 1) || (g_xb st =? l_xmax L + 1) || (g_yb st =? l_ymax L + 1) then pix else
  let nx := g_xb st - g_xa st + 1 in
  let ny := g_yb st - g_ya st + 1 in
  if (g_numpix st >=? l_nnmin L) && (g_numpix st <=? l_nnmax L) && (nx >=? l_nxmin L) && (nx <=? l_nxmax L) &&
     (ny >=? l_nymin L) && (ny <=? l_nymax L) && (g_sumg st >? l_sumg_min L) then
    let sumg := g_sumg st - g_numpix st * l_thres L in
    let half := fdiv (f_of_Z 1) (f_of_Z 2) in
    pix ++ [mk_target (Z.of_nat (length pix)) (fadd (fdiv (f_of_Z (g_x st)) (f_of_Z sumg)) half)
              (fadd (fdiv (f_of_Z (g_y st)) (f_of_Z sumg)) half) (g_numpix st) nx ny sumg CORRES_NONE]
  else pix.

(** segmentation.py:124-248: pixel (i, j) of the scan; the wait list (of
    [cap] entries, MAX_TARGETS in the code) is shared by all regions; it holds zeros between regions *)
Variable cap : nat.
Definition scan_pixel (i : Z) (st : image * list target) (j : Z) : result (image * list target) :=
  let '(img0, pix) := st in
  do gv <- iget img0 i j;
  if gv >? l_thres L then
    do peak <- local_max img0 gv i j;
    if (peak : bool) then
      do img0 <- iset img0 i j 0;
      do w <- pyset (repeat (0, 0) cap) 0 (j, i);
      let gv' := gv - l_thres L in
      do g <- rounds (Z.to_nat (im_h img * im_w img) + 1) (mk_grow img0 gv j j i i (j * gv') (i * gv') 1 w 1);
      Ok (g_img0 g, finish g pix)
    else Ok (img0, pix)
  else Ok (img0, pix).
(** segmentation.py:123-248 *)
Definition scan_row (st : image * list target) (i : Z) : result (image * list target) :=
  foldM (scan_pixel i) (zrange (l_xmin L) (l_xmax L)) st.
(** segmentation.py:86-253 *)
Definition fast_targ_rec : result (list target) :=
  do st <- foldM scan_row (zrange (l_ymin L) (l_ymax L)) (img, []);
  Ok (snd st).
End Rec.

(** parameters.py:590-602, the fields used here *)
Record targ_par := mk_targ_par
  { tpar_gvthresh : list Z; tpar_discont : Z; tpar_nnmin : Z; tpar_nnmax : Z; tpar_nxmin : Z; tpar_nxmax : Z;
    tpar_nymin : Z; tpar_nymax : Z; tpar_sumg_min : Z }.
(** segmentation.py:32-83 *)
Definition targ_rec (img : image) (tp : targ_par) (xmin xmax ymin ymax imx imy num_cam : Z) : result (list target) :=
  do thres <- pyget (tpar_gvthresh tp) num_cam;
  let xmin := if xmin <=? 0 then 1 else xmin in
  let ymin := if ymin <=? 0 then 1 else ymin in
  let xmax := if xmax >=? imx then imx - 1 else xmax in
  let ymax := if ymax >=? imy then imy - 1 else ymax in
  fast_targ_rec img (mk_limits thres (tpar_discont tp) (tpar_nnmin tp) (tpar_nnmax tp) (tpar_nxmin tp) (tpar_nxmax tp)
    (tpar_nymin tp) (tpar_nymax tp) (tpar_sumg_min tp) xmin xmax ymin ymax) (Z.to_nat MAX_TARGETS).

(** segmentation.py:585-632; cparam.imx, cparam.imy are [imx], [imy] *)
Definition target_recognition (img : image) (tp : targ_par) (cam imx imy : Z) (subrange_x subrange_y : option (Z * Z)) : result (list target) :=
  let '(xmin, xmax) := match subrange_x with None => (0, imx) | Some r => r end in
  let '(ymin, ymax) := match subrange_y with None => (0, imy) | Some r => r end in
  if (im_h img <? ymax) || (im_w img <? xmax) then Exn ValueError else
  targ_rec img tp xmin xmax ymin ymax imx imy cam.

(** segmentation.py:266-305, peak_fit up to the first peak; img is a flat list.
    waitlist is [[]] (283): writing waitlist[0][0] raises IndexError, so
    nothing after a first peak is reachable and, if there is no peak, all later
    loops (348-486) find label 0 everywhere and no peaks, and the result is empty.
    The later reads label_img[n] (348-353) are modelled for their IndexError only. *)
Section Peak.
Variable img : list Z.
Variables thres xmin xmax ymin ymax imx imy : Z.
Definition ge_flat (v n : Z) : result bool := do g <- pyget img n; Ok (v >=? g).
Definition peak_scan (i j : Z) : result unit :=
  let n := i * imx + j in
  do gv <- pyget img n;
  if gv <=? thres then Ok tt else
  do _ <- pyget (repeat 0 (Z.to_nat (imx * imy))) n;
  do peak <- andM [ge_flat gv (n - 1); ge_flat gv (n + 1); ge_flat gv (n - imx); ge_flat gv (n + imx);
                   ge_flat gv (n - imx - 1); ge_flat gv (n + imx - 1); ge_flat gv (n - imx + 1); ge_flat gv (n + imx + 1)];
  if (peak : bool) then do _ <- pyset ([] : list Z) 0 j; Ok tt else Ok tt.
Definition peak_fit : result (list target) :=
  do _ <- foldM (fun _ i => foldM (fun _ j => peak_scan i j) (zrange xmin xmax) tt) (zrange ymin (ymax - 1)) tt;
  do _ <- foldM (fun _ i => foldM (fun _ j => do _ <- pyget (repeat 0 (Z.to_nat (imx * imy))) (i * imx + j); Ok tt) (zrange xmin xmax) tt)
            (zrange ymin ymax) tt;
  Ok [].
End Peak.

(** segmentation.py:529-548, check_touch: [touch], [n_touch] are the peak's list and counter (fields 27-28; a new Peak has [] and 0) *)
Definition check_touch (touch : list Z) (n_touch p1 p2 : Z) : result (list Z * Z) :=
  if p2 =? 0 then Ok (touch, n_touch) else
  if p2 =? p1 then Ok (touch, n_touch) else
  do done <- foldM (fun done m => do v <- pyget touch m; Ok (if v =? p2 then true else done)) (zrange 0 n_touch) false;
  if (done : bool) then Ok (touch, n_touch) else
  do touch <- pyset touch n_touch p2;
  let n_touch := n_touch + 1 in
  Ok (touch, if n_touch >? 3 then 3 else n_touch).
