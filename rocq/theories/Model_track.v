(** Model of openptv_python/track.py: candidate search in pixel space,
    candidate ranking, link decisions, adding particles, and one forward /
    backward tracking step.  Geometry (projection, ray intersection, norms)
    enters the step as arbitrary functions (section variables). *)
From Verif Require Import Base F64 Model_corr Model_cand.
Local Open Scope Z_scope.

(** constants.py *)
Definition MAX_CANDS : Z := 4.
Definition POSI : Z := 80.
Definition PREV_NONE : Z := -1.
Definition NEXT_NONE : Z := -2.
Definition TR_UNUSED : Z := -1.
Definition TR_MAX_CAMS : Z := 4.
Definition ADD_PART : Z := 3.
Definition PRIO_DEFAULT : Z := 2.
Definition f1e20 : f64 := S754_finite false 6103515625000000 14.        (* 1e20 = POS_INF *)
Definition COORD_UNUSED : f64 := S754_finite true 5242880000000000 (-19). (* -1e10 *)

(** ---------------- search windows in pixel space ---------------- *)
Record window := mk_window { w_xmin : f64; w_xmax : f64; w_ymin : f64; w_ymax : f64 }.

(** track.py:288-297 (candsearch_in_pix) and 381-386 (candsearch_in_pix_rest):
    the requested rectangle clipped to the image *)
Definition clip_window (cx cy dl dr du dd : f64) (imx imy : Z) : window :=
  let xmin := fsub cx dl in let xmax := fadd cx dr in
  let ymin := fsub cy du in let ymax := fadd cy dd in
  {| w_xmin := if flt xmin fzero then fzero else xmin;
     w_xmax := if fgt xmax (f_of_Z imx) then f_of_Z imx else xmax;
     w_ymin := if flt ymin fzero then fzero else ymin;
     w_ymax := if fgt ymax (f_of_Z imy) then f_of_Z imy else ymax |}.

(** track.py:299 / 388 *)
Definition center_in_image (cx cy : f64) (imx imy : Z) : bool :=
  fge cx fzero && fle cx (f_of_Z imx) && fge cy fzero && fle cy (f_of_Z imy).

(** track.py:321 / 404: strictly inside the window *)
Definition inside (w : window) (t : target) : bool :=
  flt (w_xmin w) (t_x t) && flt (t_x t) (w_xmax w) && flt (w_ymin w) (t_y t) && flt (t_y t) (w_ymax w).

Section Search.
(** distance in pixels, sqrt((cx-x)**2 + (cy-y)**2): any function *)
Variable pixdist : f64 -> f64 -> f64 -> f64 -> f64.

(** the four best so far: ((p1,d1),(p2,d2),(p3,d3),(p4,d4)) *)
Definition best4 := ((Z * f64) * (Z * f64) * (Z * f64) * (Z * f64))%type.

(** track.py:330-341 *)
Definition best4_insert (b : best4) (j : Z) (d : f64) : best4 :=
  let '(q1, q2, q3, q4) := b in
  let d1 := snd q1 in let d2 := snd q2 in let d3 := snd q3 in let d4 := snd q4 in
  if flt d d1 then ((j, d), q1, q2, q3)
  else if flt d1 d && flt d d2 then (q1, (j, d), q2, q3)
  else if flt d2 d && flt d d3 then (q1, q2, (j, d), q3)
  else if flt d3 d && flt d d4 then (q1, q2, q3, (j, d))
  else b.

(** track.py:316-341, one pass of the loop (dmin is not used afterwards) *)
Definition pix_step (nf : list target) (cx cy : f64) (w : window) (j : Z) (b : best4) : ctl best4 :=
  tryC (pyget nf j) (fun t =>
    if negb (t_tnr t =? -1) then
      if fgt (t_y t) (w_ymax w) then Ret b
      else if inside w t then Next (best4_insert b j (pixdist cx cy (t_x t) (t_y t)))
      else Next b
    else Next b).

(** track.py:300-312: binary search for the first row to look at *)
Definition pix_start (nf : list target) (num : Z) (ymin : f64) : result Z :=
  do j0 <- bin_loop (Z.to_nat num) (map t_y nf) ymin (num / 2) (num / 4);
  Ok (if j0 - 12 <? 0 then 0 else j0 - 12).

(** track.py:271-352 *)
Definition candsearch_in_pix (nf : list target) (num : Z) (cx cy dl dr du dd : f64) (imx imy : Z)
  : result (list Z) :=
  let w := clip_window cx cy dl dr du dd imx imy in
  if center_in_image cx cy imx imy then
    do j0 <- pix_start nf num (w_ymin w);
    do b <- runC (forC (zrange j0 num) (pix_step nf cx cy w)
                   ((TR_UNUSED, f1e20), (TR_UNUSED, f1e20), (TR_UNUSED, f1e20), (TR_UNUSED, f1e20)));
    let '(q1, q2, q3, q4) := b in
    Ok [fst q1; fst q2; fst q3; fst q4]
  else Ok [-1; -1; -1; -1].

(** track.py:400-411, one pass of the loop; state (p[0], dmin) *)
Definition rest_step (nf : list target) (cx cy : f64) (w : window) (j : Z) (s : Z * f64) : ctl (Z * f64) :=
  tryC (pyget nf j) (fun t =>
    if t_tnr t =? TR_UNUSED then
      if fgt (t_y t) (w_ymax w) then Ret s
      else if inside w t then
        let d := pixdist cx cy (t_x t) (t_y t) in
        if flt d (snd s) then Next (j, d) else Next s
      else Next s
    else Next s).

(** track.py:355-416.  [p0] is p[0] on entry; returns (counter, p[0]). *)
Definition candsearch_in_pix_rest (nf : list target) (num : Z) (cx cy dl dr du dd : f64) (p0 : Z) (imx imy : Z)
  : result (Z * Z) :=
  let w := clip_window cx cy dl dr du dd imx imy in
  if center_in_image cx cy imx imy then
    do j0 <- pix_start nf num (w_ymin w);
    do s <- runC (forC (zrange j0 num) (rest_step nf cx cy w) (p0, f1e20));
    Ok (if fst s =? -1 then 0 else 1, fst s)
  else Ok (0, p0).

(** ---------------- candidate registration and ranking ---------------- *)
(** track.py:50-52 Foundpix_dtype *)
Record foundpix := mk_fp { ftnr : Z; freq : Z; whichcam : list Z }.
Definition empty_fp : foundpix := mk_fp TR_UNUSED 0 (repeat 0 (Z.to_nat TR_MAX_CAMS)).

(** track.py:100-147.  [base] = cam*MAX_CANDS: reg is the slice points[base:] *)
Definition register_closest_neighbs (nf : list target) (num cam : Z) (cx cy dl dr du dd : f64)
    (imx imy : Z) (points : list foundpix) (base : Z) : result (list foundpix) :=
  do all_cands <- candsearch_in_pix nf num cx cy dl dr du dd imx imy;
  foldM (fun pts ci =>
    do c <- pyget all_cands ci;
    do f <- pyget pts (base + ci);
    if c =? PT_UNUSED then
      pyset pts (base + ci) (mk_fp TR_UNUSED (freq f) (whichcam f))
    else
      do wc <- pyset (whichcam f) cam 1;
      do t <- pyget nf c;
      pyset pts (base + ci) (mk_fp (t_tnr t) (freq f) wc))
  (zrange 0 MAX_CANDS) points.

(** track.py:495-499: mark in whichcam every camera whose four slots contain the same ftnr *)
Definition mark_cams (num_cams : Z) (pts : list foundpix) : result (list foundpix) :=
  foldM (fun pts i =>
    foldM (fun pts j =>
      foldM (fun pts m =>
        do f <- pyget pts i; do g <- pyget pts (4 * j + m);
        if ftnr f =? ftnr g then
          do wc <- pyset (whichcam f) j 1;
          pyset pts i (mk_fp (ftnr f) (freq f) wc)
        else Ok pts) (zrange 0 MAX_CANDS) pts)
    (zrange 0 num_cams) pts)
  (zrange 0 (num_cams * MAX_CANDS)) pts.

(** track.py:502-505 *)
Definition count_freq (num_cams : Z) (pts : list foundpix) : result (list foundpix) :=
  foldM (fun pts i =>
    foldM (fun pts j =>
      do f <- pyget pts i; do c <- pyget (whichcam f) j;
      if (c =? 1) && negb (ftnr f =? TR_UNUSED) then
        pyset pts i (mk_fp (ftnr f) (freq f + 1) (whichcam f))
      else Ok pts) (zrange 0 num_cams) pts)
  (zrange 0 (num_cams * MAX_CANDS)) pts.

(** track.py:508-511 and 520-523.  foundpix[j-1] and foundpix[j] are numpy
    record views, so the tuple assignment copies row j into row j-1 and then
    row j-1 (already overwritten) into row j: row j is kept, the old row j-1
    is lost. *)
Definition view_swap (pts : list foundpix) (j : Z) : result (list foundpix) :=
  do a <- pyget pts (j - 1); do b <- pyget pts j;
  if freq a <? freq b then pyset pts (j - 1) b else Ok pts.
Definition bubble (num_cams : Z) (pts : list foundpix) : result (list foundpix) :=
  let n := num_cams * MAX_CANDS in
  foldM (fun pts i => foldM view_swap (rev (zrange i n)) pts) (zrange 1 n) pts.

(** track.py:514-518 *)
Definition prune (num_cams : Z) (pts : list foundpix) : result (list foundpix) :=
  let n := num_cams * MAX_CANDS in
  foldM (fun pts i =>
    foldM (fun pts j =>
      do f <- pyget pts i; do g <- pyget pts j;
      if (ftnr f =? ftnr g) || (freq g <? 2) then pyset pts j (mk_fp TR_UNUSED 0 (whichcam g))
      else Ok pts) (zrange (i + 1) n) pts)
  (zrange 0 n) pts.

(** track.py:490-530; returns (different, foundpix) *)
Definition sort_candidates_by_freq (pts : list foundpix) (num_cams : Z) : result (Z * list foundpix) :=
  do pts <- mark_cams num_cams pts;
  do pts <- count_freq num_cams pts;
  do pts <- bubble num_cams pts;
  do pts <- prune num_cams pts;
  do pts <- bubble num_cams pts;
  do different <- foldM (fun k i => do f <- pyget pts i; Ok (if freq f =? 0 then k else k + 1))
                        (zrange 0 (num_cams * MAX_CANDS)) 0;
  Ok (different, pts).
End Search.

(** ---------------- frames ---------------- *)
Definition vec := (f64 * f64 * f64)%type.
(** tracking_frame_buf.py:263-273 Pathinfo *)
Record pinfo := mk_pinfo
  { p_x : vec; p_prev : Z; p_next : Z; p_prio : Z;
    p_decis : list f64; p_final : f64; p_link : list Z; p_inlist : Z }.
(** Corres_dtype: nr and p[4] *)
Record corres := mk_corres { co_nr : Z; co_p : list Z }.
(** tracking_frame_buf.py:309-338 Frame *)
Record frame := mk_frame
  { fr_path : list pinfo; fr_corr : list corres; fr_targ : list (list target);
    fr_numt : list Z; fr_num : Z }.

Definition set_prev (p : pinfo) (v : Z) : pinfo :=
  mk_pinfo (p_x p) v (p_next p) (p_prio p) (p_decis p) (p_final p) (p_link p) (p_inlist p).
Definition set_next (p : pinfo) (v : Z) : pinfo :=
  mk_pinfo (p_x p) (p_prev p) v (p_prio p) (p_decis p) (p_final p) (p_link p) (p_inlist p).
Definition set_path (f : frame) (l : list pinfo) : frame :=
  mk_frame l (fr_corr f) (fr_targ f) (fr_numt f) (fr_num f).

(** tracking_frame_buf.py:290-294 *)
Definition register_link_candidate (p : pinfo) (fitness : f64) (cand : Z) : result pinfo :=
  do d <- pyset (p_decis p) (p_inlist p) fitness;
  do l <- pyset (p_link p) (p_inlist p) cand;
  Ok (mk_pinfo (p_x p) (p_prev p) (p_next p) (p_prio p) d (p_final p) l (p_inlist p + 1)).

(** Pathinfo() with default fields, then x set and reset_links (725-748) *)
Definition new_pinfo (pos : vec) : pinfo :=
  mk_pinfo pos PREV_NONE NEXT_NONE PRIO_DEFAULT (repeat fzero (Z.to_nat POSI)) fzero (repeat 0 (Z.to_nat POSI)) 0.

(** np.resize(a, len+1): the data repeated cyclically, so the new row is row 0;
    zeros if the array was empty *)
Definition np_resize1 (l : list corres) : list corres :=
  match l with [] => [mk_corres 0 [0; 0; 0; 0]] | r :: _ => l ++ [r] end.

(** track.py:725-760 (the branch 735-737 indexes path_info beyond its end and
    raises).  [ref_corres] is the whole array, so ref_corres.p[cam] = v assigns
    row cam and ref_corres.nr = v assigns every row. *)
Definition add_particle (num_cams : Z) (frm : frame) (pos : vec) (cand_inds : list Z) : result frame :=
  let num_parts := fr_num frm in
  if num_parts >? Z.of_nat (length (fr_path frm)) then Exn IndexError else
  let path := fr_path frm ++ [new_pinfo pos] in
  (* appended at the end; the reference is to that element *)
  do r <- foldM (fun '(cor, targ) cam =>
      do row <- pyget cor cam;
      do cor <- pyset cor cam (mk_corres (co_nr row) (repeat CORRES_NONE 4));
      do ix <- pyget cand_inds cam;
      if ix =? PT_UNUSED then Ok (cor, targ) else
      do tl <- pyget targ cam; do t <- pyget tl ix; do tl' <- pyset tl ix (set_tnr t num_parts);
      do targ <- pyset targ cam tl';
      do cor <- pyset cor cam (mk_corres (co_nr row) (repeat ix 4));
      Ok (map (fun c => mk_corres num_parts (co_p c)) cor, targ))
    (zrange 0 num_cams) (np_resize1 (fr_corr frm), fr_targ frm);
  Ok (mk_frame path (fst r) (snd r) (fr_numt frm) (num_parts + 1)).

Section Links.
(** Python's sorted() on the list of (decis, linkdecis) pairs: any function;
    its properties are hypotheses of the theorems *)
Variable psort : list (f64 * Z) -> list (f64 * Z).

(** track.py:533-553: sort the first n entries of both lists together.
    for n = 0 unpacking the empty zip raises ValueError. *)
Definition sort_links (n : Z) (a : list f64) (b : list Z) : result (list f64 * list Z) :=
  let k := Z.to_nat n in
  match psort (combine (firstn k a) (firstn k b)) with
  | [] => Exn ValueError
  | sp => Ok (map fst sp ++ skipn k a, map snd sp ++ skipn k b)
  end.

(** track.py:1029-1038, for every particle *)
Definition decide (p : pinfo) : result pinfo :=
  if p_inlist p >? 0 then
    do ab <- sort_links (p_inlist p) (p_decis p) (p_link p);
    do d <- pyget (fst ab) 0; do l <- pyget (snd ab) 0;
    Ok (mk_pinfo (p_x p) (p_prev p) l (p_prio p) (fst ab) d (snd ab) (p_inlist p))
  else Ok p.
Definition decide_all (num : Z) (cur : list pinfo) : result (list pinfo) :=
  foldM (fun cur h => do p <- pyget cur h; do p' <- decide p; pyset cur h p') (zrange 0 num) cur.

(** track.py:1043-1070, one particle h; state (path_info of buf[1], path_info of buf[2], count1) *)
Definition link_one (st : list pinfo * list pinfo * Z) (h : Z) : result (list pinfo * list pinfo * Z) :=
  let '(cur, nxt, count1) := st in
  do p <- pyget cur h;
  do cn <- (if p_inlist p >? 0 then
      let k := p_next p in
      do r <- pyget nxt k;
      if p_prev r =? PREV_NONE then
        do nxt <- pyset nxt k (set_prev r h); Ok (cur, nxt)
      else
        do other <- pyget cur (p_prev r);
        if fgt (p_final other) (p_final p) then
          do cur <- pyset cur (p_prev r) (set_next other NEXT_NONE);
          do nxt <- pyset nxt k (set_prev r h); Ok (cur, nxt)
        else
          do cur <- pyset cur h (set_next p NEXT_NONE); Ok (cur, nxt)
    else Ok (cur, nxt));
  let '(cur, nxt) := cn in
  do p <- pyget cur h;
  Ok (cur, nxt, if p_next p =? NEXT_NONE then count1 else count1 + 1).
(** track.py:1041-1070 *)
Definition link_all (num : Z) (cur nxt : list pinfo) : result (list pinfo * list pinfo * Z) :=
  foldM link_one (zrange 0 num) (cur, nxt, 0).

(** ---------------- one tracking step ---------------- *)
Variable pixdist : f64 -> f64 -> f64 -> f64 -> f64.
(** geometry: projection to pixels (539-569 point_to_pixel), search rectangle per
    camera as (right, left, down, up) (419-487 searchquader), 2*curr-prev (157-180),
    0.5*(5 X3 - 4 X1 + X0) (865), difference and distance of vectors, angle and
    acceleration (232-268), flattened image coordinates of a target (699-708),
    ray intersection (point_position) *)
Variable num_cams imx imy : Z.
Variable point_to_pixel : Z -> vec -> f64 * f64.
Variable searchquader : Z -> vec -> f64 * f64 * f64 * f64.
Variable moving : vec -> vec -> vec.
Variable extrap : vec -> vec -> vec -> vec.
Variable vec_subt : vec -> vec -> vec.
Variable vec_diff_norm : vec -> vec -> f64.
Variable angle_acc : vec -> vec -> vec -> f64 * f64.
Variable to_flat : Z -> f64 -> f64 -> f64 * f64.
Variable point_position : list (f64 * f64) -> vec.
(** tracking parameters (TrackPar) and volume (VolumePar) *)
Record tpar := mk_tpar { dvxmin : f64; dvxmax : f64; dvymin : f64; dvymax : f64; dvzmin : f64; dvzmax : f64;
                         dangle : f64; dacc : f64; do_add : bool }.
Record vol := mk_volume { vx0 : f64; vx1 : f64; vz0 : f64; vz1 : f64; vymin : f64; vymax : f64; lmax : f64 }.
Variable tp : tpar.
Variable vl : vol.

(** track.py:203-223 *)
Definition pos3d_in_bounds (d : vec) : bool :=
  let '(x, y, z) := d in
  flt (dvxmin tp) x && flt x (dvxmax tp) && flt (dvymin tp) y && flt y (dvymax tp) &&
  flt (dvzmin tp) z && flt z (dvzmax tp).
(** track.py:938-946 / 1008-1012, with the y limits as arguments (1252: trackback uses 0, 0) *)
Definition in_volume (ymin ymax : f64) (v : vec) : bool :=
  let '(x, y, z) := v in
  flt (vx0 vl) x && flt x (vx1 vl) && flt ymin y && flt y ymax && flt (vz0 vl) z && flt z (vz1 vl).
(** track.py:903-907 etc.: acc < dacc and angle < dangle or acc < dacc/10 *)
Definition acceptable (angle acc : f64) : bool :=
  (flt acc (dacc tp) && flt angle (dangle tp)) || flt acc (fdiv (dacc tp) (f_of_Z 10)).
(** (dl/lmax + acc/dacc + angle/dangle) / quali *)
Definition quality (dl angle acc : f64) (quali : Z) : f64 :=
  fdiv (fadd (fadd (fdiv dl (lmax vl)) (fdiv acc (dacc tp))) (fdiv angle (dangle tp))) (f_of_Z quali).
(** (norm + norm)/2 *)
Definition mean2 (a b : f64) : f64 := fdiv (fadd a b) (f_of_Z 2).

(** track.py:572-627 *)
Definition sorted_candidates_in_volume (center : vec) (proj : list (f64 * f64)) (frm : frame)
  : result (list foundpix) :=
  let n := num_cams * MAX_CANDS in
  do pts <- foldM (fun pts cam =>
      do tl <- pyget (fr_targ frm) cam; do nt <- pyget (fr_numt frm) cam; do c <- pyget proj cam;
      let '(q_r, q_l, q_d, q_u) := searchquader cam center in
      register_closest_neighbs pixdist tl nt cam (fst c) (snd c) q_l q_r q_u q_d imx imy pts (cam * MAX_CANDS))
    (zrange 0 num_cams) (repeat empty_fp (Z.to_nat n));
  do r <- sort_candidates_by_freq pts num_cams;
  let '(num_cands, pts) := r in
  Ok (if num_cands >? 0 then firstn (Z.to_nat (num_cands + 1)) pts else [empty_fp]).

(** track.py:630-697.  Returns (valid_cams, targ_pos, cand_inds[cam][0]). *)
Definition assess_new_position (pos : vec) (frm : frame) : result (Z * list (f64 * f64) * list Z) :=
  do r <- foldM (fun '(tpos, inds) cam =>
      do tl <- pyget (fr_targ frm) cam; do nt <- pyget (fr_numt frm) cam;
      let px := point_to_pixel cam pos in
      let w := f_of_Z ADD_PART in
      do r <- candsearch_in_pix_rest pixdist tl nt (fst px) (snd px) w w w w (-1) imx imy;
      let '(num, ix) := r in
      if num >? 0 then
        do t <- pyget tl ix; Ok (tpos ++ [(t_x t, t_y t)], inds ++ [ix])
      else Ok (tpos ++ [(COORD_UNUSED, COORD_UNUSED)], inds ++ [ix]))
    (zrange 0 num_cams) ([], []);
  let '(tpos, inds) := r in
  do r <- foldM (fun '(valid, out) cam =>
      do q <- pyget tpos cam;
      if negb (feq (fst q) COORD_UNUSED) && negb (feq (snd q) COORD_UNUSED)
      then Ok (valid + 1, out ++ [to_flat cam (fst q) (snd q)])
      else Ok (valid, out ++ [q])) (zrange 0 num_cams) (0, []);
  Ok (fst r, snd r, inds).

(** `while l[k].ftnr != TR_UNUSED and len(path_info) > l[k].ftnr: body; k += 1`
    (847, 885): running off the end of the array raises *)
Fixpoint while_cands {S} (l : list foundpix) (go : foundpix -> S -> bool) (body : foundpix -> S -> result S) (s : S)
  : result S :=
  match l with
  | [] => Exn IndexError
  | f :: t => if go f s then do s' <- body f s; while_cands t go body s' else Ok s
  end.

Definition projections (x : vec) : list (f64 * f64) :=
  map (fun j => point_to_pixel j x) (zrange 0 num_cams).

(** track.py:884-924: candidates wn of the frame after next, for candidate [f] at X3 *)
Definition second_loop (wn : list foundpix) (f : foundpix) (buf3 : frame) (x1 x2 x3 x5 : vec) (has_prev : bool)
    (p : pinfo) : result pinfo :=
  while_cands wn
    (fun g _ => negb (ftnr g =? TR_UNUSED) && (Z.of_nat (length (fr_path buf3)) >? ftnr g))
    (fun g p =>
      do q <- pyget (fr_path buf3) (ftnr g);
      let x4 := p_x q in
      if pos3d_in_bounds (vec_subt x4 x3) then
        let '(angle1, acc1) := angle_acc x3 x4 x5 in
        let '(angle0, acc0) := if has_prev then angle_acc x1 x2 x3 else (angle1, acc1) in
        let acc := mean2 acc0 acc1 in let angle := mean2 angle0 angle1 in
        let quali := freq g + freq f in
        if acceptable angle acc then
          let dl := mean2 (vec_diff_norm x1 x3) (vec_diff_norm x4 x3) in
          register_link_candidate p (quality dl angle acc quali) (ftnr f)
        else Ok p
      else Ok p) p.

(** state of the particle loop: current particle, buf[2], buf[3], number added *)
Definition pstate := (pinfo * frame * frame)%type.

(** track.py:853-990: one candidate [f] of the next frame *)
Definition first_body (x0 x1 x2 : vec) (f : foundpix) (s : pstate) : result pstate :=
  let '(p, buf2, buf3) := s in
  let has_prev := 0 <=? p_prev p in
  do q <- pyget (fr_path buf2) (ftnr f);
  let x3 := p_x q in
  let x5 := if has_prev then extrap x3 x1 x0 else moving x1 x3 in
  do wn <- sorted_candidates_in_volume x5 (projections x5) buf3;
  do p <- (if Z.of_nat (length wn) >? 1 then second_loop wn f buf3 x1 x2 x3 x5 has_prev p else Ok p);
  do a <- assess_new_position x5 buf3;
  let '(quali, v2, philf) := a in
  do pb <- (if 2 <=? quali then
      let x4 := point_position v2 in
      if in_volume (vymin vl) (vymax vl) x4 && pos3d_in_bounds (vec_subt x3 x4) then
        let '(angle, acc) := angle_acc x3 x4 x5 in
        if acceptable angle acc then
          let dl := mean2 (vec_diff_norm x1 x3) (vec_diff_norm x4 x3) in
          do p <- register_link_candidate p (quality dl angle acc (quali + freq f)) (ftnr f);
          if do_add tp then do b <- add_particle num_cams buf3 x4 philf; Ok (p, b) else Ok (p, buf3)
        else Ok (p, buf3)
      else Ok (p, buf3)
    else Ok (p, buf3));
  let '(p, buf3) := pb in
  do p <- (if (p_inlist p =? 0) && has_prev then
      if pos3d_in_bounds (vec_subt x3 x1) then
        let '(angle, acc) := angle_acc x1 x2 x3 in
        if acceptable angle acc then
          let dl := mean2 (vec_diff_norm x1 x3) (vec_diff_norm x0 x1) in
          register_link_candidate p (quality dl angle acc (freq f)) (ftnr f)
        else Ok p
      else Ok p
    else Ok p);
  Ok (p, buf2, buf3).

Definition reset_inlist (p : pinfo) : pinfo :=
  mk_pinfo (p_x p) (p_prev p) (p_next p) (p_prio p) (p_decis p) (p_final p) (p_link p) 0.

(** track.py:807-1026, the body for particle h *)
Definition track_one (buf0 : frame) (st : frame * frame * frame) (h : Z) : result (frame * frame * frame) :=
  let '(buf1, buf2, buf3) := st in
  do p <- pyget (fr_path buf1) h;
  do c <- pyget (fr_corr buf1) h;
  let p := reset_inlist p in
  let x1 := p_x p in
  let has_prev := 0 <=? p_prev p in
  do pre <- (if has_prev then
      do q <- pyget (fr_path buf0) (p_prev p);
      let x0 := p_x q in let x2 := moving x0 x1 in
      Ok (x0, x2, projections x2)
    else
      do v <- foldM (fun acc j =>
          do ix <- pyget (co_p c) j;
          if ix =? CORRES_NONE then Ok (acc ++ [point_to_pixel j x1])
          else do tl <- pyget (fr_targ buf1) j; do t <- pyget tl ix; Ok (acc ++ [(t_x t, t_y t)]))
        (zrange 0 num_cams) [];
      Ok ((fzero, fzero, fzero), x1, v));
  let '(x0, x2, v1) := pre in
  do w <- sorted_candidates_in_volume x2 v1 buf2;
  do s <- (if Z.of_nat (length w) =? 1 then Ok (p, buf2, buf3) else
    do s <- while_cands w
        (fun f '(_, buf2, _) => negb (ftnr f =? TR_UNUSED) && (Z.of_nat (length (fr_path buf2)) >? ftnr f))
        (first_body x0 x1 x2) (p, buf2, buf3);
    let '(p, buf2, buf3) := s in
    if do_add tp && (p_inlist p =? 0) && has_prev then
      do a <- assess_new_position x2 buf2;
      let '(quali, v2, philf) := a in
      if 2 <=? quali then
        let x3 := point_position v2 in
        if in_volume (vymin vl) (vymax vl) x3 && pos3d_in_bounds (vec_subt x2 x3) then
          let '(angle, acc) := angle_acc x1 x2 x3 in
          if acceptable angle acc then
            let dl := mean2 (vec_diff_norm x1 x3) (vec_diff_norm x0 x1) in
            do p <- register_link_candidate p (quality dl angle acc quali) (fr_num buf2);
            do buf2 <- add_particle num_cams buf2 x3 philf;
            Ok (p, buf2, buf3)
          else Ok (p, buf2, buf3)
        else Ok (p, buf2, buf3)
      else Ok (p, buf2, buf3)
    else Ok (p, buf2, buf3));
  let '(p, buf2, buf3) := s in
  do path <- pyset (fr_path buf1) h p;
  Ok (set_path buf1 path, buf2, buf3).

(** track.py:781-1078 without the frame-buffer rotation and file access at the
    end (Model_fb): returns buf[1], buf[2], buf[3] and the number of links *)
Definition trackcorr_step (buf0 buf1 buf2 buf3 : frame) : result (frame * frame * frame * Z) :=
  do st <- foldM (track_one buf0) (zrange 0 (fr_num buf1)) (buf1, buf2, buf3);
  let '(buf1, buf2, buf3) := st in
  do cur <- decide_all (fr_num buf1) (fr_path buf1);
  do r <- link_all (fr_num buf1) cur (fr_path buf2);
  let '(cur, nxt, count1) := r in
  Ok (set_path buf1 cur, set_path buf2 nxt, buf3, count1).

(** ---------------- backward ---------------- *)
(** track.py:1146-1271: one particle of the backward step *)
Definition trackback_one (buf0 : frame) (st : frame * frame) (h : Z) : result (frame * frame) :=
  let '(buf1, buf2) := st in
  do p <- pyget (fr_path buf1) h;
  if (p_next p <? 0) || negb (p_prev p =? -1) then Ok (buf1, buf2) else
  let p := reset_inlist p in
  let x1 := p_x p in
  do q0 <- pyget (fr_path buf0) (p_next p);
  let x0 := p_x q0 in
  let x2 := moving x0 x1 in
  do w <- sorted_candidates_in_volume x2 (projections x2) buf2;
  do p <- while_cands w (fun f _ => negb (ftnr f =? TR_UNUSED))
    (fun f p =>
      do q <- pyget (fr_path buf2) (ftnr f);
      let x3 := p_x q in
      if pos3d_in_bounds (vec_subt x1 x3) then
        let '(angle, acc) := angle_acc x1 x2 x3 in
        if acceptable angle acc then
          let dl := mean2 (vec_diff_norm x1 x3) (vec_diff_norm x0 x1) in
          register_link_candidate p (quality dl angle acc (freq f)) (ftnr f)
        else Ok p
      else Ok p) p;
  do pb <- (if do_add tp && (p_inlist p =? 0) then
      do a <- assess_new_position x2 buf2;
      let '(quali, v2, philf) := a in
      if 2 <=? quali then
        let x3 := point_position v2 in
        if in_volume fzero fzero x3 && pos3d_in_bounds (vec_subt x1 x3) then
          let '(angle, acc) := angle_acc x1 x2 x3 in
          if acceptable angle acc then
            let dl := mean2 (vec_diff_norm x1 x3) (vec_diff_norm x0 x1) in
            do p <- register_link_candidate p (quality dl angle acc quali) (fr_num buf2);
            do buf2 <- add_particle num_cams buf2 x3 philf;
            Ok (p, buf2)
          else Ok (p, buf2)
        else Ok (p, buf2)
      else Ok (p, buf2)
    else Ok (p, buf2));
  let '(p, buf2) := pb in
  do path <- pyset (fr_path buf1) h p;
  Ok (set_path buf1 path, buf2).

(** track.py:1274-1280 *)
Definition back_decide (num : Z) (cur : list pinfo) : result (list pinfo) :=
  foldM (fun cur h => do p <- pyget cur h;
    if p_inlist p >? 0 then
      do ab <- sort_links (p_inlist p) (p_decis p) (p_link p);
      pyset cur h (mk_pinfo (p_x p) (p_prev p) (p_next p) (p_prio p) (fst ab) (p_final p) (snd ab) (p_inlist p))
    else Ok cur) (zrange 0 num) cur.

Definition take_back (p : pinfo) (d : f64) (k : Z) : pinfo :=
  mk_pinfo (p_x p) k (p_next p) (p_prio p) (p_decis p) d (p_link p) (p_inlist p).

(** track.py:1286-1327, particle h; state (buf[1], buf[2] path infos, count1) *)
Definition back_link_one (p0 p3 : list pinfo) (st : list pinfo * list pinfo * Z) (h : Z)
  : result (list pinfo * list pinfo * Z) :=
  let '(cur, nxt, count1) := st in
  do p <- pyget cur h;
  do cn <- (if p_inlist p >? 0 then
      do k <- pyget (p_link p) 0; do d <- pyget (p_decis p) 0;
      do r <- pyget nxt k;
      if (p_prev r =? PREV_NONE) && (p_next r =? NEXT_NONE) then
        do cur <- pyset cur h (take_back p d k);
        do nxt <- pyset nxt k (set_next r h);
        Ok (cur, nxt)
      else if negb (p_prev r =? PREV_NONE) && (p_next r =? NEXT_NONE) then
        do q0 <- pyget p0 (p_next p);
        do q4 <- pyget p3 (p_prev r);
        let x5 := extrap (p_x r) (p_x p) (p_x q0) in
        let '(angle, acc) := angle_acc (p_x r) (p_x q4) x5 in
        if acceptable angle acc then
          do cur <- pyset cur h (take_back p d k);
          do nxt <- pyset nxt k (set_next r h);
          Ok (cur, nxt)
        else Ok (cur, nxt)
      else Ok (cur, nxt)
    else Ok (cur, nxt));
  let '(cur, nxt) := cn in
  do p <- pyget cur h;
  Ok (cur, nxt, if p_prev p =? PREV_NONE then count1 else count1 + 1).
Definition back_link_all (p0 p3 : list pinfo) (num : Z) (cur nxt : list pinfo) : result (list pinfo * list pinfo * Z) :=
  foldM (back_link_one p0 p3) (zrange 0 num) (cur, nxt, 0).

(** track.py:1145-1330 without buffer rotation and file access *)
Definition trackback_step (buf0 buf1 buf2 buf3 : frame) : result (frame * frame * Z) :=
  do st <- foldM (trackback_one buf0) (zrange 0 (fr_num buf1)) (buf1, buf2);
  let '(buf1, buf2) := st in
  do cur <- back_decide (fr_num buf1) (fr_path buf1);
  do r <- back_link_all (fr_path buf0) (fr_path buf3) (fr_num buf1) cur (fr_path buf2);
  let '(cur, nxt, count1) := r in
  Ok (set_path buf1 cur, set_path buf2 nxt, count1).
End Links.
