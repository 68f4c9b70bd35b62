(** Setting up a run from legacy files (tracking_run.py tr_new), the accessors of the
    parameter sets (parameters.py) and the inputs of the grid matching (sortgrid.py).
    Text, numbers and files as in Model_text, Model_io. *)
From Verif Require Import F64 Model_text Model_corr Model_track Model_io Model_par Base.
Local Open Scope Z_scope.

(** ---- parameters.py: TrackParTuple ---- *)
(** parameters.py:11-29: the fields of the named tuple, in order *)
Record tracktuple := mk_tt { tt_dvxmin : f64; tt_dvxmax : f64; tt_dvymin : f64; tt_dvymax : f64; tt_dvzmin : f64; tt_dvzmax : f64;
  tt_dangle : f64; tt_dacc : f64; tt_add : Z; tt_dsumg : f64; tt_dn : f64; tt_dnx : f64; tt_dny : f64 }.
(** parameters.py:317-333 *)
Definition convert_track_par_to_tuple (t : trackpar) : tracktuple :=
  mk_tt (tk_dvxmin t) (tk_dvxmax t) (tk_dvymin t) (tk_dvymax t) (tk_dvzmin t) (tk_dvzmax t) (tk_dangle t) (tk_dacc t) (tk_add t)
        (tk_dsumg t) (tk_dn t) (tk_dnx t) (tk_dny t).

(** ---- tracking_run.py:102-135 ----
    [make] is the constructor TrackingRun (tracking_run.py:40-99) with the remaining
    arguments of tr_new already given: the theorems hold for every constructor *)
Section New.
Variable run : Type.
Variable make : seqpar -> tracktuple -> volumepar -> ctrlpar -> result run.
Definition tr_new (fs : files) (seq_par_fname tpar_fname vpar_fname cpar_fname : text) : result run :=
  do cpar <- read_control fs cpar_fname;
  do seq_par <- read_sequence fs seq_par_fname (cp_num cpar);
  do t <- read_track fs tpar_fname;
  let tpar := convert_track_par_to_tuple t in
  do vpar <- read_volume fs vpar_fname;
  make seq_par tpar vpar cpar.
End New.

(** ---- accessors: a setter returns the changed object ---- *)
(** parameters.py:141-147 (the list object stays, its contents are replaced) *)
Definition set_img_base_name (s : seqpar) (new_name : list text) : seqpar := mk_seqpar new_name (sq_first s) (sq_last s).
Definition get_img_base_name (s : seqpar) (icam : Z) : result text := pyget (sq_names s) icam.
(** parameters.py:149-163 *)
Definition set_first (s : seqpar) (n : Z) : seqpar := mk_seqpar (sq_names s) n (sq_last s).
Definition get_first (s : seqpar) : Z := sq_first s.
Definition set_last (s : seqpar) (n : Z) : seqpar := mk_seqpar (sq_names s) (sq_first s) n.
Definition get_last (s : seqpar) : Z := sq_last s.

(** parameters.py:238-276, 282-284, 290-292, 302-304: the getters in the order of the file *)
Definition track_getters : list (trackpar -> f64) :=
  [(* get_dvxmin *) tk_dvxmin; (* get_dvxmax *) tk_dvxmax; (* get_dvymin *) tk_dvymin; (* get_dvymax *) tk_dvymax;
   (* get_dvz_min *) tk_dvzmin; (* get_dvz_max *) tk_dvzmax; (* get_dangle *) tk_dangle; (* get_dacc *) tk_dacc;
   (* get_dsumg *) tk_dsumg; (* get_dn *) tk_dn; (* get_dnx *) tk_dnx; (* get_dny *) tk_dny].
Definition get_add (t : trackpar) : Z := tk_add t.
(** parameters.py:278-280, 286-288, 294-296, 298-300 *)
Definition set_dsumg (t : trackpar) (v : f64) : trackpar :=
  mk_trackpar (tk_dvxmin t) (tk_dvxmax t) (tk_dvymin t) (tk_dvymax t) (tk_dvzmin t) (tk_dvzmax t) (tk_dangle t) (tk_dacc t) (tk_add t) v (tk_dn t) (tk_dnx t) (tk_dny t).
Definition set_dn (t : trackpar) (v : f64) : trackpar :=
  mk_trackpar (tk_dvxmin t) (tk_dvxmax t) (tk_dvymin t) (tk_dvymax t) (tk_dvzmin t) (tk_dvzmax t) (tk_dangle t) (tk_dacc t) (tk_add t) (tk_dsumg t) v (tk_dnx t) (tk_dny t).
Definition set_dnx (t : trackpar) (v : f64) : trackpar :=
  mk_trackpar (tk_dvxmin t) (tk_dvxmax t) (tk_dvymin t) (tk_dvymax t) (tk_dvzmin t) (tk_dvzmax t) (tk_dangle t) (tk_dacc t) (tk_add t) (tk_dsumg t) (tk_dn t) v (tk_dny t).
Definition set_dny (t : trackpar) (v : f64) : trackpar :=
  mk_trackpar (tk_dvxmin t) (tk_dvxmax t) (tk_dvymin t) (tk_dvymax t) (tk_dvzmin t) (tk_dvzmax t) (tk_dangle t) (tk_dacc t) (tk_add t) (tk_dsumg t) (tk_dn t) (tk_dnx t) v.

(** parameters.py:368-394: there is no setter for x_lay and cny *)
Definition set_z_min_lay (v : volumepar) (l : list f64) : volumepar := mk_volumepar (vp_x_lay v) l (vp_z_max v) (vp_cn v) (vp_cnx v) (vp_cny v) (vp_csumg v) (vp_eps0 v) (vp_corrmin v).
Definition set_z_max_lay (v : volumepar) (l : list f64) : volumepar := mk_volumepar (vp_x_lay v) (vp_z_min v) l (vp_cn v) (vp_cnx v) (vp_cny v) (vp_csumg v) (vp_eps0 v) (vp_corrmin v).
Definition set_cn (v : volumepar) (x : f64) : volumepar := mk_volumepar (vp_x_lay v) (vp_z_min v) (vp_z_max v) x (vp_cnx v) (vp_cny v) (vp_csumg v) (vp_eps0 v) (vp_corrmin v).
Definition set_cnx (v : volumepar) (x : f64) : volumepar := mk_volumepar (vp_x_lay v) (vp_z_min v) (vp_z_max v) (vp_cn v) x (vp_cny v) (vp_csumg v) (vp_eps0 v) (vp_corrmin v).
Definition set_csumg (v : volumepar) (x : f64) : volumepar := mk_volumepar (vp_x_lay v) (vp_z_min v) (vp_z_max v) (vp_cn v) (vp_cnx v) (vp_cny v) x (vp_eps0 v) (vp_corrmin v).
Definition set_eps0 (v : volumepar) (x : f64) : volumepar := mk_volumepar (vp_x_lay v) (vp_z_min v) (vp_z_max v) (vp_cn v) (vp_cnx v) (vp_cny v) (vp_csumg v) x (vp_corrmin v).
Definition set_corrmin (v : volumepar) (x : f64) : volumepar := mk_volumepar (vp_x_lay v) (vp_z_min v) (vp_z_max v) (vp_cn v) (vp_cnx v) (vp_cny v) (vp_csumg v) (vp_eps0 v) x.

(** parameters.py:464-512, 551-553 *)
Definition ctrl_with (c : ctrlpar) (hp imx imy : Z) (px py : f64) (chfield : Z) : ctrlpar :=
  mk_ctrlpar (cp_num c) (cp_names c) (cp_cal c) hp (cp_all c) (cp_tiff c) imx imy px py chfield (cp_mm c).
Definition set_image_size (c : ctrlpar) (imsize : Z * Z) : ctrlpar := ctrl_with c (cp_hp c) (fst imsize) (snd imsize) (cp_pix_x c) (cp_pix_y c) (cp_chfield c).
Definition get_image_size (c : ctrlpar) : Z * Z := (cp_imx c, cp_imy c).
Definition set_pixel_size (c : ctrlpar) (pixsize : f64 * f64) : ctrlpar := ctrl_with c (cp_hp c) (cp_imx c) (cp_imy c) (fst pixsize) (snd pixsize) (cp_chfield c).
Definition get_pixel_size (c : ctrlpar) : f64 * f64 := (cp_pix_x c, cp_pix_y c).
Definition set_chfield (c : ctrlpar) (v : Z) : ctrlpar := ctrl_with c (cp_hp c) (cp_imx c) (cp_imy c) (cp_pix_x c) (cp_pix_y c) v.
Definition get_chfield (c : ctrlpar) : Z := cp_chfield c.
Definition get_multimedia_par (c : ctrlpar) : mmpar := cp_mm c.
Definition get_num_cams (c : ctrlpar) : Z := cp_num c.
Definition set_hp_flag (c : ctrlpar) (v : Z) : ctrlpar := ctrl_with c v (cp_imx c) (cp_imy c) (cp_pix_x c) (cp_pix_y c) (cp_chfield c).
Definition get_hp_flag (c : ctrlpar) : Z := cp_hp c.
Definition get_allCam_flag (c : ctrlpar) : Z := cp_all c.
Definition get_tiff_flag (c : ctrlpar) : Z := cp_tiff c.

(** parameters.py:670-688 *)
Definition get_grey_thresholds (t : targetpar) : list Z := tg_gv t.
Definition get_pixel_count_bounds (t : targetpar) : Z * Z := (tg_nnmin t, tg_nnmax t).
Definition get_xsize_bounds (t : targetpar) : Z * Z := (tg_nxmin t, tg_nxmax t).
Definition get_ysize_bounds (t : targetpar) : Z * Z := (tg_nymin t, tg_nymax t).
Definition get_min_sum_grey (t : targetpar) : Z := tg_sumg t.

(** ---- sortgrid.py ---- *)
(** constants.py:21 *)
Definition SORTGRID_EPS : Z := 25.
(** sortgrid.py:110-120: only IOError is caught *)
Definition read_sortgrid_par (fs : files) (name : text) : result Z :=
  match fs name with None => Ok SORTGRID_EPS | Some t => parse_int (fst (readline (lines t))) end.
(** sortgrid.py:142-146: one line *)
Definition coord_of_line (l : text) : result (Z * (f64 * f64 * f64)) :=
  let values := words (strip l) in
  do a <- pyget values 0; do pnr <- parse_int a;
  do b <- pyget values 1; do x <- parse_float b;
  do c <- pyget values 2; do y <- parse_float c;
  do d <- pyget values 3; do z <- parse_float d;
  Ok (pnr, (x, y, z)).
(** sortgrid.py:138-148: the lines in order, the first failing one decides *)
Fixpoint coords_of_lines (ls : list text) : result (list (Z * (f64 * f64 * f64))) :=
  match ls with [] => Ok [] | l :: r => do c <- coord_of_line l; do cs <- coords_of_lines r; Ok (c :: cs) end.
(** sortgrid.py:123-156.  Simplified: the array of shape (n, 1) is a list of n rows; a
    number that does not fit into int32 is kept *)
Definition read_calblock (fs : files) (name : text) : result (list (Z * (f64 * f64 * f64))) :=
  match fs name with
  | None => Ok []
  | Some t => match coords_of_lines (lines t) with Exn ValueError => Ok [] | r => r end
  end.
