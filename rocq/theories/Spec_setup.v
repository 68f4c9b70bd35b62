(** Vocabulary for C85: what the lines of the four legacy files of a tracking run say. *)
From Verif Require Import F64 Model_text Model_corr Model_track Model_io Model_par Spec_par Model_setup Base.
Local Open Scope Z_scope.

(** number of cameras, then per camera image and calibration image, flags, image and pixel
    size, field flag, refractive indices of air, glass, water, thickness of the glass *)
Definition control_file (t : text) (p : ctrlpar) : Prop :=
  let n := Z.to_nat (cp_num p) in
  int_at t 0 (cp_num p) /\ cp_names p = map (fun i => name_at t (1 + 2 * i)) (seq 0 n) /\ cp_cal p = map (fun i => name_at t (1 + 2 * i + 1)) (seq 0 n) /\
  int_at t (1 + 2 * n) (cp_hp p) /\ int_at t (2 + 2 * n) (cp_all p) /\ int_at t (3 + 2 * n) (cp_tiff p) /\ int_at t (4 + 2 * n) (cp_imx p) /\ int_at t (5 + 2 * n) (cp_imy p) /\
  float_at t (6 + 2 * n) (cp_pix_x p) /\ float_at t (7 + 2 * n) (cp_pix_y p) /\ int_at t (8 + 2 * n) (cp_chfield p) /\
  mp_nlay (cp_mm p) = 1 /\ float_at t (9 + 2 * n) (mp_n1 (cp_mm p)) /\ (exists x, mp_n2 (cp_mm p) = [x] /\ float_at t (10 + 2 * n) x) /\ float_at t (11 + 2 * n) (mp_n3 (cp_mm p)) /\
  (exists x, mp_d (cp_mm p) = [x] /\ float_at t (12 + 2 * n) x).
(** one image name per camera, first and last frame *)
Definition sequence_file (t : text) (cams : Z) (p : seqpar) : Prop :=
  let n := Z.to_nat cams in sq_names p = map (name_at t) (seq 0 n) /\ int_at t n (sq_first p) /\ int_at t (n + 1) (sq_last p).
(** velocity limits, angle, acceleration, flag for adding particles *)
Definition track_file (t : text) (p : trackpar) : Prop :=
  float_at t 0 (tk_dvxmin p) /\ float_at t 1 (tk_dvxmax p) /\ float_at t 2 (tk_dvymin p) /\ float_at t 3 (tk_dvymax p) /\ float_at t 4 (tk_dvzmin p) /\ float_at t 5 (tk_dvzmax p) /\
  float_at t 6 (tk_dangle p) /\ float_at t 7 (tk_dacc p) /\ int_at t 8 (tk_add p) /\ tk_dsumg p = fzero /\ tk_dn p = fzero /\ tk_dnx p = fzero /\ tk_dny p = fzero.
(** the tuple of limits the run works with: each under its own name; the image limits are not in the file and 0 *)
Definition same_track (tk : trackpar) (u : tracktuple) : Prop :=
  tt_dvxmin u = tk_dvxmin tk /\ tt_dvxmax u = tk_dvxmax tk /\ tt_dvymin u = tk_dvymin tk /\ tt_dvymax u = tk_dvymax tk /\ tt_dvzmin u = tk_dvzmin tk /\ tt_dvzmax u = tk_dvzmax tk /\
  tt_dangle u = tk_dangle tk /\ tt_dacc u = tk_dacc tk /\ tt_add u = tk_add tk /\ tt_dsumg u = fzero /\ tt_dn u = fzero /\ tt_dnx u = fzero /\ tt_dny u = fzero.
(** x, z_min, z_max of the first and of the second layer, then the correlation limits *)
Definition volume_file (t : text) (p : volumepar) : Prop :=
  exists x0 x1 z0 z1 w0 w1, vp_x_lay p = [x0; x1] /\ vp_z_min p = [z0; z1] /\ vp_z_max p = [w0; w1] /\
  float_at t 0 x0 /\ float_at t 1 z0 /\ float_at t 2 w0 /\ float_at t 3 x1 /\ float_at t 4 z1 /\ float_at t 5 w1 /\
  float_at t 6 (vp_cnx p) /\ float_at t 7 (vp_cny p) /\ float_at t 8 (vp_cn p) /\ float_at t 9 (vp_csumg p) /\ float_at t 10 (vp_corrmin p) /\ float_at t 11 (vp_eps0 p).

(** a line "number x y z" (further words are ignored) *)
Definition block_line (l : text) (p : Z * (f64 * f64 * f64)) : Prop :=
  exists a b c d rest x y z, words l = a :: b :: c :: d :: rest /\ p = (fst p, (x, y, z)) /\
  parse_int a = Ok (fst p) /\ parse_float b = Ok x /\ parse_float c = Ok y /\ parse_float d = Ok z.
(** four words are there, but one of them is no number *)
Definition bad_number (l : text) : Prop :=
  exists a b c d rest, words l = a :: b :: c :: d :: rest /\
  (parse_int a = Exn ValueError \/ parse_float b = Exn ValueError \/ parse_float c = Exn ValueError \/ parse_float d = Exn ValueError).
