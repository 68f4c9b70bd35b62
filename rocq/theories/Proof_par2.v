(** The legacy parameter files, line by line. *)
From Verif Require Import F64 F64R Model_text Proof_text Proof_text2 Model_corr Model_track Model_io Spec_io Model_par Spec_par Proof_par Lib Base.
Local Open Scope Z_scope.

Ltac step1 := first [rewrite rd_int_skip | rewrite rd_int0_skip | rewrite rd_int_r_skip | rewrite rd_float_skip | rewrite rd_float0_skip | rewrite rd_float_r_skip].
Ltac fwd := step1; match goal with |- context [bind (parse_int (nth ?k ?l ?d)) _] => destruct (parse_int (nth k l d)) eqn:?; cbn [bind]; [|discriminate]
                                 | |- context [bind (parse_float (nth ?k ?l ?d)) _] => destruct (parse_float (nth k l d)) eqn:?; cbn [bind]; [|discriminate] end.
Ltac bwd := step1; match goal with H : parse_int ?a = Ok _ |- context [parse_int ?a] => rewrite H; cbn [bind]
                                 | H : parse_float ?a = Ok _ |- context [parse_float ?a] => rewrite H; cbn [bind] end.

Section Legacy.
Variable fs : files. Variable name t : text.
Hypothesis F : fs name = Some t.

Lemma sequence_lines num p : read_sequence fs name num = Ok p <->
  let n := Z.to_nat num in sq_names p = map (name_at t) (seq 0 n) /\ int_at t n (sq_first p) /\ int_at t (n + 1) (sq_last p).
Proof.
  unfold read_sequence, int_at, name_at, line_no. rewrite F. rewrite (skipn_0_eq (lines t)) at 1. rewrite rd_names_skip. cbn [Nat.add]. split.
  - do 2 fwd. intros [= <-]. cbn [sq_names sq_first sq_last]. rewrite Nat.add_1_r. auto.
  - cbv zeta. rewrite Nat.add_1_r. intros (N & A & B). do 2 bwd. rewrite <- N. now destruct p.
Qed.
Lemma track_lines p : read_track fs name = Ok p <->
  float_at t 0 (tk_dvxmin p) /\ float_at t 1 (tk_dvxmax p) /\ float_at t 2 (tk_dvymin p) /\ float_at t 3 (tk_dvymax p) /\ float_at t 4 (tk_dvzmin p) /\ float_at t 5 (tk_dvzmax p) /\
  float_at t 6 (tk_dangle p) /\ float_at t 7 (tk_dacc p) /\ int_at t 8 (tk_add p) /\ tk_dsumg p = fzero /\ tk_dn p = fzero /\ tk_dnx p = fzero /\ tk_dny p = fzero.
Proof.
  unfold read_track, int_at, float_at, line_no. rewrite F. rewrite (skipn_0_eq (lines t)) at 1. split.
  - do 9 fwd. intros [= <-]. auto 20.
  - intros (? & ? & ? & ? & ? & ? & ? & ? & ? & E1 & E2 & E3 & E4). do 9 bwd. destruct p. cbn in *. congruence.
Qed.
Lemma volume_lines p : read_volume fs name = Ok p <->
  exists x0 x1 z0 z1 w0 w1, vp_x_lay p = [x0; x1] /\ vp_z_min p = [z0; z1] /\ vp_z_max p = [w0; w1] /\
  float_at t 0 x0 /\ float_at t 1 z0 /\ float_at t 2 w0 /\ float_at t 3 x1 /\ float_at t 4 z1 /\ float_at t 5 w1 /\
  float_at t 6 (vp_cnx p) /\ float_at t 7 (vp_cny p) /\ float_at t 8 (vp_cn p) /\ float_at t 9 (vp_csumg p) /\ float_at t 10 (vp_corrmin p) /\ float_at t 11 (vp_eps0 p).
Proof.
  unfold read_volume, int_at, float_at, line_no. rewrite F. rewrite (skipn_0_eq (lines t)) at 1. split.
  - do 12 fwd. intros [= <-]. cbn [vp_x_lay vp_z_min vp_z_max vp_cnx vp_cny vp_cn vp_csumg vp_corrmin vp_eps0]. do 6 eexists. repeat (split; [reflexivity|]). auto 20.
  - intros (x0 & x1 & z0 & z1 & w0 & w1 & E1 & E2 & E3 & ? & ? & ? & ? & ? & ? & ? & ? & ? & ? & ? & ?). do 12 bwd. destruct p. cbn in *. congruence.
Qed.
Lemma control_lines p : read_control fs name = Ok p <->
  let n := Z.to_nat (cp_num p) in
  int_at t 0 (cp_num p) /\ cp_names p = map (fun i => name_at t (1 + 2 * i)) (seq 0 n) /\ cp_cal p = map (fun i => name_at t (1 + 2 * i + 1)) (seq 0 n) /\
  int_at t (1 + 2 * n) (cp_hp p) /\ int_at t (2 + 2 * n) (cp_all p) /\ int_at t (3 + 2 * n) (cp_tiff p) /\ int_at t (4 + 2 * n) (cp_imx p) /\ int_at t (5 + 2 * n) (cp_imy p) /\
  float_at t (6 + 2 * n) (cp_pix_x p) /\ float_at t (7 + 2 * n) (cp_pix_y p) /\ int_at t (8 + 2 * n) (cp_chfield p) /\
  mp_nlay (cp_mm p) = 1 /\ float_at t (9 + 2 * n) (mp_n1 (cp_mm p)) /\ (exists x, mp_n2 (cp_mm p) = [x] /\ float_at t (10 + 2 * n) x) /\ float_at t (11 + 2 * n) (mp_n3 (cp_mm p)) /\
  (exists x, mp_d (cp_mm p) = [x] /\ float_at t (12 + 2 * n) x).
Proof.
  unfold read_control, int_at, float_at, name_at, line_no. rewrite F. rewrite (skipn_0_eq (lines t)) at 1. split.
  - fwd. rewrite rd_pairs_skip. change (1 + 2 * Z.to_nat a)%nat with (S (2 * Z.to_nat a)). cbv iota beta. do 12 fwd. intros [= <-].
    cbn [cp_num cp_names cp_cal cp_hp cp_all cp_tiff cp_imx cp_imy cp_pix_x cp_pix_y cp_chfield cp_mm mp_nlay mp_n1 mp_n2 mp_n3 mp_d]. cbv zeta.
    repeat (split; [first [assumption|reflexivity|eexists; split; [reflexivity|assumption]]|]). eexists; split; [reflexivity|assumption].
  - cbv zeta. intros (? & N & C & ? & ? & ? & ? & ? & ? & ? & ? & L & ? & (x & X & ?) & ? & (y & Y & ?)). bwd. rewrite rd_pairs_skip.
    change (1 + 2 * Z.to_nat (cp_num p))%nat with (S (2 * Z.to_nat (cp_num p))). rewrite <- N, <- C. cbv iota beta. cbn [Nat.add] in *. do 12 bwd. destruct p as [a1 a2 a3 a4 a5 a6 a7 a8 a9 a10 a11 [b1 b2 b3 b4 b5]]. cbn in *. congruence.
Qed.
Lemma target_par_lines p : read_target_par fs name = Ok p <->
  exists g0 g1 g2 g3, tg_gv p = [g0; g1; g2; g3] /\ int_at t 0 g0 /\ int_at t 1 g1 /\ int_at t 2 g2 /\ int_at t 3 g3 /\ int_at t 4 (tg_discont p) /\
  int_at t 5 (tg_nnmin p) /\ int_at t 6 (tg_nnmax p) /\ int_at t 7 (tg_nxmin p) /\ int_at t 8 (tg_nxmax p) /\ int_at t 9 (tg_nymin p) /\ int_at t 10 (tg_nymax p) /\
  int_at t 11 (tg_sumg p) /\ int_at t 12 (tg_cr p).
Proof.
  unfold read_target_par, int_at, float_at, line_no. rewrite F. rewrite (skipn_0_eq (lines t)) at 1. split.
  - do 13 fwd. intros [= <-]. cbn [tg_gv tg_discont tg_nnmin tg_nnmax tg_nxmin tg_nxmax tg_nymin tg_nymax tg_sumg tg_cr]. do 4 eexists. split; [reflexivity|]. auto 20.
  - intros (g0 & g1 & g2 & g3 & E & ? & ? & ? & ? & ? & ? & ? & ? & ? & ? & ? & ? & ?). do 13 bwd. destruct p. cbn in *. congruence.
Qed.
Lemma orient_par_lines p : read_orient_par fs name = Ok p <->
  int_at t 0 (op_use p) /\ int_at t 1 (op_cc p) /\ int_at t 2 (op_xh p) /\ int_at t 3 (op_yh p) /\ int_at t 4 (op_k1 p) /\ int_at t 5 (op_k2 p) /\ int_at t 6 (op_k3 p) /\
  int_at t 7 (op_p1 p) /\ int_at t 8 (op_p2 p) /\ int_at t 9 (op_scx p) /\ int_at t 10 (op_she p) /\ int_at t 11 (op_interf p).
Proof.
  unfold read_orient_par, int_at, float_at, line_no. rewrite F. rewrite (skipn_0_eq (lines t)) at 1. split.
  - do 12 fwd. intros [= <-]. auto 20.
  - intros (? & ? & ? & ? & ? & ? & ? & ? & ? & ? & ? & ?). do 12 bwd. now destruct p.
Qed.
Lemma cal_par_lines num p : 0 <= num -> read_cal_par fs name num = Ok p <->
  let n := Z.to_nat num in
  cl_fixp p = name_at t 0 /\ cl_img p = map (fun i => name_at t (1 + 2 * i)) (seq 0 n) /\ cl_ori p = map (fun i => name_at t (1 + 2 * i + 1)) (seq 0 n) /\
  int_at t (1 + 2 * n) (cl_tiff p) /\ int_at t (2 + 2 * n) (cl_pair p) /\ int_at t (3 + 2 * n) (cl_chfield p).
Proof.
  intros P. unfold read_cal_par, int_at, float_at, name_at, line_no. rewrite F. rewrite (skipn_0_eq (lines t)) at 1. rewrite rd_name_skip, rd_names_skip. cbv zeta.
  replace (Z.to_nat (num * 2)) with (Z.to_nat num * 2)%nat by lia. destruct (evens_odds (fun i => strip (nth i (lines t) [])) (Z.to_nat num) 1) as (-> & ->).
  replace (1 + Z.to_nat num * 2)%nat with (S (2 * Z.to_nat num)) by lia. split.
  - do 3 fwd. intros [= <-]. auto 10.
  - intros (E1 & E2 & E3 & ? & ? & ?). cbn [Nat.add] in *. do 3 bwd. destruct p. cbn in *. congruence.
Qed.
Lemma multi_planes_lines num names : read_multi_planes fs name = Ok (num, names) <-> int_at t 0 num /\ names = map (fun i => name_at t (1 + i)) (seq 0 (Z.to_nat num)).
Proof.
  unfold read_multi_planes, int_at, float_at, name_at, line_no. rewrite F. rewrite (skipn_0_eq (lines t)) at 1.
  assert (M : forall k, map (fun i => strip (nth i (lines t) [])) (seq 1 k) = map (fun i => strip (nth (1 + i) (lines t) [])) (seq 0 k)) by (intros k; now rewrite <- seq_shift, map_map).
  split.
  - fwd. rewrite rd_names_skip. intros [= <- <-]. split; [first [assumption|reflexivity]|apply M].
  - intros (? & ->). bwd. rewrite rd_names_skip. now rewrite M.
Qed.
Lemma examine_lines a b : read_examine fs name = Ok (a, b) <-> exists x y, int_at t 0 x /\ int_at t 1 y /\ (a = true <-> x <> 0) /\ (b = true <-> y <> 0).
Proof.
  unfold read_examine, int_at, float_at, line_no. rewrite F. rewrite (skipn_0_eq (lines t)) at 1.
  assert (B : forall z c, negb (z =? 0) = c <-> (c = true <-> z <> 0)) by (intros z []; destruct (Z.eqb_spec z 0); cbn; intuition congruence).
  split.
  - do 2 fwd. intros E. do 2 eexists. split; [first [reflexivity|eassumption]|]. split; [first [reflexivity|eassumption]|]. split; apply B; congruence.
  - intros (x & y & ? & ? & Ha & Hb). do 2 bwd. apply B in Ha, Hb. congruence.
Qed.
Lemma pft_lines a : read_pft fs name = Ok a <-> exists x, int_at t 0 x /\ (a = true <-> x <> 0).
Proof.
  unfold read_pft, int_at, float_at, line_no. rewrite F. rewrite (skipn_0_eq (lines t)) at 1.
  assert (B : forall z c, negb (z =? 0) = c <-> (c = true <-> z <> 0)) by (intros z []; destruct (Z.eqb_spec z 0); cbn; intuition congruence).
  split.
  - fwd. intros E. eexists. split; [first [reflexivity|eassumption]|]. apply B. congruence.
  - intros (x & ? & Ha). bwd. apply B in Ha. congruence.
Qed.
End Legacy.

(** written target parameters *)
Lemma lines_cons w rest : noline w -> lines (line w ++ rest) = w :: lines rest.
Proof. intros N. unfold line. rewrite <- app_assoc. now apply lines_line. Qed.
Lemma pi_noline z : noline (print_int z).
Proof. apply nospace_noline, print_int_word. Qed.
Lemma write_target_round can_write fs p name : can_write name = true -> length (tg_gv p) = 4%nat ->
  snd (write_target_par can_write fs p name) = Ok tt /\ read_target_par (fst (write_target_par can_write fs p name)) name = Ok p /\
  forall m, m <> name -> fst (write_target_par can_write fs p name) m = fs m.
Proof.
  intros W L. unfold write_target_par. rewrite W. destruct p as [gv d a1 a2 a3 a4 a5 a6 a7 a8]. cbn [tg_gv] in *.
  destruct gv as [|g0 [|g1 [|g2 [|g3 [|]]]]]; try discriminate. cbn [fst snd]. split; [reflexivity|]. split.
  - set (T := line _ ++ _). assert (E : lines T = map print_int [g0; g1; g2; g3; d; a1; a2; a3; a4; a5; a6; a7; a8]).
    { unfold T. do 12 rewrite lines_cons by apply pi_noline. rewrite lines_last; [reflexivity|apply pi_noline|apply print_int_word]. }
    apply (target_par_lines _ _ T); [unfold put; now rewrite teqb_refl|]. exists g0, g1, g2, g3. split; [reflexivity|]. unfold int_at, line_no. rewrite E.
    repeat split; apply parse_print_int.
  - intros m M. unfold put. destruct (teqb_spec m name); [contradiction|reflexivity].
Qed.
