(** Geometry: the properties (see Spec_geo.v for the vocabulary). *)
From Coq Require Import Permutation.
From Verif Require Import Base Model_geo Spec_geo Proof_geo Proof_geo2 Proof_geo3 Proof_geo4 Proof_geo5 Proof_geo6 Proof_geo7 Proof_geo8 Proof_geo9 Proof_geo10 Proof_geo11.
Local Open Scope R_scope.

(** ===== C36: rotation matrices ===== *)
Theorem C36_rotation : forall e om ph ka, let e' := set_angles e om ph ka in
  omega e' = om /\ phi e' = ph /\ kappa e' = ka /\ e_pos e' = e_pos e /\ dm e' = mmul (mmul (rot_x om) (rot_y ph)) (rot_z ka) /\
  orthonormal (dm e') /\ mdet (dm e') = 1 /\ (forall a b, dot (mapply (dm e') a) (mapply (dm e') b) = dot a b).
Proof. exact set_angles_ok. Qed.
Print Assumptions C36_rotation.
Theorem C36_identity : forall e, dm (set_angles e 0 0 0) = identity3.
Proof. intros e. exact rot_zero. Qed.
Print Assumptions C36_identity.
(** changing the position leaves the rotation alone *)
Theorem C36_set_pos : forall e p, consistent e -> consistent (set_pos e p) /\ e_pos (set_pos e p) = p.
Proof. intros e p H. split; [exact H|reflexivity]. Qed.
Print Assumptions C36_set_pos.

(** ===== C40: pixel and metric coordinates ===== *)
Theorem C40_inverse : forall x y imx imy px py, px <> 0 -> py <> 0 ->
  (let '(a, b) := pixel_to_metric x y imx imy px py in metric_to_pixel a b imx imy px py) = (x, y) /\
  (let '(a, b) := metric_to_pixel x y imx imy px py in pixel_to_metric a b imx imy px py) = (x, y).
Proof. exact pixel_metric_inv. Qed.
Print Assumptions C40_inverse.
(** the image centre is the origin, x grows to the right, y upwards, by the pixel size *)
Theorem C40_anchor : forall x y imx imy px py,
  pixel_to_metric (IZR imx / 2) (IZR imy / 2) imx imy px py = (0, 0) /\
  (let '(a, b) := pixel_to_metric x y imx imy px py in pixel_to_metric (x + 1) (y + 1) imx imy px py = (a + px, b - py)).
Proof. intros. unfold pixel_to_metric. split; f_equal; ring. Qed.
Print Assumptions C40_anchor.
Example C40_example : pixel_to_metric 0 0 4 2 (/ 2) (/ 2) = (-1, / 2).
Proof. unfold pixel_to_metric. f_equal; field. Qed.

(** ===== C41: lens distortion ===== *)
Theorem C41_no_distortion : forall x y tol, distort_brown_affine x y no_distortion = (x, y) /\ correct_brown_affine x y no_distortion tol = (x, y).
Proof. exact no_distortion_id. Qed.
Print Assumptions C41_no_distortion.
(** scale and shear only: exact inverse in both directions, at every tolerance *)
Theorem C41_affine : forall X Y ap tol, affine_only ap -> scx ap <> 0 -> cos (she ap) <> 0 ->
  (let '(x, y) := distort_brown_affine X Y ap in correct_brown_affine x y ap tol) = (X, Y) /\
  (let '(x, y) := correct_brown_affine X Y ap tol in distort_brown_affine x y ap) = (X, Y).
Proof. exact affine_inverse. Qed.
Print Assumptions C41_affine.
Theorem C41_flat_dist_affine : forall x y c tol, affine_only (c_added c) -> scx (c_added c) <> 0 -> cos (she (c_added c)) <> 0 ->
  (let '(a, b) := flat_to_dist x y c in dist_to_flat a b c tol) = (x, y) /\
  (let '(a, b) := dist_to_flat x y c tol in flat_to_dist a b c) = (x, y).
Proof. exact flat_dist_id. Qed.
Print Assumptions C41_flat_dist_affine.
(** radial distortion: the correction returns the original up to tol/8 of its
    radius (plus a term 1e-200), if the distortion is not too strong. *)
Theorem C41_radial : forall X Y ap tol B, radial_only ap -> 0 <= tol ->
  11 / 10 * sqrt (X ^ 2 + Y ^ 2) <= B -> radial_slope ap B <= / 10 ->
  let '(x, y) := distort_brown_affine X Y ap in
  let '(X', Y') := correct_brown_affine x y ap tol in
  let r := sqrt (X ^ 2 + Y ^ 2) in
  sqrt ((X' - X) ^ 2 + (Y' - Y) ^ 2) <= tol * r / 8 + r / 10 ^ 200.
Proof. exact radial_correct. Qed.
Print Assumptions C41_radial.
(** with p1, or with shear and radial distortion, the correction is wrong at every tolerance: the point (1, 1) comes
    back displaced by at least 0.0006 (3 percent of the distortion), 0.009 (45 percent of the radial distortion).
    In the second case the radius estimate is halved once (trafo.py:208) and then in every further round. *)
Theorem C41_decentering_refuted : exists ap X Y, forall tol,
  let '(x, y) := distort_brown_affine X Y ap in let '(X', Y') := correct_brown_affine x y ap tol in 6 / 10000 <= Y' - Y.
Proof. exists p1_ap, 1, 1. intros tol. rewrite p1_distorted. exact (p1_never tol). Qed.
Print Assumptions C41_decentering_refuted.
Theorem C41_shear_refuted : exists ap X Y, p1 ap = 0 /\ p2 ap = 0 /\ forall tol,
  let '(x, y) := distort_brown_affine X Y ap in let '(X', Y') := correct_brown_affine x y ap tol in 9 / 1000 <= Y' - Y.
Proof. exists weak_shear, 1, 1. split; [reflexivity|]. split; [reflexivity|]. intros tol. rewrite shear_distorted. exact (shear_never tol). Qed.
Print Assumptions C41_shear_refuted.
Example C41_example : radial_only (mk_addp (/ 100) 0 0 0 0 1 0) /\ 11 / 10 * sqrt (1 ^ 2 + 0 ^ 2) <= 11 / 10 /\ radial_slope (mk_addp (/ 100) 0 0 0 0 1 0) (11 / 10) <= / 10.
Proof.
  split; [repeat split|]. split; [replace (1 ^ 2 + 0 ^ 2) with 1 by ring; rewrite sqrt_1; lra|].
  unfold radial_slope. cbn [k1 k2 k3]. rewrite Rabs_R0. rewrite Rabs_pos_eq by lra. lra.
Qed.

(** ===== C42: vector helpers ===== *)
Theorem C42_space : forall a b c s t,
  vadd a b = vadd b a /\ vadd a (vadd b c) = vadd (vadd a b) c /\ vadd a vzero = a /\ vadd (vsub a b) b = a /\
  vscale a 1 = a /\ vscale (vscale a s) t = vscale a (s * t) /\ vscale (vadd a b) s = vadd (vscale a s) (vscale b s) /\ vscale a (s + t) = vadd (vscale a s) (vscale a t) /\
  dot a b = dot b a /\ dot (vadd a b) c = dot a c + dot b c /\ dot (vscale a s) b = s * dot a b /\
  a = vadd (vscale (V 1 0 0) (vx a)) (vadd (vscale (V 0 1 0) (vy a)) (vscale (V 0 0 1) (vz a))) /\
  dot (V 1 0 0) (V 1 0 0) = 1 /\ dot (V 0 1 0) (V 0 1 0) = 1 /\ dot (V 0 0 1) (V 0 0 1) = 1 /\
  dot (V 1 0 0) (V 0 1 0) = 0 /\ dot (V 0 1 0) (V 0 0 1) = 0 /\ dot (V 1 0 0) (V 0 0 1) = 0 /\
  cross (V 1 0 0) (V 0 1 0) = V 0 0 1.
Proof. exact space_laws. Qed.
Print Assumptions C42_space.
Theorem C42_norm : forall a b s, vnorm a * vnorm a = dot a a /\ 0 <= vnorm a /\ (vnorm a = 0 <-> a = vzero) /\
  vnorm (vscale a s) = Rabs s * vnorm a /\ vnorm (vadd a b) <= vnorm a + vnorm b.
Proof. exact norm_laws. Qed.
Print Assumptions C42_norm.
Theorem C42_distance : forall a b c, vec_diff_norm a b = vnorm (vsub a b) /\ vec_diff_norm a b = vec_diff_norm b a /\
  (vec_diff_norm a b = 0 <-> a = b) /\ vec_diff_norm a c <= vec_diff_norm a b + vec_diff_norm b c.
Proof. exact diff_norm_metric. Qed.
Print Assumptions C42_distance.
Theorem C42_unit : forall a, unit_vector vzero = vzero /\ (a <> vzero -> vnorm (unit_vector a) = 1 /\ a = vscale (unit_vector a) (vnorm a)).
Proof. exact unit_laws. Qed.
Print Assumptions C42_unit.
Theorem C42_cross : forall a b, dot (cross a b) a = 0 /\ dot (cross a b) b = 0 /\ cross b a = vneg (cross a b) /\
  vnorm (cross a b) * vnorm (cross a b) + dot a b * dot a b = vnorm a * vnorm a * (vnorm b * vnorm b).
Proof. exact cross_laws. Qed.
Print Assumptions C42_cross.

(** ===== C43: ray tracing =====
    There is a unit direction t inside the glass such that Snell's law holds at
    both faces; all directions go to the far side of the glass. *)
Lemma consistent_rot e : consistent e -> dm e = rotation_of (omega e) (phi e) (kappa e).
Proof. unfold consistent. now rewrite <- rot_product. Qed.
Lemma consistent_keeps e : consistent e -> keeps_length (dm e).
Proof. intros H. rewrite (consistent_rot e H). apply rot_keeps. Qed.
Lemma consistent_cols e : consistent e -> cols_orthonormal (dm e).
Proof. intros H. rewrite (consistent_rot e H). apply rot_cols. Qed.
Theorem C43_snell : forall x y c mm n2 d, first_layer mm n2 d -> consistent (c_ext c) -> cc (c_int c) <> 0 -> c_glass c <> vzero ->
  let g := unit_vector (c_glass c) in
  let s := incoming (V x y (- cc (c_int c))) (dm (c_ext c)) in
  let n1 := m_n1 mm in let n3 := m_n3 mm in
  0 < n1 -> 0 < n2 -> 0 < n3 ->
  n1 * vnorm (cross g s) < n2 -> n1 * vnorm (cross g s) <= n3 -> dot g s <> 0 ->
  let '(X, out) := ray_tracing x y c mm in
  exists t, is_unit s /\ is_unit t /\ is_unit out /\ snell g s t n1 n2 /\ snell g t out n2 n3 /\ dot t g <= 0 /\ dot out g <= 0 /\ in_plane g s out /\
    exists Xb, on_line (e_pos (c_ext c)) s Xb /\ dot g Xb = vnorm (c_glass c) + d /\ on_line Xb t X /\ dot g X = vnorm (c_glass c).
Proof.
  intros x y c mm n2 d FL HC HCC HG g s n1 n3 H1 H2 H3 T2 T3 NZ. unfold ray_tracing. destruct (first_layer_n _ _ _ FL) as (-> & ->).
  assert (CN : V x y (- cc (c_int c)) <> vzero) by (intros [=]; lra). pose proof (consistent_keeps _ HC) as HK.
  assert (T2' : n1 * vnorm (cross g s) <= n2) by lra.
  pose proof (trace_dirs (V x y (- cc (c_int c))) (dm (c_ext c)) (e_pos (c_ext c)) (c_glass c) d n1 n2 n3 CN HK HG H1 H2 H3 T2' T3) as TD.
  pose proof (trace_vertex (V x y (- cc (c_int c))) (dm (c_ext c)) (e_pos (c_ext c)) (c_glass c) d n1 n2 n3 CN HK HG H1 H2 NZ T2) as TV.
  fold n1 n3. destruct (fast_ray_tracing _ _ _ _ _ _ _ _) as [X out]. cbn [fst snd] in *. destruct TD as (D1 & D2 & D3 & D4 & D5 & D6 & D7).
  exists (refract g s n1 n2). split; [apply Hs; assumption|]. repeat (split; [assumption|]). exact TV.
Qed.
Print Assumptions C43_snell.
(** equal indices: the ray goes straight on ... *)
Theorem C43_straight : forall x y c mm n2 d, first_layer mm n2 d -> consistent (c_ext c) -> cc (c_int c) <> 0 -> c_glass c <> vzero ->
  0 < m_n1 mm -> m_n1 mm = n2 -> n2 = m_n3 mm ->
  let s := incoming (V x y (- cc (c_int c))) (dm (c_ext c)) in
  dot s (unit_vector (c_glass c)) < 0 ->
  let '(X, out) := ray_tracing x y c mm in out = s /\ on_line (e_pos (c_ext c)) s X.
Proof.
  intros x y c mm n2 d FL HC HCC HG H1 E1 E2 s N. destruct (first_layer_n _ _ _ FL) as (F1 & F2). rewrite <- F1 in E1, E2. unfold ray_tracing.
  assert (CN : V x y (- cc (c_int c)) <> vzero) by (intros [=]; lra). pose proof (consistent_keeps _ HC) as HK.
  pose proof (trace_same (V x y (- cc (c_int c))) (dm (c_ext c)) (e_pos (c_ext c)) (c_glass c) (d_0 mm) (m_n1 mm) (n2_0 mm) (m_n3 mm) CN HK HG H1 ltac:(lra) E1 E2 ltac:(fold s; lra)) as TS.
  pose proof (trace_same_vertex (V x y (- cc (c_int c))) (dm (c_ext c)) (e_pos (c_ext c)) (c_glass c) (d_0 mm) (m_n1 mm) (n2_0 mm) (m_n3 mm) CN HK HG H1 E1 E2 ltac:(fold s; lra)) as TV.
  destruct (fast_ray_tracing _ _ _ _ _ _ _ _) as [X out]. cbn [fst snd] in *. split; assumption.
Qed.
Print Assumptions C43_straight.
(** ... but only if it runs against the glass vector; otherwise it is reflected *)
Theorem C43_away_refuted : forall x y c mm n2 d, first_layer mm n2 d -> consistent (c_ext c) -> cc (c_int c) <> 0 -> c_glass c <> vzero ->
  0 < m_n1 mm -> m_n1 mm = n2 -> n2 = m_n3 mm ->
  let s := incoming (V x y (- cc (c_int c))) (dm (c_ext c)) in
  let g := unit_vector (c_glass c) in
  0 < dot s g -> snd (ray_tracing x y c mm) = vsub s (vscale g (2 * dot s g)) /\ snd (ray_tracing x y c mm) <> s.
Proof.
  intros x y c mm n2 d FL HC HCC HG H1 E1 E2 s g N. destruct (first_layer_n _ _ _ FL) as (F1 & F2). rewrite <- F1 in E1, E2. unfold ray_tracing.
  assert (CN : V x y (- cc (c_int c)) <> vzero) by (intros [=]; lra). pose proof (consistent_keeps _ HC) as HK.
  pose proof (trace_away (V x y (- cc (c_int c))) (dm (c_ext c)) (e_pos (c_ext c)) (c_glass c) (d_0 mm) (m_n1 mm) (n2_0 mm) (m_n3 mm) CN HK HG H1 ltac:(lra) E1 E2 N) as TA.
  fold s g in TA. rewrite TA. split; [reflexivity|]. intros E. apply (f_equal (fun v => dot v g)) in E. rewrite mirror_g in E.
  rewrite (unit_vector_unit _ HG : dot g g = 1) in E. lra.
Qed.
Print Assumptions C43_away_refuted.
Example C43_layer : first_layer simple_mm 1 1.
Proof. split; reflexivity. Qed.
Example C43_example : exists k, 0 < k /\ ray_tracing 3 4 simple_cal simple_mm = (V (9 * 3) (9 * 4) 1, vscale (V 3 4 (-1)) k).
Proof. apply simple_ray. Qed.
Lemma simple_consistent : consistent (c_ext simple_cal).
Proof. unfold consistent. rewrite <- rot_product. reflexivity. Qed.
Example C43_example_away : consistent (c_ext simple_cal) /\ let c := mk_calib (c_ext simple_cal) (c_int simple_cal) (V 0 0 (-1)) no_distortion empty_lut in
  c_glass c <> vzero /\ 0 < dot (incoming (V 0 0 (- cc (c_int c))) (dm (c_ext c))) (unit_vector (c_glass c)).
Proof.
  split; [apply simple_consistent|]. cbv zeta. cbn [c_glass c_int c_ext]. split; [intros [=]; lra|]. rewrite simple_dm. unfold incoming. rewrite mapply_id.
  change (cc (c_int simple_cal)) with 1. replace (- (1)) with (-1) by ring.
  assert (NZ : V 0 0 (-1) <> vzero) by (intros [=]; lra). rewrite (unit_vector_unit _ NZ : dot _ _ = 1). lra.
Qed.

(** ===== C44: camera-glass coordinates ===== *)
Theorem C44_round_trip : forall pp d glass pos, glass <> vzero ->
  let '(pos_t, cross_p, cross_c, z0) := trans_cam_point pp d glass pos in
  back_trans_point glass d cross_c cross_p pos_t = pos.
Proof. exact trans_back. Qed.
Print Assumptions C44_round_trip.
(** the transformed coordinates are distances: z from the inner face, x along the faces *)
Theorem C44_meaning : forall pp d glass pos, glass <> vzero ->
  let g := unit_vector glass in
  let '(pos_t, cross_p, cross_c, z0) := trans_cam_point pp d glass pos in
  vz pos_t = dot g pos - vnorm glass /\ z0 = dot g pp - vnorm glass /\ vy pos_t = 0 /\
  dot g cross_p = vnorm glass /\ dot g cross_c = vnorm glass + d /\
  (exists k, pos = vadd cross_p (vscale g k)) /\ (exists k, pp = vadd cross_c (vscale g k)) /\
  vx pos_t = vec_diff_norm cross_p (vsub cross_c (vscale g d)).
Proof. exact trans_meaning. Qed.
Print Assumptions C44_meaning.

(** ===== C45: look-up table ===== *)
Theorem C45_interpolates : forall l pos, let t := vsub pos (l_origin l) in
  let r := vnorm (V (vx t) (vy t) 0) in
  (0 < l_rw l)%Z -> 0 <= vz t -> length (l_data l) = Z.to_nat (l_nr l * l_nz l) ->
  vz t / IZR (l_rw l) < IZR (l_nz l - 1) -> r / IZR (l_rw l) < IZR (l_nr l - 1) ->
  exists i j sr sz a b c d,
    r / IZR (l_rw l) = IZR i + sr /\ vz t / IZR (l_rw l) = IZR j + sz /\ 0 <= sr < 1 /\ 0 <= sz < 1 /\ (0 <= i)%Z /\ (0 <= j)%Z /\
    entry l i j = Some a /\ entry l i (j + 1) = Some b /\ entry l (i + 1) j = Some c /\ entry l (i + 1) (j + 1) = Some d /\
    get_mmf_from_mmlut l pos = Ok (a * (1 - sr) * (1 - sz) + b * (1 - sr) * sz + c * sr * (1 - sz) + d * sr * sz).
Proof. exact lut_interpolates. Qed.
Print Assumptions C45_interpolates.
Theorem C45_bounded : forall l pos lo hi, let t := vsub pos (l_origin l) in
  let r := vnorm (V (vx t) (vy t) 0) in
  (0 < l_rw l)%Z -> 0 <= vz t -> length (l_data l) = Z.to_nat (l_nr l * l_nz l) ->
  vz t / IZR (l_rw l) < IZR (l_nz l - 1) -> r / IZR (l_rw l) < IZR (l_nr l - 1) ->
  (forall i j x, entry l i j = Some x -> lo <= x <= hi) ->
  exists f, get_mmf_from_mmlut l pos = Ok f /\ lo <= f <= hi.
Proof.
  intros l pos lo hi t r H1 H2 H3 H4 H5 B. destruct (lut_interpolates l pos H1 H2 H3 H4 H5) as (i & j & sr & sz & a & b & c & d & _ & _ & S1 & S2 & _ & _ & A1 & A2 & A3 & A4 & E).
  eexists. split; [exact E|]. apply convex4; auto; eapply B; eassumption.
Qed.
Print Assumptions C45_bounded.
(** at the border the claim fails: the test "> nr * nz" lets index nr * nz through *)
Theorem C45_border_refuted : forall a b c d, get_mmf_from_mmlut (small_lut a b c d) (V 0 0 1) = Exn IndexError.
Proof. exact lut_off_by_one. Qed.
Print Assumptions C45_border_refuted.
(** below the table the code extrapolates, above it mixes entries of the next radius *)
Theorem C45_below_refuted : exists l pos f, l_data l = [1; 2; 1; 2] /\ vz pos < vz (l_origin l) /\ get_mmf_from_mmlut l pos = Ok f /\ f = / 2.
Proof. exists (small_lut 1 2 1 2), (V 0 0 (- / 2)), (3 / 2 * 1 - / 2 * 2). split; [reflexivity|]. split; [cbn; lra|]. split; [apply lut_below|field]. Qed.
Print Assumptions C45_below_refuted.
Theorem C45_above_refuted : forall a b c d e f, get_mmf_from_mmlut (wrap_lut a b c d e f) (V 0 0 (3 / 2)) = Ok (/ 2 * b + / 2 * c).
Proof. exact lut_wrap. Qed.
Print Assumptions C45_above_refuted.
Example C45_example : let l := small_lut 1 2 3 4 in let t := vsub (V 0 0 (/ 2)) (l_origin l) in
  vz t / IZR (l_rw l) < IZR (l_nz l - 1) /\ vnorm (V (vx t) (vy t) 0) / IZR (l_rw l) < IZR (l_nr l - 1).
Proof. cbv zeta. change (l_origin (small_lut 1 2 3 4)) with vzero. rewrite r_zero. cbn. lra. Qed.

(** ===== C46: projection in a single medium ===== *)
Theorem C46_pinhole : forall orig c mm, c_glass c <> vzero -> single_medium mm -> depth c orig <> 0 -> flat_image_coord orig c mm = Ok (pinhole c orig).
Proof. intros orig c mm G M D. rewrite <- pinhole_project by exact D. apply one_medium_projection; [exact G|]. now apply single_medium_one. Qed.
Print Assumptions C46_pinhole.
Theorem C46_equal_indices : forall orig c mm xy, c_glass c <> vzero -> same_index mm -> depth c orig <> 0 ->
  dot (vsub orig (e_pos (c_ext c))) (c_glass c) <> 0 -> flat_image_coord orig c mm = Ok xy -> xy = pinhole c orig.
Proof. intros orig c mm xy G M D H E. rewrite <- pinhole_project by exact D. eapply same_index_projection; eauto. now apply same_index_model. Qed.
Print Assumptions C46_equal_indices.
Theorem C46_total_without_table : forall orig c mm, l_nr (c_lut c) = 0%Z -> l_nz (c_lut c) = 0%Z -> exists xy, flat_image_coord orig c mm = Ok xy.
Proof. exact same_index_ok. Qed.
Print Assumptions C46_total_without_table.
(** image point, camera centre and object point are collinear *)
Theorem C46_collinear : forall c p, consistent (c_ext c) -> depth c p <> 0 ->
  let '(x, y) := pinhole c p in
  mapply (dm (c_ext c)) (V x y (- cc (c_int c))) = vscale (vsub p (e_pos (c_ext c))) (- cc (c_int c) / depth c p).
Proof. intros c p H D. rewrite <- pinhole_project by exact D. apply project_collinear; [now apply consistent_cols|exact D]. Qed.
Print Assumptions C46_collinear.
(** projecting a point and tracing the image point back gives a ray through the point and the camera *)
Theorem C46_back : forall c mm p, consistent (c_ext c) -> c_glass c <> vzero -> in_front c p ->
  0 < m_n1 mm -> same_index mm -> forall x y, flat_image_coord p c mm = Ok (x, y) ->
  let '(vertex, dir) := ray_tracing x y c mm in
  on_line vertex dir p /\ on_line (e_pos (c_ext c)) dir p /\ is_unit dir.
Proof.
  intros c mm p HC HG HF N SI0 x y E. pose proof (same_index_model _ SI0) as SI. pose proof HF as (_ & _ & F).
  apply same_index_projection in E; [|assumption|assumption|lra].
  pose proof (roundtrip c mm p (consistent_cols _ HC) (consistent_keeps _ HC) HG HF N (proj1 SI) (proj1 (proj2 SI))) as RT. rewrite <- E in RT. exact RT.
Qed.
Print Assumptions C46_back.
Example C46_example : in_front simple_cal (V 1 2 0) /\ same_index simple_mm /\ single_medium simple_mm /\ pinhole simple_cal (V 1 2 0) = (/ 10, / 5).
Proof.
  assert (D : depth simple_cal (V 1 2 0) = -10) by (unfold depth; rewrite simple_dm; unfold dot, col3; cbn; ring).
  split; [split; [cbn; lra|]; split; [rewrite D; lra|]; unfold dot; cbn; lra|].
  split; [split; [cbn; lra|]; split; [reflexivity|]; split; [reflexivity|]; exists 1; split; reflexivity|]. split; [repeat split|].
  unfold pinhole. rewrite D. rewrite simple_dm. unfold dot, col1, col2. cbn. f_equal; field.
Qed.

(** ===== C47: skew midpoint ===== *)
Theorem C47_midpoint : forall v1 d1 v2 d2, cross d1 d2 <> vzero ->
  exists a b, on_line v1 d1 a /\ on_line v2 d2 b /\ dot (vsub a b) d1 = 0 /\ dot (vsub a b) d2 = 0 /\
    skew_midpoint v1 d1 v2 d2 = (vec_diff_norm a b, vscale (vadd a b) (/ 2)) /\
    forall a' b', on_line v1 d1 a' -> on_line v2 d2 b' -> vec_diff_norm a b <= vec_diff_norm a' b'.
Proof. exact skew_min. Qed.
Print Assumptions C47_midpoint.
Theorem C47_symmetric : forall v1 d1 v2 d2, skew_midpoint v1 d1 v2 d2 = skew_midpoint v2 d2 v1 d1.
Proof. exact skew_sym. Qed.
Print Assumptions C47_symmetric.
Example C47_example : cross (V 1 0 0) (V 0 1 0) <> vzero.
Proof. intros E. apply (f_equal vz) in E. cbn in E. lra. Qed.

(** ===== C48: point position ===== *)
Theorem C48_meeting_rays : forall targets cals mm rays p, rays_seen mm targets cals rays ->
  (2 <= length rays)%nat -> meet rays p -> non_parallel rays -> point_position targets cals mm = Ok (0, p).
Proof. intros targets cals mm rays p S. apply rays_seen_of in S. subst rays. apply position_meet. Qed.
Print Assumptions C48_meeting_rays.
(** the mean over all pairs of rays of their midpoint and of their distance *)
Theorem C48_average : forall targets cals mm rays, rays_seen mm targets cals rays -> (2 <= length rays)%nat ->
  let l := map (fun rq => skew_midpoint (fst (fst rq)) (snd (fst rq)) (fst (snd rq)) (snd (snd rq))) (all_pairs rays) in
  point_position targets cals mm =
    Ok (mean (map fst l), V (mean (map (fun a => vx (snd a)) l)) (mean (map (fun a => vy (snd a)) l)) (mean (map (fun a => vz (snd a)) l))).
Proof.
  intros targets cals mm rays S L l. apply rays_seen_of in S. unfold mean. rewrite !map_length. unfold l at 2 4 6 8. rewrite map_length. rewrite <- (map_length (fun rq => skew_midpoint (fst (fst rq)) (snd (fst rq)) (fst (snd rq)) (snd (snd rq))) (all_pairs rays)). fold l.
  unfold point_position. rewrite S, pair_results_all. fold l. apply mean_is.
  unfold l. destruct rays as [|a [|b t]]; cbn in *; try lia. discriminate.
Qed.
Print Assumptions C48_average.
(** the order of the cameras does not matter *)
Theorem C48_symmetric : forall targets cals mm targets' cals', Permutation (combine targets cals) (combine targets' cals') ->
  point_position targets cals mm = point_position targets' cals' mm.
Proof. exact position_perm. Qed.
Print Assumptions C48_symmetric.
(** fewer than two cameras: an exception *)
Theorem C48_too_few_refuted : forall targets cals mm rays, rays_seen mm targets cals rays -> (length rays < 2)%nat -> point_position targets cals mm = Exn ZeroDivisionError.
Proof. intros targets cals mm rays S. apply rays_seen_of in S. subst rays. apply position_few. Qed.
Print Assumptions C48_too_few_refuted.

Definition ex_targets : list (option (R * R)) := [Some (1, 0); None; Some (0, 1)].
Definition ex_cals : list calib := [simple_cal; simple_cal; simple_cal].
Lemma ex_rays : (2 <= length (rays_of ex_targets ex_cals simple_mm))%nat /\ meet (rays_of ex_targets ex_cals simple_mm) (V 0 0 10) /\ non_parallel (rays_of ex_targets ex_cals simple_mm).
Proof.
  unfold rays_of, ex_targets, ex_cals. cbn [combine flat_map fst snd app]. destruct (simple_ray 1 0) as (k & K & ->). destruct (simple_ray 0 1) as (q & Q & ->).
  split; [cbn; lia|]. split.
  - repeat constructor; cbn [fst snd]; [exists (- (9 / k))|exists (- (9 / q))]; apply vec_ext; cbn [vx vy vz vadd vscale]; field; lra.
  - repeat constructor. cbn [snd]. intros E. apply (f_equal vz) in E. cbn in E. nra.
Qed.
Example C48_example : point_position ex_targets ex_cals simple_mm = Ok (0, V 0 0 10).
Proof. destruct ex_rays as (A & B & C). eapply C48_meeting_rays; eauto. apply rays_seen_total. Qed.

(** ===== C49: epipolar segment ===== *)
(** the end points are the images of the ray's points at the volume's limits; in a single medium every point of the
    ray between the limits is imaged onto the segment *)
Theorem C49_ends : forall xl yl cal1 cal2 mm v r, epi_mm xl yl cal1 cal2 mm v = Ok r ->
  let '(pos, dir) := ray_tracing xl yl cal1 mm in
  vz dir <> 0 ->
  exists A B, on_line pos dir A /\ vz A = lower_z v (vx pos) /\ on_line pos dir B /\ vz B = upper_z v (vx pos) /\
    flat_image_coord A cal2 mm = Ok (fst r) /\ flat_image_coord B cal2 mm = Ok (snd r).
Proof. exact epi_ends. Qed.
Print Assumptions C49_ends.
Theorem C49_segment : forall xl yl cal1 cal2 mm v, c_glass cal2 <> vzero -> single_medium mm ->
  let '(pos, dir) := ray_tracing xl yl cal1 mm in
  vz dir <> 0 ->
  exists A B a b, epi_mm xl yl cal1 cal2 mm v = Ok (a, b) /\
    on_line pos dir A /\ vz A = lower_z v (vx pos) /\ on_line pos dir B /\ vz B = upper_z v (vx pos) /\
    (forall P, on_line pos dir P -> vz A <= vz P <= vz B -> 0 < depth cal2 A * depth cal2 B ->
      exists q, flat_image_coord P cal2 mm = Ok q /\ on_segment a b q).
Proof.
  intros xl yl cal1 cal2 mm v HG SM. pose proof (single_medium_one _ SM) as OM. pose proof (epi_segment xl yl cal1 cal2 mm v HG OM) as H. destruct (ray_tracing xl yl cal1 mm) as [pos dir].
  intros NZ. destruct (H NZ) as (A & B & E & H1 & H2 & H3 & H4 & H5). rewrite z_limits_spec in H2, H4. exists A, B, (project cal2 A), (project cal2 B). repeat (split; [assumption|]). intros P P1 P2 P3.
  exists (project cal2 P). split; [now apply one_medium_projection|]. exact (H5 P P1 P2 P3).
Qed.
Print Assumptions C49_segment.
Theorem C49_midpoint_2D : forall xl yl cal1 mm v, let '(pos, dir) := ray_tracing xl yl cal1 mm in
  vz dir <> 0 -> on_line pos dir (epi_mm_2D xl yl cal1 mm v) /\ vz (epi_mm_2D xl yl cal1 mm v) = (lower_z v (vx pos) + upper_z v (vx pos)) / 2.
Proof.
  intros xl yl cal1 mm v. pose proof (epi_2D_mid xl yl cal1 mm v) as H. destruct (ray_tracing xl yl cal1 mm) as [pos dir]. rewrite z_limits_spec in H. exact H.
Qed.
Print Assumptions C49_midpoint_2D.
Example C49_example : let '(pos, dir) := ray_tracing 1 0 simple_cal simple_mm in vz dir <> 0.
Proof. destruct (simple_ray 1 0) as (k & K & ->). cbn. lra. Qed.

(** ===== C54: multi_cam_point_positions =====
    Refuted: for every non-empty table only the last position is returned. *)
Theorem C54_refuted : forall targets mm cals pts, targets <> [] -> Forall2 (fun t p => point_position t cals mm = Ok p) targets pts ->
  multi_cam_point_positions targets mm cals = Ok (One (snd (last pts (0, vzero))), map fst pts).
Proof. exact multi_last. Qed.
Print Assumptions C54_refuted.

Example C54_example : multi_cam_point_positions [ex_targets; ex_targets] simple_mm ex_cals = Ok (One (V 0 0 10), [0; 0]).
Proof. rewrite (C54_refuted _ _ _ [(0, V 0 0 10); (0, V 0 0 10)]); [reflexivity|discriminate|]. repeat constructor; apply C48_example. Qed.

(** ===== C55: dumbbell precision ===== *)
Theorem C55_dumbbell : forall targets mm cals db w q, 0 < db -> 0 <= w -> weighted_dumbbell_precision targets mm cals db w = Ok q ->
  exists pts, Forall2 (fun t p => point_position t cals mm = Ok p) targets pts /\ 0 <= q /\
    (q = 0 <-> Forall (fun x => fst x = 0) pts /\ (w = 0 \/ exact_pairs db pts)).
Proof. exact dumbbell_spec. Qed.
Print Assumptions C55_dumbbell.

Example C55_example : exists q, weighted_dumbbell_precision [ex_targets; ex_targets] simple_mm ex_cals 5 1 = Ok q.
Proof. unfold weighted_dumbbell_precision. cbn [map all_ok]. rewrite C48_example. cbn [bind length Nat.eqb]. eexists. reflexivity. Qed.

(** ===== C25: angle and acceleration ===== *)
Theorem C25_angle : forall start pred cand, pred <> start -> cand <> start ->
  let v0 := vsub pred start in let v1 := vsub cand start in
  let '(ang, acc) := angle_acc start pred cand in
  0 <= ang <= 200 /\ acc = vec_diff_norm pred cand /\ cos (ang * PI / 200) = dot v0 v1 / (vnorm v0 * vnorm v1) /\ (pred = cand -> ang = 0).
Proof. exact angle_spec. Qed.
Print Assumptions C25_angle.
(** a particle that stays (predicted and found at the same place) gets the angle 200, not 0 *)
Theorem C25_stationary_refuted : forall start, fst (angle_acc start start start) = 200.
Proof. exact angle_stationary. Qed.
Print Assumptions C25_stationary_refuted.

(** ===== C26: search window ===== *)
Theorem C26_window : forall to_pixel imx imy p l, 0 <= imx -> 0 <= imy ->
  let '(xr, xl, yd, yu) := searchquader to_pixel imx imy p l in
  let cx := fst (to_pixel p) in let cy := snd (to_pixel p) in
  let xs := map (fun c => clamp imx (fst (to_pixel c))) (extremes p l) in
  let ys := map (fun c => clamp imy (snd (to_pixel c))) (extremes p l) in
  is_min (cx - xl) xs /\ is_max (cx + xr) xs /\ is_min (cy - yu) ys /\ is_max (cy + yd) ys.
Proof. exact quader_spec. Qed.
Print Assumptions C26_window.

(** ===== C56: volume dimensions =====
    Natural expectation: the box contains every camera's view at both z limits.  Here: at the upper limit for cameras
    without distortion or with principal point (0, 0), and at the lower limit for rays that start at z = 0. *)
Theorem C56_volume : forall xmax xmin ymax ymin v cp tol cals c px py, xmin <= xmax -> ymin <= ymax -> In c cals ->
  c_added c = no_distortion \/ (xh (c_int c) = 0 /\ yh (c_int c) = 0) ->
  px = 0 \/ px = IZR (imx_ cp) -> py = 0 \/ py = IZR (imy_ cp) ->
  let '(xM, xm, yM, ym, z_max, z_min) := volumedimension xmax xmin ymax ymin v cp tol cals in
  z_max = Rmax (zmax0 v) (zmax1 v) /\ z_min = Rmin (zmin0 v) (zmin1 v) /\
  (let p := at_z (pixel_ray cp tol c px py) z_max in xm <= fst p <= xM /\ ym <= snd p <= yM) /\
  (vz (fst (pixel_ray cp tol c px py)) = 0 -> let p := at_z (pixel_ray cp tol c px py) z_min in xm <= fst p <= xM /\ ym <= snd p <= yM) /\
  xm <= xmin /\ xmax <= xM /\ ym <= ymin /\ ymax <= yM.
Proof.
  intros xmax xmin ymax ymin v cp tol cals c px py HX HY IC HP P1 P2.
  assert (E : exists ij, corner_ray cp tol c ij = pixel_ray cp tol c px py).
  { destruct P1 as [-> | ->], P2 as [-> | ->]; [exists (false, false)|exists (false, true)|exists (true, false)|exists (true, true)]; rewrite corner_pixel by exact HP; reflexivity. }
  destruct E as (ij & E). rewrite <- E. now apply volume_contains.
Qed.
Print Assumptions C56_volume.
Theorem C56_lower_refuted : forall tol,
  let '(xmax, xmin, ymax, ymin, z_max, z_min) := volumedimension 0 0 0 0 deep_vol simple_cpar tol [simple_cal] in
  z_min = -5 /\ xmax <= 13 /\ fst (at_z (pixel_ray simple_cpar tol simple_cal 2 2) z_min) = 15.
Proof.
  intros tol. pose proof (volume_too_small tol) as H. rewrite corner_pixel in H by (left; reflexivity). exact H.
Qed.
Print Assumptions C56_lower_refuted.
(** the principal point is subtracted before the distortion is corrected, not after: the box of a camera with both is too small *)
Theorem C56_principal_point_refuted : exists c, forall tol,
  let '(xmax, xmin, ymax, ymin, z_max, z_min) := volumedimension 0 0 0 0 (mk_volpar 0 1 0 0 0 0) simple_cpar tol [c] in
  z_max = 0 /\ xmax <= 10 /\ fst (at_z (pixel_ray simple_cpar tol c 2 2) z_max) = 15.
Proof. exists scaled_cal. exact scaled_box. Qed.
Print Assumptions C56_principal_point_refuted.

(** ===== C68: projection into a refracting volume agrees with ray tracing =====
    One plate, the camera on one side of it, the point on the other, in front of the camera.  The ray traced back
    from the image of the point arrives at the height of the point within 1/1000 of it, or within the part of
    the distance r from the camera axis that 41 rounds leave. *)
Theorem C68_round_trip : forall c mm orig n2 d x y, consistent (c_ext c) -> 0 < cc (c_int c) -> c_glass c <> vzero ->
  one_plate mm n2 d -> 0 < m_n1 mm -> m_n1 mm <= n2 -> m_n1 mm <= m_n3 mm -> 0 <= d ->
  let g := unit_vector (c_glass c) in let C := e_pos (c_ext c) in let inner := vnorm (c_glass c) in let outer := inner + d in
  outer < dot g C -> dot g orig <= inner ->
  depth c orig < 0 -> depth c (level_with g (vscale g outer) orig) < 0 ->
  flat_image_coord orig c mm = Ok (x, y) ->
  let '(vertex, dir) := ray_tracing x y c mm in
  exists t, 0 <= t /\ let q := vadd vertex (vscale dir t) in dot g q = dot g orig /\
    vec_diff_norm q orig <= Rmax (1 / 1000) ((1 - (dot g C - outer) / (dot g C - dot g orig)) ^ 41 * vec_diff_norm orig (level_with g orig C)).
Proof.
  intros c mm orig n2 d x y HC CC HG OP N1 N2 N3 PD g C inner outer OUT INS D1 D2 E. replace (1 / 1000) with (/ 1000) by lra.
  exact (refracted_round_trip c mm orig n2 d x y (consistent_cols _ HC) (consistent_keeps _ HC) CC HG OP N1 N2 N3 PD OUT INS D1 D2 E).
Qed.
Print Assumptions C68_round_trip.
Definition water : mmpar := mk_mm 1 1 [3 / 2] [1] (4 / 3).
Example C68_example : exists x y, flat_image_coord (V 1 2 0) simple_cal water = Ok (x, y) /\
  let '(vertex, dir) := ray_tracing x y simple_cal water in exists t, 0 <= t /\ vec_diff_norm (vadd vertex (vscale dir t)) (V 1 2 0) <= 1 / 1000.
Proof.
  destruct (same_index_ok (V 1 2 0) simple_cal water eq_refl eq_refl) as ((x & y) & E). exists x, y. split; [exact E|].
  assert (GN : c_glass simple_cal <> vzero) by (intros [=]; lra).
  assert (NG : vnorm (c_glass simple_cal) = 1). { rewrite vnorm_dot. replace (dot _ _) with 1 by (unfold dot; cbn; ring). apply sqrt_1. }
  assert (UG : unit_vector (c_glass simple_cal) = V 0 0 1). { rewrite unit_scale by exact GN. rewrite NG. unfold simple_cal. unfold vscale; apply vec_ext; cbn; field. }
  pose proof (C68_round_trip simple_cal water (V 1 2 0) (3 / 2) 1 x y) as H. cbv zeta in H. rewrite UG, NG in H.
  specialize (H simple_consistent).
  assert (EP : e_pos (c_ext simple_cal) = V 0 0 10) by reflexivity. rewrite EP in H.
  assert (D : forall a b z, depth simple_cal (V a b z) = z - 10) by (intros; unfold depth; rewrite simple_dm; unfold dot, col3; cbn; ring).
  assert (LW : level_with (V 0 0 1) (vscale (V 0 0 1) (1 + 1)) (V 1 2 0) = V 1 2 2) by (unfold level_with; vec_eq).
  assert (LC : level_with (V 0 0 1) (V 1 2 0) (V 0 0 10) = V 0 0 0) by (unfold level_with; vec_eq).
  rewrite LW, LC, !D in H.
  assert (G1 : dot (V 0 0 1) (V 0 0 10) = 10) by (unfold dot; cbn; ring). assert (G2 : dot (V 0 0 1) (V 1 2 0) = 0) by (unfold dot; cbn; ring). rewrite G1, G2 in H.
  cbn [m_n1 m_n3 water c_int simple_cal cc] in H.
  specialize (H ltac:(lra) GN ltac:(repeat split; reflexivity) ltac:(lra) ltac:(lra) ltac:(lra) ltac:(lra) ltac:(lra) ltac:(lra) ltac:(lra) ltac:(lra) E).
  destruct (ray_tracing x y simple_cal water) as [vertex dir]. destruct H as (t & T & _ & B). exists t. split; [exact T|].
  eapply Rle_trans; [exact B|]. apply Rmax_lub; [lra|].
  replace (1 - (10 - (1 + 1)) / (10 - 0)) with (/ 5) by field.
  assert (V5 : vec_diff_norm (V 1 2 0) (V 0 0 0) <= 3). { rewrite (proj1 (diff_norm_metric _ _ vzero)). rewrite vnorm_dot. replace (dot _ _) with 5 by (unfold dot; cbn; ring). apply Rsqr_incr_0_var; [|lra]. rewrite Rsqr_sqrt by nra. unfold Rsqr. lra. }
  assert (V0 : 0 <= vec_diff_norm (V 1 2 0) (V 0 0 0)). { rewrite (proj1 (diff_norm_metric _ _ vzero)). apply vnorm_pos. }
  assert (P : 0 <= (/ 5) ^ 41 <= / 5 ^ 6). { split; [apply pow_le; lra|]. rewrite pow_inv. apply Rinv_le_contravar; [apply pow_lt; lra|]. apply Rle_pow; [lra|lia]. }
  assert (/ 5 ^ 6 <= / 15000) by (apply Rinv_le_contravar; lra). nra.
Qed.
