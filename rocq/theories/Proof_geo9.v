(** Distortions that correct_brown_affine does not undo, at any tolerance; the vocabulary of Spec_geo in terms of the model. *)
From Verif Require Import Base Model_geo Spec_geo Proof_geo Proof_geo2 Proof_geo3 Proof_geo5 Proof_geo6 Proof_geo7 Proof_geo8.
Local Open Scope R_scope.

Lemma correct_loop_inv (I : R -> R -> R -> Prop) (J : R -> R -> R -> R -> Prop) x y ap tol :
  (forall r xq yq, I r xq yq ->
     let '(xq', yq') := correct_step x y ap r xq yq in
     let rq1 := sqrt (xq' ^ 2 + yq' ^ 2) in
     let rq' := if Rlt_dec (12 / 10 * r) rq1 then r / 2 else rq1 in
     I rq' xq' yq' /\ J r rq' xq' yq') ->
  forall left rq xq yq, I rq xq yq -> let '(r0, r, a, b) := correct_loop left x y ap tol rq xq yq in J r0 r a b.
Proof.
  intros ST. induction left as [|k IH]; intros rq xq yq HI; cbn [correct_loop]; specialize (ST rq xq yq HI);
  destruct (correct_step x y ap rq xq yq) as [a b]; cbv zeta in ST.
  - apply ST.
  - destruct (Rle_dec _ _); [apply ST|]. apply IH. apply ST.
Qed.
Lemma sqrt_ge a b : 0 <= a -> a * a <= b -> a <= sqrt b.
Proof. intros A H. rewrite <- (sqrt_square a A). apply sqrt_le_1_alt. exact H. Qed.
Lemma sqrt_le a b : 0 <= a -> b <= a * a -> sqrt b <= a.
Proof. intros A H. rewrite <- (sqrt_square a A). apply sqrt_le_1_alt. exact H. Qed.

Definition p1_ap : addp := mk_addp 0 0 0 (/ 100) 0 1 0.
Lemma p1_distorted : distort_brown_affine 1 1 p1_ap = (104 / 100, 10208 / 10000).
Proof.
  unfold distort_brown_affine. replace (at_origin 1 1) with false by (symmetry; apply at_origin_false; lra).
  cbn [p1_ap k1 k2 k3 p1 p2 scx she]. rewrite sin_0, cos_0, sqrt2_sq. f_equal; field.
Qed.
Lemma p1_never tol : let '(X, Y) := correct_brown_affine (104 / 100) (10208 / 10000) p1_ap tol in 6 / 10000 <= Y - 1.
Proof.
  unfold correct_brown_affine. replace (at_origin _ _) with false by (symmetry; apply at_origin_false; lra).
  pose proof (correct_loop_inv (fun r xq yq => 13 / 10 <= r <= 15 / 10 /\ 98 / 100 <= xq <= 105 / 100 /\ 99 / 100 <= yq <= 103 / 100)
    (fun r0 r xq yq => 99 / 100 <= xq <= 1004 / 1000 /\ 99 / 100 <= yq <= 10012 / 10000) (104 / 100) (10208 / 10000) p1_ap tol) as L.
  assert (ST : forall r xq yq : R, 13 / 10 <= r <= 15 / 10 /\ 98 / 100 <= xq <= 105 / 100 /\ 99 / 100 <= yq <= 103 / 100 ->
     let '(xq', yq') := correct_step (104 / 100) (10208 / 10000) p1_ap r xq yq in
     let rq1 := sqrt (xq' ^ 2 + yq' ^ 2) in
     let rq' := if Rlt_dec (12 / 10 * r) rq1 then r / 2 else rq1 in
     (13 / 10 <= rq' <= 15 / 10 /\ 98 / 100 <= xq' <= 105 / 100 /\ 99 / 100 <= yq' <= 103 / 100) /\
     99 / 100 <= xq' <= 1004 / 1000 /\ 99 / 100 <= yq' <= 10012 / 10000).
  { intros r xq yq (R & X & Y). unfold correct_step. cbn [p1_ap k1 k2 k3 p1 p2 scx she]. rewrite sin_0, cos_0. cbv zeta.
    match goal with |- context[sqrt (?a ^ 2 + _)] => set (a' := a) end. match goal with |- context[sqrt (a' ^ 2 + ?b ^ 2)] => set (b' := b) end.
    assert (R2 : 169 / 100 <= r * r <= 225 / 100) by nra. assert (X2 : 96 / 100 <= xq * xq <= 11025 / 10000) by nra.
    assert (A : 995 / 1000 <= a' <= 1004 / 1000) by (replace a' with (104 / 100 - / 100 * (r * r + 2 * (xq * xq))) by (unfold a'; field); lra).
    assert (AY : 985 / 1000 <= a' * yq <= 10342 / 10000) by (clearbody a'; nra).
    assert (B : 1 <= b' <= 10012 / 10000) by (replace b' with (10208 / 10000 - / 50 * (a' * yq)) by (unfold b'; fold a'; field); lra).
    clearbody a' b'. assert (Q1 : 14 / 10 <= sqrt (a' ^ 2 + b' ^ 2)) by (apply sqrt_ge; nra).
    assert (Q2 : sqrt (a' ^ 2 + b' ^ 2) <= 15 / 10) by (apply sqrt_le; nra).
    destruct (Rlt_dec _ _); [exfalso; lra|]. lra. }
  specialize (L ST 200%nat (sqrt ((104 / 100) ^ 2 + (10208 / 10000) ^ 2)) (104 / 100) (10208 / 10000)).
  destruct (correct_loop 200 _ _ _ _ _ _ _) as [[[r0 r] a] b].
  assert (S0 : 13 / 10 <= sqrt ((104 / 100) ^ 2 + (10208 / 10000) ^ 2) <= 15 / 10) by (split; [apply sqrt_ge|apply sqrt_le]; lra).
  destruct L as (A & B); [repeat split; lra|]. cbn [p1_ap k1 k2 k3 p1 p2 scx she]. rewrite cos_0. assert (AB : a * b <= 10053 / 10000) by nra. clear - AB. lra.
Qed.

Definition weak_shear : addp := mk_addp (/ 100) 0 0 0 0 1 (PI / 6).
Lemma cos6 : cos (PI / 6) = sqrt 3 / 2 /\ 866 / 1000 <= sqrt 3 / 2 <= 8661 / 10000.
Proof.
  split; [apply cos_PI6|]. assert (1732 / 1000 <= sqrt 3) by (apply sqrt_ge; lra). assert (sqrt 3 <= 17322 / 10000) by (apply sqrt_le; lra). lra.
Qed.
Lemma shear_distorted : distort_brown_affine 1 1 weak_shear = (51 / 100, cos (PI / 6) * (102 / 100)).
Proof.
  unfold distort_brown_affine. replace (at_origin 1 1) with false by (symmetry; apply at_origin_false; lra).
  cbn [weak_shear k1 k2 k3 p1 p2 scx she]. rewrite sin_PI6, sqrt2_sq. f_equal; field.
Qed.
Lemma shear_never tol : let '(X, Y) := correct_brown_affine (51 / 100) (cos (PI / 6) * (102 / 100)) weak_shear tol in 9 / 1000 <= Y - 1.
Proof.
  destruct cos6 as (C6 & C7). rewrite <- C6 in C7. set (c6 := cos (PI / 6)) in *.
  assert (C8 : c6 * c6 = 3 / 4). { rewrite C6. replace (sqrt 3 / 2 * (sqrt 3 / 2)) with (sqrt 3 * sqrt 3 / 4) by field. rewrite sqrt_sqrt by lra. reflexivity. }
  unfold correct_brown_affine. replace (at_origin _ _) with false by (symmetry; apply at_origin_false; lra).
  replace (sqrt ((51 / 100) ^ 2 + (c6 * (102 / 100)) ^ 2)) with (102 / 100).
  2: { symmetry. replace ((51 / 100) ^ 2 + (c6 * (102 / 100)) ^ 2) with ((102 / 100) * (102 / 100)) by (replace ((c6 * (102 / 100)) ^ 2) with (c6 * c6 * (102 / 100) ^ 2) by ring; rewrite C8; field). apply sqrt_square. lra. }
  pose proof (correct_loop_inv (fun r xq yq => (0 < r <= 51 / 100 /\ 9 / 10 <= xq <= 103 / 100 /\ 1 <= yq <= 102 / 100) \/ (r = 102 / 100 /\ xq = 51 / 100 /\ yq = c6 * (102 / 100)))
    (fun r0 r xq yq => 0 < r0 <= 102 / 100 /\ 1 <= yq <= 102 / 100) (51 / 100) (c6 * (102 / 100)) weak_shear tol) as L.
  assert (YC : c6 * (102 / 100) / c6 = 102 / 100) by (field; lra).
  assert (ST : forall r xq yq : R, (0 < r <= 51 / 100 /\ 9 / 10 <= xq <= 103 / 100 /\ 1 <= yq <= 102 / 100) \/ (r = 102 / 100 /\ xq = 51 / 100 /\ yq = c6 * (102 / 100)) ->
     let '(xq', yq') := correct_step (51 / 100) (c6 * (102 / 100)) weak_shear r xq yq in
     let rq1 := sqrt (xq' ^ 2 + yq' ^ 2) in
     let rq' := if Rlt_dec (12 / 10 * r) rq1 then r / 2 else rq1 in
     ((0 < rq' <= 51 / 100 /\ 9 / 10 <= xq' <= 103 / 100 /\ 1 <= yq' <= 102 / 100) \/ (rq' = 102 / 100 /\ xq' = 51 / 100 /\ yq' = c6 * (102 / 100))) /\
     0 < r <= 102 / 100 /\ 1 <= yq' <= 102 / 100).
  { intros r xq yq H. unfold correct_step. cbn [weak_shear k1 k2 k3 p1 p2 scx she]. rewrite sin_PI6. fold c6. rewrite YC. cbv zeta.
    set (cm := / 100 * r ^ 2 + 0 * r ^ 4 + 0 * r ^ 6).
    match goal with |- context[sqrt (?a ^ 2 + _)] => set (a' := a) end. match goal with |- context[sqrt (a' ^ 2 + ?b ^ 2)] => set (b' := b) end.
    destruct H as [(R & X & Y)|(-> & -> & ->)].
    - assert (CM : 0 <= cm <= 27 / 10000) by (unfold cm; nra).
      assert (A : 1 <= a' <= 102 / 100) by (unfold a'; clearbody cm; nra).
      assert (B : 1 <= b' <= 102 / 100) by (unfold b'; clearbody cm; nra).
      clearbody a' b'. assert (Q1 : 14 / 10 <= sqrt (a' ^ 2 + b' ^ 2)) by (apply sqrt_ge; nra).
      destruct (Rlt_dec _ _) as [|N]; [|exfalso; lra]. split; [left|]; repeat split; lra.
    - assert (CM : cm = 10404 / 1000000) by (unfold cm; field).
      assert (A : 94 / 100 <= a' <= 95 / 100) by (unfold a'; rewrite CM; lra).
      assert (B : 101 / 100 <= b' <= 102 / 100) by (unfold b'; rewrite CM; lra).
      clearbody a' b'. assert (Q1 : 137 / 100 <= sqrt (a' ^ 2 + b' ^ 2)) by (apply sqrt_ge; nra).
      destruct (Rlt_dec _ _) as [|N]; [|exfalso; lra]. split; [left|]; repeat split; lra. }
  specialize (L ST 200%nat (102 / 100) (51 / 100) (c6 * (102 / 100))).
  destruct (correct_loop 200 _ _ _ _ _ _ _) as [[[r0 r] a] b].
  destruct L as (A & B); [right; auto|]. cbn [weak_shear k1 k2 k3 p1 p2 scx she]. fold c6. rewrite YC.
  assert (CM : 0 <= / 100 * r0 ^ 2 + 0 * r0 ^ 4 + 0 * r0 ^ 6 <= 10404 / 1000000) by nra. revert CM. generalize (/ 100 * r0 ^ 2 + 0 * r0 ^ 4 + 0 * r0 ^ 6). intros cm CM. nra.
Qed.

(** ---- vocabulary ---- *)
Lemma first_layer_n mm n d : first_layer mm n d -> n2_0 mm = n /\ d_0 mm = d.
Proof. intros (A & B). unfold n2_0, d_0. split; apply nth_error_nth; assumption. Qed.
Lemma single_medium_one mm : single_medium mm -> one_medium mm = true.
Proof.
  intros (A & B & C & D). unfold one_medium. assert (E : n2_0 mm = 1) by (apply nth_error_nth; exact D). rewrite A, B, C, E.
  destruct (Req_EM_T 1 1); [reflexivity|contradiction].
Qed.
Lemma same_index_model mm : same_index mm -> same_index0 mm.
Proof.
  intros (A & B & C & d & D). destruct (first_layer_n _ _ _ D) as (E & _). split; [auto|]. split; [congruence|]. split; [auto|]. split; auto.
  destruct D as (_ & D). intros E'. rewrite E' in D. discriminate.
Qed.
Lemma pinhole_project c p : depth c p <> 0 -> project c p = pinhole c p.
Proof. intros H. unfold project, pinhole. fold (depth c p). destruct (Req_EM_T (depth c p) 0); [contradiction|reflexivity]. Qed.
Lemma z_limits_spec v pos : z_limits v pos = (lower_z v (vx pos), upper_z v (vx pos)).
Proof. unfold z_limits, lower_z, upper_z. unfold Rdiv. f_equal; ring. Qed.
Lemma rays_seen_of mm targets cals rays : rays_seen mm targets cals rays -> rays_of targets cals mm = rays.
Proof.
  induction 1 as [cals|targets|t cal cals rays H IH|x y t cal cals rays H IH]; [reflexivity|destruct targets; reflexivity| |];
  unfold rays_of in *; cbn [combine flat_map fst snd app]; congruence.
Qed.
Lemma rays_seen_total mm targets cals : rays_seen mm targets cals (rays_of targets cals mm).
Proof.
  revert cals. induction targets as [|[[x y]|] t IH]; intros [|c cals]; try (constructor; fail).
  - apply (seen mm x y t c cals _ (IH cals)).
  - apply (unseen mm t c cals _ (IH cals)).
Qed.
Lemma pair_results_all rays : pair_results rays = map (fun rq => skew_midpoint (fst (fst rq)) (snd (fst rq)) (fst (snd rq)) (snd (snd rq))) (all_pairs rays).
Proof. induction rays as [|r t IH]; cbn [pair_results all_pairs]; [reflexivity|]. rewrite map_app, map_map, IH. reflexivity. Qed.
(** the two ways to subtract the principal point agree without distortion *)
Lemma corner_pixel cp tol c ij : c_added c = no_distortion \/ (xh (c_int c) = 0 /\ yh (c_int c) = 0) ->
  corner_ray cp tol c ij = pixel_ray cp tol c (if fst ij then IZR (imx_ cp) else 0) (if snd ij then IZR (imy_ cp) else 0).
Proof.
  intros H. unfold corner_ray, pixel_ray, dist_to_flat. destruct (pixel_to_metric _ _ _ _ _ _) as [x y]. destruct H as [H|(H1 & H2)].
  - rewrite H. rewrite (proj2 (no_distortion_id (x - _) (y - _) tol)), (proj2 (no_distortion_id x y tol)). reflexivity.
  - rewrite H1, H2, !Rminus_0_r. destruct (correct_brown_affine x y (c_added c) tol) as [a b]. rewrite !Rminus_0_r. reflexivity.
Qed.
Definition scaled_cal : calib := mk_calib simple_ext (mk_int (-1) 0 1) (V 0 0 1) (mk_addp 0 0 0 0 0 2 0) empty_lut.
Lemma scaled_correct x y tol : y <> 0 -> correct_brown_affine x y (c_added scaled_cal) tol = (x / 2, y).
Proof.
  intros H. rewrite affine_correct; [|repeat split|lra]. cbn [scaled_cal c_added she scx]. rewrite sin_0, cos_0. f_equal; field.
Qed.
Lemma scaled_ray x y : ray_tracing x y scaled_cal simple_mm = ray_tracing x y simple_cal simple_mm.
Proof. reflexivity. Qed.
Lemma scaled_box tol :
  let '(xmax, xmin, ymax, ymin, z_max, z_min) := volumedimension 0 0 0 0 (mk_volpar 0 1 0 0 0 0) simple_cpar tol [scaled_cal] in
  z_max = 0 /\ xmax <= 10 /\ fst (at_z (pixel_ray simple_cpar tol scaled_cal 2 2) z_max) = 15.
Proof.
  unfold volumedimension. cbn [zmin0 zmin1 zmax0 zmax1]. destruct (Rlt_dec 0 0); [lra|].
  cbn [flat_map]. rewrite app_nil_r.
  assert (CR : forall ij, exists x y k, x <= 1 /\ 0 < k /\ corner_ray simple_cpar tol scaled_cal ij = (V (9 * x) (9 * y) 1, vscale (V x y (-1)) k)).
  { intros ij. unfold corner_ray, pixel_to_metric. cbn [simple_cpar imx_ imy_ pix_x_ pix_y_ mm_]. change (xh (c_int scaled_cal)) with (-1). change (yh (c_int scaled_cal)) with 0.
    rewrite scaled_correct by (destruct (snd ij); lra). rewrite scaled_ray. match goal with |- context[ray_tracing ?x ?y _ _] => destruct (simple_ray x y) as (k & K & ->); exists x, y, k end.
    split; [destruct (fst ij); lra|]. auto. }
  assert (B : xmax_of (fold_left (grow_ray 0 0) (map (corner_ray simple_cpar tol scaled_cal) four_corners) (0, 0, 0, 0)) <= 10).
  { apply fold_bound; [|cbn; lra]. apply Forall_map. apply Forall_forall. intros ij _. destruct (CR ij) as (x & y & k & X & K & ->).
    cbn [fst snd vx vy vz vscale].
    replace (9 * x + (0 + 1) * (x * k) / (-1 * k)) with (8 * x) by (field; lra). replace (9 * x + (0 - 1) * (x * k) / (-1 * k)) with (10 * x) by (field; lra). lra. }
  destruct (fold_left _ _ _) as [[[xM xm] yM] ym]. split; [reflexivity|]. split; [exact B|].
  unfold pixel_ray, pixel_to_metric, dist_to_flat. cbn [simple_cpar imx_ imy_ pix_x_ pix_y_ mm_]. rewrite scaled_correct by lra.
  change (xh (c_int scaled_cal)) with (-1). change (yh (c_int scaled_cal)) with 0. rewrite scaled_ray.
  match goal with |- context[ray_tracing ?x ?y _ _] => destruct (simple_ray x y) as (k & K & ->) end. unfold at_z. cbn [fst snd vx vy vz vscale]. field. lra.
Qed.

Lemma epi_ends xl yl cal1 cal2 mm v r : epi_mm xl yl cal1 cal2 mm v = Ok r ->
  let '(pos, dir) := ray_tracing xl yl cal1 mm in
  vz dir <> 0 ->
  exists A B, on_line pos dir A /\ vz A = lower_z v (vx pos) /\ on_line pos dir B /\ vz B = upper_z v (vx pos) /\
    flat_image_coord A cal2 mm = Ok (fst r) /\ flat_image_coord B cal2 mm = Ok (snd r).
Proof.
  unfold epi_mm. destruct (ray_tracing xl yl cal1 mm) as [pos dir]. rewrite z_limits_spec. intros H NZ.
  apply bind_ok in H as (a & Ha & H). apply bind_ok in H as (b & Hb & H). injection H as <-.
  assert (L : forall z, on_line pos dir (move_along_ray z pos dir)).
  { intros z. unfold move_along_ray. destruct (Req_EM_T (vz dir) 0); [contradiction|]. exists ((z - vz pos) / vz dir).
    apply vec_ext; cbn [vx vy vz vadd vscale]; field; assumption. }
  exists (move_along_ray (lower_z v (vx pos)) pos dir), (move_along_ray (upper_z v (vx pos)) pos dir). auto 10.
Qed.
