(** Property C70, continued: image points that are not exact, and lenses whose
    distortion is removed only approximately. *)
From Verif Require Import Base Model_geo Spec_geo Spec_geo2 Spec_geo4 Proof_geo Proof_geo2 Proof_geo4 Proof_geo5 Proof_geo6 Proof_geo8 Proof_geo9 Proof_geo12 Prop_geo Prop_geo2.
Local Open Scope R_scope.

Lemma keeps_dot m a b : keeps_length m -> dot (mapply m a) (mapply m b) = dot a b.
Proof.
  intros K. pose proof (K a) as A. pose proof (K b) as B. pose proof (K (vadd a b)) as S.
  replace (mapply m (vadd a b)) with (vadd (mapply m a) (mapply m b)) in S.
  2:{ destruct m as [r1 r2 r3]. unfold mapply. cbn [row1 row2 row3]. unfold dot. apply vec_ext; cbn [vx vy vz vadd]; ring. }
  revert A B S. generalize (mapply m a) (mapply m b). intros u v. unfold dot. cbn [vx vy vz vadd]. lra.
Qed.
Lemma col_apply m w : keeps_length m -> dot (col1 m) (mapply m w) = vx w /\ dot (col2 m) (mapply m w) = vy w /\ dot (col3 m) (mapply m w) = vz w.
Proof.
  intros K. assert (C : col1 m = mapply m (V 1 0 0) /\ col2 m = mapply m (V 0 1 0) /\ col3 m = mapply m (V 0 0 1)).
  { destruct m as [r1 r2 r3]. unfold col1, col2, col3, mapply, dot. cbn [row1 row2 row3 vx vy vz]. repeat split; f_equal; ring. }
  destruct C as (-> & -> & ->). rewrite !(keeps_dot _ _ _ K). unfold dot. cbn [vx vy vz]. repeat split; ring.
Qed.

(** the point of the line of sight through (x, y) that is as deep as p *)
Definition aimed (c : calib) (p : vec) (xy : R * R) : vec := vadd (e_pos (c_ext c)) (vscale (line_of_sight c xy) (- depth c p / cc (c_int c))).
Lemma aimed_ok c p xy e : faces c p e -> measured c p e xy ->
  in_front c (aimed c p xy) /\ project c (aimed c p xy) = xy /\ vec_diff_norm (aimed c p xy) p <= e.
Proof.
  intros (CO & CC & G & D & F) M. pose proof (consistent_keeps _ CO) as K. pose proof (consistent_cols _ CO) as CL.
  unfold measured in M. unfold aimed, line_of_sight. destruct xy as (x, y). cbn [fst snd] in *.
  set (m := dm (c_ext c)) in *. set (C := e_pos (c_ext c)) in *. set (f := cc (c_int c)) in *. set (dp := depth c p) in *.
  set (k := - dp / f) in *. assert (K0 : 0 < k) by (unfold k; apply Rdiv_lt_0_compat; lra).
  set (q := vadd C (vscale (mapply m (V x y (- f))) k)).
  assert (QC : vsub q C = mapply m (V (k * x) (k * y) dp)).
  { unfold q. transitivity (vscale (mapply m (V x y (- f))) k); [vec_eq|]. rewrite <- mapply_scale. f_equal. apply vec_ext; cbn [vx vy vz vscale]; unfold k; field; lra. }
  destruct (col_apply m (V (k * x) (k * y) dp) K) as (C1 & C2 & C3). cbn [vx vy vz] in *.
  assert (DQ : depth c q = dp). { unfold depth. fold m C. rewrite QC. exact C3. }
  assert (PR : project c q = (x, y)).
  { rewrite pinhole_project by lra. unfold pinhole. rewrite DQ. fold m C f. rewrite QC, C1, C2. unfold k. f_equal; field; lra. }
  assert (PC : vsub p C = mapply m (V (k * fst (pinhole c p)) (k * snd (pinhole c p)) dp)).
  { transitivity (mapply m (V (dot (col1 m) (vsub p C)) (dot (col2 m) (vsub p C)) (dot (col3 m) (vsub p C)))); [symmetry; apply CL|].
    f_equal. unfold pinhole. fold dp m C f. cbn [fst snd]. unfold k. apply vec_ext; cbn [vx vy vz]; [field; lra|field; lra|reflexivity]. }
  assert (QP : vec_diff_norm q p <= e).
  { rewrite dn_norm. replace (vsub q p) with (vsub (vsub q C) (vsub p C)) by (clear; vec_eq). rewrite QC, PC.
    revert M. unfold image_dist. cbn [fst snd]. destruct (pinhole c p) as (fx, fy). cbn [fst snd]. intros M.
    replace (vsub (mapply m (V (k * x) (k * y) dp)) (mapply m (V (k * fx) (k * fy) dp))) with (mapply m (vscale (V (x - fx) (y - fy) 0) k)).
    2:{ destruct m as [r1 r2 r3]. unfold mapply. cbn [row1 row2 row3]. unfold dot. apply vec_ext; cbn [vx vy vz vsub vscale]; ring. }
    rewrite vnorm_dot, K, <- vnorm_dot, vnorm_scale, Rabs_pos_eq by lra. rewrite vnorm_dot.
    replace (dot (V (x - fx) (y - fy) 0) (V (x - fx) (y - fy) 0)) with ((x - fx) ^ 2 + (y - fy) ^ 2) by (unfold dot; cbn [vx vy vz]; ring). exact M. }
  split; [|split; auto].
  unfold in_front. fold f. split; [exact CC|]. split; [lra|]. fold C.
  assert (U : dot (unit_vector (c_glass c)) (vsub q C) < 0).
  { replace (vsub q C) with (vadd (vsub q p) (vsub p C)) by (clear; vec_eq).
    replace (dot (unit_vector (c_glass c)) (vadd (vsub q p) (vsub p C))) with (dot (unit_vector (c_glass c)) (vsub q p) + dot (unit_vector (c_glass c)) (vsub p C)) by (clear; unfold dot; cbn [vx vy vz vadd]; ring).
    pose proof (cauchy_schwarz (unit_vector (c_glass c)) (vsub q p)) as CS. assert (UN : vnorm (unit_vector (c_glass c)) = 1).
    { rewrite vnorm_dot. rewrite (unit_vector_unit _ G). apply sqrt_1. }
    rewrite UN in CS. rewrite dn_norm in QP. lra. }
  rewrite dot_unit in U by exact G. pose proof (norm_pos_ne _ G) as NG. 
  assert (dot (vsub q C) (c_glass c) = dot (vsub q C) (c_glass c) / vnorm (c_glass c) * vnorm (c_glass c)) as -> by (field; lra). nra.
Qed.
Lemma measured_ray c mm p xy e : 0 < m_n1 mm -> same_index mm -> faces c p e -> measured c p e xy ->
  let r := ray_tracing (fst xy) (snd xy) c mm in
  (exists q, on_line (fst r) (snd r) q /\ vec_diff_norm q p <= e) /\ exists t, t <> 0 /\ line_of_sight c xy = vscale (snd r) t.
Proof.
  intros N SI F M. destruct (aimed_ok c p xy e F M) as (IF & PR & E). pose proof F as (CO & CC & G & D & _).
  destruct (same_index_model _ SI) as (S1 & S2 & S3 & _).
  pose proof (roundtrip c mm (aimed c p xy) (consistent_cols _ CO) (consistent_keeps _ CO) G IF N) as RT.
  rewrite PR in RT. destruct xy as (x, y). cbn [fst snd]. destruct (ray_tracing x y c mm) as (v, d). cbn [fst snd].
  destruct RT as (R1 & (t & R2) & _); [congruence|congruence|]. split; [eauto|].
  assert (K0 : 0 < - depth c p / cc (c_int c)) by (apply Rdiv_lt_0_compat; lra). set (k := - depth c p / cc (c_int c)) in *.
  assert (LS : vscale (line_of_sight c (x, y)) k = vscale d t).
  { unfold aimed in R2. fold k in R2. set (L := line_of_sight c (x, y)) in *. set (C := e_pos (c_ext c)) in *. clearbody L C.
    pose proof (f_equal vx R2). pose proof (f_equal vy R2). pose proof (f_equal vz R2). cbn [vx vy vz vadd vscale] in *. apply vec_ext; cbn [vx vy vz vscale]; lra. }
  assert (LL : line_of_sight c (x, y) = vscale d (t / k)).
  { replace (line_of_sight c (x, y)) with (vscale (vscale (line_of_sight c (x, y)) k) (/ k)) by (apply vec_ext; cbn [vx vy vz vscale]; field; lra).
    rewrite LS. apply vec_ext; cbn [vx vy vz vscale]; field; lra. }
  exists (t / k). split; auto. intros Z. rewrite Z in LL.
  assert (ZL : dot (line_of_sight c (x, y)) (line_of_sight c (x, y)) = 0) by (rewrite LL; unfold dot; cbn [vx vy vz vscale]; ring).
  unfold line_of_sight in ZL. rewrite (consistent_keeps _ CO) in ZL. unfold dot in ZL. cbn [vx vy vz fst snd] in ZL. nra.
Qed.
Lemma apart_scale s a b t u : t <> 0 -> u <> 0 -> apart s (vscale a t) (vscale b u) -> apart s a b.
Proof.
  intros T U (N & B). replace (cross (vscale a t) (vscale b u)) with (vscale (cross a b) (t * u)) in * by vec_eq. rewrite !vnorm_scale, Rabs_mult in B.
  split. { intros Z. apply N. rewrite Z. vec_eq. }
  pose proof (Rabs_pos_lt _ T). pose proof (Rabs_pos_lt _ U). assert (P : 0 < Rabs t * Rabs u) by nra.
  apply Rmult_le_reg_l with (Rabs t * Rabs u); [exact P|]. lra.
Qed.

Theorem C70_measured : forall mm p cals targets seen e s, 0 < m_n1 mm -> same_index mm ->
  views targets cals seen -> (2 <= length seen)%nat ->
  Forall (fun ct => faces (fst ct) p e /\ measured (fst ct) p e (snd ct)) seen ->
  0 < s -> ForallOrdPairs (fun a b => apart s (line_of_sight (fst a) (snd a)) (line_of_sight (fst b) (snd b))) seen ->
  exists rcm res, point_position targets cals mm = Ok (rcm, res) /\ 0 <= rcm <= 2 * e /\ vec_diff_norm res p <= e * (1 + 2 / s).
Proof.
  intros mm p cals targets seen e s N1 SI VW L OK S0 NP.
  pose proof (views_rays mm _ _ _ VW) as RS.
  assert (R : forall ct, In ct seen -> let r := ray_tracing (fst (snd ct)) (snd (snd ct)) (fst ct) mm in
     (exists q, on_line (fst r) (snd r) q /\ vec_diff_norm q p <= e) /\ exists t, t <> 0 /\ line_of_sight (fst ct) (snd ct) = vscale (snd r) t).
  { intros (c, t) H. rewrite Forall_forall in OK. destruct (OK _ H) as (F & M). apply (measured_ray c mm p t e N1 SI F M). }
  eapply C70_nearby_rays; [exact RS|rewrite map_length; exact L|exact S0| |].
  - apply Forall_forall. intros r H. apply in_map_iff in H. destruct H as (ct & <- & H). apply (R ct H).
  - clear - NP R. induction NP as [|a l FA FP IH]; cbn [map]; constructor.
    + apply Forall_forall. intros r H. apply in_map_iff in H. destruct H as (ct & <- & H).
      rewrite Forall_forall in FA. pose proof (FA ct H) as A. 
      destruct (R a (or_introl eq_refl)) as (_ & t & T & E). destruct (R ct (or_intror H)) as (_ & t' & T' & E'). rewrite E, E' in A.
      now apply apart_scale in A.
    + apply IH. intros ct H. apply R. now right.
Qed.
Print Assumptions C70_measured.

(** a lens with radial distortion *)
Lemma detected_radial cp tol p c t e : pix_x_ cp <> 0 -> pix_y_ cp <> 0 -> 0 <= tol -> same_index (mm_ cp) -> 0 <= e -> faces c p e -> radial_lens c p ->
  detected cp tol p c t -> image_dist t (pinhole c p) <= tol * lens_radius c p / 8 + lens_radius c p / 10 ^ 200.
Proof.
  intros PX PY T0 SI E0 (CO & CC & G & D & F) (RO & B & B1 & B2) (x & y & E & T). unfold img_coord in E.
  destruct (flat_image_coord p c (mm_ cp)) as [fxy|] eqn:FI; cbn [bind] in E; [|discriminate].
  assert (fxy = pinhole c p).
  { apply (C46_equal_indices p c (mm_ cp) fxy G SI); auto; [lra|]. rewrite dot_unit in F by exact G. intros Z. rewrite Z in F. unfold Rdiv in F. lra. }
  subst fxy. destruct (C40_inverse x y (imx_ cp) (imy_ cp) (pix_x_ cp) (pix_y_ cp) PX PY) as (_ & I).
  destruct (metric_to_pixel x y (imx_ cp) (imy_ cp) (pix_x_ cp) (pix_y_ cp)) as (u, v). cbv zeta in T. rewrite I in T. subst t.
  revert E B1. unfold lens_radius, image_dist, flat_to_dist. destruct (pinhole c p) as (fx, fy). cbn [fst snd]. intros E B1.
  inversion E as [E']. clear E.
  pose proof (C41_radial (fx + xh (c_int c)) (fy + yh (c_int c)) (c_added c) tol B RO T0 B1 B2) as R. rewrite E' in R. unfold dist_to_flat.
  destruct (correct_brown_affine x y (c_added c) tol) as (X, Y). cbv zeta in R. cbn [fst snd].
  replace (X - xh (c_int c) - fx) with (X - (fx + xh (c_int c))) by ring. replace (Y - yh (c_int c) - fy) with (Y - (fy + yh (c_int c))) by ring. exact R.
Qed.

Theorem C70_radial : forall cp tol p cals targets seen e s, pix_x_ cp <> 0 -> pix_y_ cp <> 0 -> 0 <= tol -> 0 < m_n1 (mm_ cp) -> same_index (mm_ cp) ->
  views targets cals seen -> (2 <= length seen)%nat -> 0 <= e ->
  Forall (fun ct => faces (fst ct) p e /\ radial_lens (fst ct) p /\ detected cp tol p (fst ct) (snd ct) /\
    - depth (fst ct) p / cc (c_int (fst ct)) * (tol * lens_radius (fst ct) p / 8 + lens_radius (fst ct) p / 10 ^ 200) <= e) seen ->
  0 < s -> ForallOrdPairs (fun a b => apart s (line_of_sight (fst a) (snd a)) (line_of_sight (fst b) (snd b))) seen ->
  exists rcm res, point_position targets cals (mm_ cp) = Ok (rcm, res) /\ 0 <= rcm <= 2 * e /\ vec_diff_norm res p <= e * (1 + 2 / s).
Proof.
  intros cp tol p cals targets seen e s PX PY T0 N1 SI VW L E0 OK S0 NP.
  apply (C70_measured (mm_ cp) p cals targets seen e s N1 SI VW L); [|exact S0|exact NP].
  eapply Forall_impl; [|exact OK]. cbv beta. intros (c, t) (F & RL & D & B). cbn [fst snd] in *. split; auto.
  unfold measured. pose proof (detected_radial cp tol p c t e PX PY T0 SI E0 F RL D) as ID. destruct F as (CO & CC & G & DP & _).
  eapply Rle_trans; [|exact B]. apply Rmult_le_compat_l; [|exact ID]. apply Rlt_le, Rdiv_lt_0_compat; lra.
Qed.
Print Assumptions C70_radial.

(** two cameras 3 apart; one of the image points is 1/100 off *)
Lemma cam_faces a e : e < 10 -> faces (cam a) (V 1 2 0) e.
Proof.
  intros E. unfold faces. split; [apply cam_consistent|]. split; [cbn; lra|]. split; [apply cam_glass|]. split; [rewrite cam_depth; lra|].
  rewrite (proj2 (proj2 (cam_glass a))). unfold dot. cbn. lra.
Qed.
Lemma cam_seen a : pinhole (cam a) (V 1 2 0) = ((1 - a) / 10, 2 / 10).
Proof. unfold pinhole. rewrite cam_depth, cam_dm. cbn [cam c_ext c_int cc set_pos e_pos]. unfold dot, col1, col2, vsub. cbn. f_equal; field. Qed.
Lemma cam_sight a x y : line_of_sight (cam a) (x, y) = V x y (- (1)).
Proof. unfold line_of_sight. rewrite cam_dm. unfold mapply, dot. cbn. apply vec_ext; cbn [vx vy vz]; ring. Qed.
Lemma sights_apart x y x' y' : x - x' >= 1 / 4 -> Rabs x <= 1 / 2 -> Rabs y <= 1 / 2 -> Rabs x' <= 1 / 2 -> Rabs y' <= 1 / 2 ->
  apart (1 / 8) (V x y (- (1))) (V x' y' (- (1))).
Proof.
  intros H X Y X' Y'. split. { intros Z. apply (f_equal vy) in Z. cbn in Z. lra. }
  assert (B : forall a b, Rabs a <= 1 / 2 -> Rabs b <= 1 / 2 -> 0 <= vnorm (V a b (- (1))) <= 5 / 4).
  { intros a b A B. split; [apply vnorm_pos|]. rewrite vnorm_dot. apply Rsqr_incr_0_var; [|lra]. 
    assert (A2 : a * a <= 1 / 4). { rewrite <- (Rabs_pos_eq (a * a)) by nra. rewrite Rabs_mult. pose proof (Rabs_pos a). nra. }
    assert (B2 : b * b <= 1 / 4). { rewrite <- (Rabs_pos_eq (b * b)) by nra. rewrite Rabs_mult. pose proof (Rabs_pos b). nra. }
    unfold dot. cbn [vx vy vz]. rewrite Rsqr_sqrt by nra. unfold Rsqr. nra. }
  pose proof (B x y X Y). pose proof (B x' y' X' Y').
  apply Rle_trans with (1 / 4). { assert (vnorm (V x y (- (1))) * vnorm (V x' y' (- (1))) <= 25 / 16) by nra. lra. }
  rewrite vnorm_dot. apply Rsqr_incr_0_var; [|apply sqrt_pos]. unfold dot, cross. cbn [vx vy vz].
  match goal with |- _ <= Rsqr (sqrt (?a * ?a + ?b * ?b + ?c * ?c)) => assert (A0 : 0 <= a * a) by exact (Rle_0_sqr a); assert (C0 : 0 <= c * c) by exact (Rle_0_sqr c); assert (B0 : 1 / 16 <= b * b) by (replace b with (x - x') by ring; nra); rewrite Rsqr_sqrt by lra; unfold Rsqr; lra end.
Qed.
Example C70_measured_case : exists rcm res,
  point_position [Some (11 / 100, 2 / 10); None; Some (- 2 / 10, 2 / 10)] [cam 0; cam 1; cam 3] simple_mm = Ok (rcm, res) /\
  0 <= rcm <= 2 * (1 / 10) /\ vec_diff_norm res (V 1 2 0) <= 1 / 10 * (1 + 2 / (1 / 8)).
Proof.
  apply (C70_measured simple_mm (V 1 2 0) _ _ [(cam 0, (11 / 100, 2 / 10)); (cam 3, (- 2 / 10, 2 / 10))]); [cbn; lra|apply C46_example|apply v_seen, v_unseen, v_seen, v_no_target|cbn; lia| |lra|].
  - repeat (apply Forall_cons; [|]); [| |constructor]; cbn [fst snd]; (split; [apply cam_faces; lra|]); unfold measured; rewrite cam_depth, cam_seen; unfold image_dist; cbn [fst snd cam c_int cc].
    + replace ((11 / 100 - (1 - 0) / 10) ^ 2 + (2 / 10 - 2 / 10) ^ 2) with ((1 / 100) ^ 2) by field. rewrite sqrt_pow2; lra.
    + replace ((- 2 / 10 - (1 - 3) / 10) ^ 2 + (2 / 10 - 2 / 10) ^ 2) with 0 by field. rewrite sqrt_0; lra.
  - constructor; [|repeat constructor]. constructor; [|constructor]. cbn [fst snd]. rewrite !cam_sight. apply sights_apart; try lra; unfold Rabs; destruct (Rcase_abs _); lra.
Qed.
(** the same cameras with a lens that distorts radially *)
Definition rcam (a : R) : calib := mk_calib (set_pos simple_ext (V a 0 10)) (mk_int 0 0 1) (V 0 0 1) (mk_addp (/ 100) 0 0 0 0 1 0) empty_lut.
Lemma rcam_detected a : exists t, detected simple_cpar (1 / 1000) (V 1 2 0) (rcam a) t.
Proof.
  destruct (same_index_ok (V 1 2 0) (rcam a) (mm_ simple_cpar) eq_refl eq_refl) as ((fx, fy) & E).
  unfold detected, img_coord. rewrite E. cbn [bind fst snd]. destruct (flat_to_dist fx fy (rcam a)) as (x, y). eexists. exists x, y. split; reflexivity.
Qed.
Lemma rcam_radius a : 0 <= a <= 3 -> 0 <= lens_radius (rcam a) (V 1 2 0) <= 1.
Proof.
  intros A. unfold lens_radius. change (pinhole (rcam a) (V 1 2 0)) with (pinhole (cam a) (V 1 2 0)). rewrite cam_seen. cbn [rcam c_int xh yh].
  split; [apply sqrt_pos|]. assert (((1 - a) / 10 + 0) ^ 2 <= 1 / 4). { replace (((1 - a) / 10 + 0) ^ 2) with ((1 - a) * (1 - a) / 100) by field. nra. }
  apply Rsqr_incr_0_var; [|lra]. pose proof (pow2_ge_0 ((1 - a) / 10 + 0)). rewrite Rsqr_sqrt by lra. unfold Rsqr. lra.
Qed.
Lemma rcam_lens a : 0 <= a <= 3 -> radial_lens (rcam a) (V 1 2 0).
Proof.
  intros A. split. { repeat split. } exists (11 / 10). split; [pose proof (rcam_radius a A); lra|].
  unfold radial_slope. cbn [rcam c_added k1 k2 k3]. rewrite Rabs_R0, Rabs_pos_eq by lra. lra.
Qed.
Lemma rcam_error a : 0 <= a <= 3 -> 1 / 1000 * lens_radius (rcam a) (V 1 2 0) / 8 + lens_radius (rcam a) (V 1 2 0) / 10 ^ 200 <= 1 / 1000.
Proof.
  intros A. pose proof (rcam_radius a A) as (R0 & R1). set (r := lens_radius (rcam a) (V 1 2 0)) in *. clearbody r.
  assert (P : 10 ^ 4 <= 10 ^ 200) by (apply Rle_pow; [lra|lia]). set (b := 10 ^ 200) in *. clearbody b.
  assert (B0 : 0 < b) by lra. assert (r / b <= 1 / 10 ^ 4). { apply Rmult_le_reg_r with b; [exact B0|]. unfold Rdiv. rewrite Rmult_assoc, Rinv_l by lra. nra. }
  lra.
Qed.
Lemma rcam_near a x y : 0 <= a <= 3 -> detected simple_cpar (1 / 1000) (V 1 2 0) (rcam a) (x, y) -> Rabs (x - (1 - a) / 10) <= 1 / 1000 /\ Rabs (y - 2 / 10) <= 1 / 1000.
Proof.
  intros A D. assert (SI : same_index (mm_ simple_cpar)) by apply C46_example.
  pose proof (detected_radial simple_cpar (1 / 1000) (V 1 2 0) (rcam a) (x, y) (1 / 100) ltac:(cbn; lra) ltac:(cbn; lra) ltac:(lra) SI ltac:(lra) (cam_faces a (1 / 100) ltac:(lra)) (rcam_lens a A) D) as H.
  pose proof (rcam_error a A) as E. assert (I : image_dist (x, y) (pinhole (rcam a) (V 1 2 0)) <= 1 / 1000) by lra. clear H E.
  change (pinhole (rcam a) (V 1 2 0)) with (pinhole (cam a) (V 1 2 0)) in I. rewrite cam_seen in I. unfold image_dist in I. cbn [fst snd] in I.
  split; (eapply Rle_trans; [|exact I]); rewrite <- sqrt_Rsqr_abs; apply sqrt_le_1_alt; rewrite !Rsqr_pow2; [pose proof (pow2_ge_0 (y - 2 / 10))|pose proof (pow2_ge_0 (x - (1 - a) / 10))]; lra.
Qed.
Example C70_radial_case : exists t u, detected simple_cpar (1 / 1000) (V 1 2 0) (rcam 0) t /\ detected simple_cpar (1 / 1000) (V 1 2 0) (rcam 3) u /\ exists rcm res,
  point_position [Some t; None; Some u] [rcam 0; rcam 1; rcam 3] simple_mm = Ok (rcm, res) /\
  0 <= rcm <= 2 * (1 / 100) /\ vec_diff_norm res (V 1 2 0) <= 1 / 100 * (1 + 2 / (1 / 8)).
Proof.
  destruct (rcam_detected 0) as ((x, y) & D). destruct (rcam_detected 3) as ((x', y') & D'). exists (x, y), (x', y'). split; [exact D|]. split; [exact D'|].
  destruct (rcam_near 0 x y ltac:(lra) D) as (X & Y). destruct (rcam_near 3 x' y' ltac:(lra) D') as (X' & Y').
  apply (C70_radial simple_cpar (1 / 1000) (V 1 2 0) _ _ [(rcam 0, (x, y)); (rcam 3, (x', y'))]); [cbn; lra|cbn; lra|lra|cbn; lra|apply C46_example|apply v_seen, v_unseen, v_seen, v_no_target|cbn; lia|lra| |lra|].
  - assert (Q : forall a, 0 <= a <= 3 -> - depth (rcam a) (V 1 2 0) / cc (c_int (rcam a)) * (1 / 1000 * lens_radius (rcam a) (V 1 2 0) / 8 + lens_radius (rcam a) (V 1 2 0) / 10 ^ 200) <= 1 / 100).
    { intros a A. change (depth (rcam a) (V 1 2 0)) with (depth (cam a) (V 1 2 0)). rewrite cam_depth. cbn [rcam c_int cc]. pose proof (rcam_error a A) as E. lra. }
    apply Forall_cons; [|apply Forall_cons; [|constructor]]; cbn [fst snd]; (split; [apply (cam_faces _ (1 / 100)); lra|]); (split; [apply rcam_lens; lra|]); (split; [assumption|apply Q; lra]).
  - constructor; [|repeat constructor]. constructor; [|constructor]. cbn [fst snd].
    change (line_of_sight (rcam 0) (x, y)) with (line_of_sight (cam 0) (x, y)). change (line_of_sight (rcam 3) (x', y')) with (line_of_sight (cam 3) (x', y')). rewrite !cam_sight.
    revert X Y X' Y'. unfold Rabs at 1 2 3 4. repeat destruct (Rcase_abs _); intros; apply sights_apart; try lra; unfold Rabs; destruct (Rcase_abs _); lra.
Qed.
