(** multimed.py transformation, projection, epipolar segment *)
From Verif Require Import Base Model_geo Spec_geo Proof_geo Proof_geo4.
Local Open Scope R_scope.

Lemma norm_pos_ne a : a <> vzero -> 0 < vnorm a.
Proof. intros H. pose proof (vnorm_pos a). destruct (Req_dec (vnorm a) 0) as [E|E]; [apply vnorm_zero in E; contradiction|lra]. Qed.
(** ---- trans_cam_point / back_trans_point ---- *)
Lemma bt1 pos glass a b t : vsub (vsub a (vscale glass (- b))) (vscale (vsub (vsub pos (vscale glass b)) a) (- t)) =
  vadd (vsub a (vscale glass (- b))) (vscale (vsub (vsub pos (vscale glass b)) a) t).
Proof. vec_eq. Qed.
Lemma bt2 pos glass a b : vadd (vsub a (vscale glass (- b))) (vscale (vsub (vsub pos (vscale glass b)) a) 1) = pos.
Proof. vec_eq. Qed.
Lemma bt3 pos glass a b : vsub (vsub pos (vscale glass b)) a = vzero -> vsub a (vscale glass (- b)) = pos.
Proof. intros H. etransitivity; [|apply (bt2 pos glass a b)]. rewrite H. vec_eq. Qed.
Lemma trans_back pp d glass pos : glass <> vzero ->
  let '(pos_t, cross_p, cross_c, z0) := trans_cam_point pp d glass pos in
  back_trans_point glass d cross_c cross_p pos_t = pos.
Proof.
  intros HG. pose proof (norm_pos_ne glass HG) as NG. unfold trans_cam_point, back_trans_point.
  destruct (Req_EM_T (vnorm glass) 0) as [?|_]; [lra|]. set (og := vnorm glass) in *. cbn [vz vx].
  set (dp := dot pos glass / og - og). set (dc := dot pp glass / og - og - d).
  set (a := vsub (vsub pp (vscale glass (dc / og))) (vscale glass (d / og))).
  replace (- dp / og) with (- (dp / og)) by (field; lra).
  set (tmp := vsub (vsub pos (vscale glass (dp / og))) a).
  destruct (Rlt_dec 0 (vnorm tmp)) as [P|P].
  - unfold tmp. replace (- vnorm (vsub (vsub pos (vscale glass (dp / og))) a) / vnorm (vsub (vsub pos (vscale glass (dp / og))) a)) with (- (1)) by (fold tmp; field; lra).
    rewrite bt1. apply bt2.
  - apply bt3. apply vnorm_zero. pose proof (vnorm_pos tmp). fold tmp. lra.
Qed.
(** meaning of the transformed coordinates *)
Lemma dot_unit glass a : glass <> vzero -> dot (unit_vector glass) a = dot a glass / vnorm glass.
Proof.
  intros HG. rewrite unit_scale by assumption. unfold Rdiv. generalize (/ vnorm glass). intros k. vcomp. ring.
Qed.
Lemma dot_sub_scale g a k : dot (vsub a (vscale g k)) g = dot a g - k * dot g g. Proof. vcomp; ring. Qed.
Lemma trans_meaning pp d glass pos : glass <> vzero ->
  let g := unit_vector glass in
  let '(pos_t, cross_p, cross_c, z0) := trans_cam_point pp d glass pos in
  vz pos_t = dot g pos - vnorm glass /\ z0 = dot g pp - vnorm glass /\ vy pos_t = 0 /\
  dot g cross_p = vnorm glass /\ dot g cross_c = vnorm glass + d /\
  (exists k, pos = vadd cross_p (vscale g k)) /\ (exists k, pp = vadd cross_c (vscale g k)) /\
  vx pos_t = vec_diff_norm cross_p (vsub cross_c (vscale g d)).
Proof.
  intros HG. pose proof (norm_pos_ne glass HG) as NG. cbv zeta. unfold trans_cam_point.
  destruct (Req_EM_T (vnorm glass) 0) as [?|_]; [lra|]. rewrite !dot_unit by assumption. cbn [vx vy vz].
  assert (GG : dot glass glass = vnorm glass * vnorm glass) by (symmetry; apply vnorm_sq).
  split; [reflexivity|]. split; [ring|]. split; [reflexivity|].
  split; [rewrite dot_sub_scale, GG; field; lra|]. split; [rewrite dot_sub_scale, GG; field; lra|].
  assert (AB : forall k, vscale (unit_vector glass) k = vscale glass (k / vnorm glass)).
  { intros k. rewrite unit_scale by assumption. apply vec_ext; cbn [vx vy vz vscale]; field; lra. }
  assert (RT : forall a k, a = vadd (vsub a (vscale glass k)) (vscale glass k)) by (clear; intros; vec_eq).
  split; [|split].
  - eexists. rewrite AB. apply RT.
  - eexists. rewrite AB. apply RT.
  - rewrite AB. symmetry. apply (diff_norm_metric _ _ vzero).
Qed.

Lemma rot_cols om ph ka : cols_orthonormal (rotation_of om ph ka).
Proof.
  intros v. destruct (rot_orthonormal om ph ka) as [(H1 & H2 & H3 & H4 & H5 & H6) _].
  destruct (rotation_of om ph ka) as [[a b c] [d e f] [x y z]]. destruct v as [p q r]. unfold mapply, col1, col2, col3, dot in *. cbn [row1 row2 row3 vx vy vz] in *.
  apply vec_ext; cbn [vx vy vz].
  - transitivity (p * (a * a + b * b + c * c) + q * (a * d + b * e + c * f) + r * (a * x + b * y + c * z)); [ring|]. rewrite H1, H4, H5. ring.
  - transitivity (p * (a * d + b * e + c * f) + q * (d * d + e * e + f * f) + r * (d * x + e * y + f * z)); [ring|]. rewrite H2, H4, H6. ring.
  - transitivity (p * (a * x + b * y + c * z) + q * (d * x + e * y + f * z) + r * (x * x + y * y + z * z)); [ring|]. rewrite H3, H5, H6. ring.
Qed.
Lemma rot_keeps om ph ka : keeps_length (rotation_of om ph ka).
Proof. intros a. apply rot_preserves. Qed.
Lemma mapply_scale m v k : mapply m (vscale v k) = vscale (mapply m v) k.
Proof. destruct m as [r1 r2 r3]. unfold mapply, vscale, dot. cbn [row1 row2 row3]. apply vec_ext; cbn [vx vy vz]; ring. Qed.
Lemma project_collinear c p : cols_orthonormal (dm (c_ext c)) -> depth c p <> 0 ->
  let '(x, y) := project c p in
  mapply (dm (c_ext c)) (V x y (- cc (c_int c))) = vscale (vsub p (e_pos (c_ext c))) (- cc (c_int c) / depth c p).
Proof.
  intros H D. unfold project. fold (depth c p). destruct (Req_EM_T (depth c p) 0) as [?|_]; [contradiction|].
  set (v := vsub p (e_pos (c_ext c))). rewrite <- (H v) at 3. rewrite <- mapply_scale. f_equal.
  apply vec_ext; cbn [vx vy vz vscale]; fold v; try (field; assumption).
  change (dot (col3 (dm (c_ext c))) v) with (depth c p). field. assumption.
Qed.
Definition same_index0 (mm : mmpar) : Prop :=
  m_n1 mm = n2_0 mm /\ n2_0 mm = m_n3 mm /\ m_n1 mm <> 0 /\ m_d mm <> [] /\ m_nlay mm = Z.of_nat (length (m_d mm)).
Lemma one_medium_projection orig c mm : c_glass c <> vzero -> one_medium mm = true -> flat_image_coord orig c mm = Ok (project c orig).
Proof.
  intros HG OM. unfold flat_image_coord. pose proof (trans_back (e_pos (c_ext c)) (d_0 mm) (c_glass c) orig HG) as TB.
  pose proof (trans_meaning (e_pos (c_ext c)) (d_0 mm) (c_glass c) orig HG) as TM. cbv zeta in TM.
  destruct (trans_cam_point _ _ _ _) as [[[pt cp] cr] z0]. destruct TM as (_ & _ & Y & _).
  unfold multimed_nlay, multimed_r_nlay. rewrite OM. cbn [bind fst snd vx vy].
  replace (V (0 + (vx pt - 0) * 1) (0 + (vy pt - 0) * 1) (vz pt)) with pt by (destruct pt; cbn in *; apply vec_ext; cbn; lra).
  rewrite TB. reflexivity.
Qed.
(** equal refractive indices: the radial shift is 1 *)
Lemma rsum_scale l k : rsum (map (fun d => d * k) l) = rsum l * k.
Proof. induction l; [cbn; ring|]. cbn [map]. unfold rsum in *. cbn [fold_right]. rewrite IHl. ring. Qed.
Lemma layers_all (d : list R) : d <> [] -> rsum d = nth 0 d 0 + rsum (layers_from1 (Z.of_nat (length d)) d).
Proof.
  destruct d as [|a d]; [contradiction|]. intros _. unfold layers_from1. replace (Z.of_nat (length (a :: d)) <? 0)%Z with false by (symmetry; apply Z.ltb_ge; lia).
  rewrite Nat2Z.id, firstn_all. reflexivity.
Qed.
Lemma equal_rdiff mm z0 Z r : m_n1 mm = n2_0 mm -> n2_0 mm = m_n3 mm -> m_n1 mm <> 0 -> m_d mm <> [] -> m_nlay mm = Z.of_nat (length (m_d mm)) ->
  z0 - Z <> 0 -> nlay_rdiff mm z0 (z0 - Z) (Z + rsum (layers_from1 (m_nlay mm) (m_d mm))) r r = 0.
Proof.
  intros E1 E2 N D L ZD. unfold nlay_rdiff. cbv zeta. rewrite <- E2, <- E1. set (b := atan (r / (z0 - Z))).
  replace (sin b * m_n1 mm / m_n1 mm) with (sin b) by (field; assumption).
  assert (B : - (PI / 2) < b < PI / 2) by (pose proof (atan_bound (r / (z0 - Z))) as A; fold b in A; lra).
  rewrite asin_sin by lra. rewrite rsum_scale. rewrite (layers_all (m_d mm) D). rewrite <- L. fold (d_0 mm).
  replace (tan b) with (r / (z0 - Z)) by (unfold b; symmetry; apply tan_atan). field. assumption.
Qed.
Lemma equal_shift mm z0 pos : m_n1 mm = n2_0 mm -> n2_0 mm = m_n3 mm -> m_n1 mm <> 0 -> m_d mm <> [] -> m_nlay mm = Z.of_nat (length (m_d mm)) ->
  z0 <> vz pos -> fast_multimed_r_nlay mm (V 0 0 z0) pos = 1.
Proof.
  intros E1 E2 N D L ZD. unfold fast_multimed_r_nlay. cbn [vx vy vz]. set (r := sqrt _). destruct (Req_EM_T r 0) as [|R]; [reflexivity|].
  destruct (Req_EM_T (z0 - vz pos) 0) as [?|ZD']; [lra|].
  assert (K : forall n q, nlay_loop n mm z0 (z0 - vz pos) (vz pos + rsum (layers_from1 (m_nlay mm) (m_d mm))) r q r = r).
  { induction n; intros q; cbn [nlay_loop]; [reflexivity|]. destruct (Rlt_dec _ _); [|reflexivity]. rewrite equal_rdiff by assumption. rewrite Rplus_0_r. apply IHn. }
  rewrite K. field. assumption.
Qed.
Lemma nth_error_repeat0 n k (x : R) : nth_error (repeat 0 n) k = Some x -> x = 0.
Proof. intros H. apply nth_error_In in H. now apply repeat_spec in H. Qed.

Lemma pyget_zero n i x : pyget (repeat 0 n) i = Ok x -> x = 0.
Proof.
  unfold pyget. destruct (pyidx _ _); [|discriminate]. destruct (nth_error (repeat 0 n) _) eqn:E; [|discriminate]. intros [= <-]. now apply nth_error_repeat0 in E.
Qed.
Lemma zero_lut l n pos f : l_data l = repeat 0 n -> get_mmf_from_mmlut l pos = Ok f -> f = 0.
Proof.
  intros D. unfold get_mmf_from_mmlut. rewrite D. do 3 (match goal with |- context [if ?b then Ok 0 else _] => destruct b; [intros [= <-]; reflexivity|] end).
  unfold bind. destruct (pyget _ _) eqn:E1; [|discriminate]. destruct (pyget (repeat 0 n) (trunc _ * _ + (_ + 1))%Z) eqn:E2; [|discriminate].
  destruct (pyget (repeat 0 n) ((trunc _ + 1) * _ + trunc _)%Z) eqn:E3; [|discriminate]. destruct (pyget (repeat 0 n) ((trunc _ + 1) * _ + (_ + 1))%Z) eqn:E4; [|discriminate].
  apply pyget_zero in E1, E2, E3, E4. subst. intros [= <-]. ring.
Qed.
Lemma same_index_projection orig c mm xy : c_glass c <> vzero -> same_index0 mm ->
  dot (vsub orig (e_pos (c_ext c))) (c_glass c) <> 0 ->
  flat_image_coord orig c mm = Ok xy -> xy = project c orig.
Proof.
  intros HG (E1 & E2 & N & D & L) NP. unfold flat_image_coord. pose proof (trans_back (e_pos (c_ext c)) (d_0 mm) (c_glass c) orig HG) as TB.
  pose proof (trans_meaning (e_pos (c_ext c)) (d_0 mm) (c_glass c) orig HG) as TM. cbv zeta in TM.
  destruct (trans_cam_point _ _ _ _) as [[[pt cp] cr] z0]. destruct TM as (Z1 & Z2 & Y & _).
  assert (ZD : z0 <> vz pt).
  { rewrite Z1, Z2, !dot_unit by assumption. intros E. apply NP. pose proof (norm_pos_ne _ HG).
    assert (dot (e_pos (c_ext c)) (c_glass c) = dot orig (c_glass c)) as F.
    { apply Rmult_eq_reg_r with (/ vnorm (c_glass c)); [unfold Rdiv in E; lra|apply Rinv_neq_0_compat; lra]. }
    transitivity (dot orig (c_glass c) - dot (e_pos (c_ext c)) (c_glass c)); [|lra]. clear. generalize orig (e_pos (c_ext c)) (c_glass c). clear. intros a b d. vcomp. ring. }
  unfold multimed_nlay, multimed_r_nlay.
  assert (K : forall s, (if one_medium mm then Ok 1 else
     do f <- (if negb ((l_nr (c_lut c) =? 0) && (l_nz (c_lut c) =? 0))%Z then get_mmf_from_mmlut (mk_lut (l_origin (c_lut c)) (l_nr (c_lut c)) (l_nz (c_lut c)) (l_rw (c_lut c)) (repeat 0 (Z.to_nat (l_nr (c_lut c) * l_nz (c_lut c))))) pt else Ok 0);
     Ok (if Rlt_dec 0 f then f else fast_multimed_r_nlay mm (V 0 0 z0) pt)) = Ok s -> s = 1).
  { intros s. destruct (one_medium mm); [intros [= <-]; reflexivity|]. unfold bind at 1.
    destruct (if negb _ then _ else _) as [f|] eqn:F; [|discriminate].
    assert (f = 0) as ->. { destruct (negb _); [|injection F; auto]. eapply zero_lut; [|exact F]. reflexivity. }
    destruct (Rlt_dec 0 0); [lra|]. intros [= <-]. now apply equal_shift. }
  cbn [l_nr l_nz]. match goal with |- context [bind (bind ?x _) _] => destruct x as [s|] eqn:ES end; [|discriminate]. 
  pose proof (K s eq_refl). subst s. cbn [bind fst snd vx vy].
  replace (V (0 + (vx pt - 0) * 1) (0 + (vy pt - 0) * 1) (vz pt)) with pt by (destruct pt; cbn in *; apply vec_ext; cbn; lra).
  rewrite TB. congruence.
Qed.
Lemma same_index_ok orig c mm : l_nr (c_lut c) = 0%Z -> l_nz (c_lut c) = 0%Z -> exists xy, flat_image_coord orig c mm = Ok xy.
Proof.
  intros H1 H2. unfold flat_image_coord. destruct (trans_cam_point _ _ _ _) as [[[pt cp] cr] z0]. unfold multimed_nlay, multimed_r_nlay. cbn [l_nr l_nz]. rewrite H1, H2.
  cbn [Z.eqb andb negb bind]. destruct (one_medium mm); cbn [bind]; eexists; reflexivity.
Qed.
(** forward projection followed by ray tracing *)
Lemma on_line_scale v d k p : k <> 0 -> on_line v (vscale d k) p -> on_line v d p.
Proof. intros K (t & ->). exists (k * t). f_equal. vec_eq. Qed.
Lemma on_line_shift v d p q : on_line v d p -> on_line v d q -> on_line p d q.
Proof. intros (a & ->) (b & ->). exists (b - a). vec_eq. Qed.
Lemma on_line_to v d p k : k <> 0 -> d = vscale (vsub p v) k -> on_line v d p.
Proof. intros K ->. exists (/ k). apply vec_ext; cbn [vx vy vz vadd vscale vsub]; field; assumption. Qed.
Lemma unit_scale_pos d k : 0 < k -> d <> vzero -> unit_vector (vscale d k) = unit_vector d.
Proof.
  intros K D. assert (vnorm (vscale d k) = k * vnorm d) as E by (rewrite vnorm_scale, Rabs_pos_eq; lra). pose proof (norm_pos_ne d D).
  assert (vscale d k <> vzero). { intros X. apply vnorm_zero in X. rewrite E in X. nra. }
  rewrite !unit_scale by assumption. rewrite E. apply vec_ext; cbn [vx vy vz vscale]; field; lra.
Qed.
Lemma roundtrip c mm p : cols_orthonormal (dm (c_ext c)) -> keeps_length (dm (c_ext c)) -> c_glass c <> vzero -> in_front c p ->
  0 < m_n1 mm -> m_n1 mm = n2_0 mm -> n2_0 mm = m_n3 mm ->
  let '(x, y) := project c p in
  let '(vertex, dir) := ray_tracing x y c mm in
  on_line vertex dir p /\ on_line (e_pos (c_ext c)) dir p /\ is_unit dir.
Proof.
  intros CO KL HG (C & D & F) N1 E1 E2. pose proof (project_collinear c p CO ltac:(lra)) as PC.
  destruct (project c p) as [x y]. unfold ray_tracing.
  set (cam := V x y (- cc (c_int c))) in *. set (m := dm (c_ext c)) in *. set (pp := e_pos (c_ext c)) in *.
  assert (CN : cam <> vzero) by (unfold cam; intros [=]; lra).
  assert (K : 0 < - cc (c_int c) / depth c p).
  { unfold Rdiv. assert (/ depth c p < 0) by (now apply Rinv_lt_0_compat). nra. }
  set (k := - cc (c_int c) / depth c p) in *.
  assert (S : incoming cam m = vscale (vsub p pp) (k / vnorm cam)).
  { unfold incoming. rewrite unit_scale by assumption. rewrite mapply_scale, PC. apply vec_ext; cbn [vx vy vz vscale]; unfold Rdiv; ring. }
  pose proof (norm_pos_ne cam CN) as NC. assert (KC : 0 < k / vnorm cam) by (apply Rdiv_lt_0_compat; assumption).
  assert (SG : dot (incoming cam m) (unit_vector (c_glass c)) < 0).
  { rewrite S, dot_comm, dot_unit by assumption. pose proof (norm_pos_ne _ HG) as NG.
    replace (dot (vscale (vsub p pp) (k / vnorm cam)) (c_glass c)) with (k / vnorm cam * dot (vsub p pp) (c_glass c)).
    2:{ clear. generalize (vsub p pp) (c_glass c) (k / vnorm cam). clear. intros a b q. vcomp. ring. }
    assert (IG : 0 < / vnorm (c_glass c)) by (now apply Rinv_0_lt_compat).
    unfold Rdiv at 1. assert (k / vnorm cam * dot (vsub p pp) (c_glass c) < 0) by nra. nra. }
  assert (GU : is_unit (unit_vector (c_glass c))) by (now apply unit_vector_unit).
  assert (SU : is_unit (incoming cam m)) by (apply Hs; assumption).
  assert (CR : m_n1 mm * vnorm (cross (unit_vector (c_glass c)) (incoming cam m)) <= m_n1 mm).
  { assert (vnorm (cross (unit_vector (c_glass c)) (incoming cam m)) <= 1); [|nra]. rewrite vnorm_dot, cross_dot, GU, SU. apply Rle_trans with (sqrt 1); [|rewrite sqrt_1; lra]. apply sqrt_le_1_alt. pose proof (pow2_ge_0 (dot (incoming cam m) (unit_vector (c_glass c)))). lra. }
  pose proof (trace_same cam m pp (c_glass c) (d_0 mm) (m_n1 mm) (n2_0 mm) (m_n3 mm)) as TS.
  pose proof (trace_same_vertex cam m pp (c_glass c) (d_0 mm) (m_n1 mm) (n2_0 mm) (m_n3 mm)) as TV.
  destruct (fast_ray_tracing _ _ _ _ _ _ _ _) as [vertex dir]. cbn [fst snd] in *.
  rewrite <- E2, <- E1 in TS, TV.
  assert (dir = incoming cam m) as -> by (apply TS; first [assumption|reflexivity|idtac]; lra).
  assert (VL : on_line pp (incoming cam m) vertex) by (apply TV; first [assumption|reflexivity|idtac]; lra).
  assert (PL : on_line pp (incoming cam m) p) by (eapply on_line_to; [|exact S]; lra).
  split; [now apply on_line_shift with pp|]. split; assumption.
Qed.
