(** Property C70: a point is reconstructed from the pixels at which it is seen. *)
From Verif Require Import Base Model_geo Spec_geo Spec_geo2 Proof_geo Proof_geo2 Proof_geo4 Proof_geo5 Proof_geo6 Proof_geo8 Proof_geo9 Proof_geo12 Prop_geo.
Local Open Scope R_scope.

Lemma detected_flat cp tol p c t : pix_x_ cp <> 0 -> pix_y_ cp <> 0 -> affine_lens c -> detected cp tol p c t ->
  exists x y, flat_image_coord p c (mm_ cp) = Ok (x, y) /\ t = (x, y).
Proof.
  intros PX PY (A & B & C) (x & y & E & T). unfold img_coord in E.
  destruct (flat_image_coord p c (mm_ cp)) as [[fx fy]|] eqn:F; cbn [bind fst snd] in E; [|discriminate].
  exists fx, fy. split; auto.
  destruct (C40_inverse x y (imx_ cp) (imy_ cp) (pix_x_ cp) (pix_y_ cp) PX PY) as (_ & I).
  destruct (metric_to_pixel x y (imx_ cp) (imy_ cp) (pix_x_ cp) (pix_y_ cp)) as (u, v). cbv zeta in T.
  rewrite I in T. subst t.
  destruct (C41_flat_dist_affine fx fy c tol A B C) as (D & _). inversion E as [E']. rewrite E' in D. exact D.
Qed.
Lemma views_rays mm targets cals l : views targets cals l -> rays_seen mm targets cals (map (fun ct => ray_tracing (fst (snd ct)) (snd (snd ct)) (fst ct) mm) l).
Proof. induction 1; cbn [map]; try constructor; auto. destruct xy. cbn [fst snd]. constructor; auto. Qed.

(** rays that pass near a point: the reconstructed position is near it, too *)
Theorem C70_nearby_rays : forall targets cals mm rays p eps s, rays_seen mm targets cals rays -> (2 <= length rays)%nat -> 0 < s ->
  Forall (fun r => exists q, on_line (fst r) (snd r) q /\ vec_diff_norm q p <= eps) rays ->
  ForallOrdPairs (fun r q => apart s (snd r) (snd q)) rays ->
  exists d res, point_position targets cals mm = Ok (d, res) /\ 0 <= d <= 2 * eps /\ vec_diff_norm res p <= eps * (1 + 2 / s).
Proof. exact position_near. Qed.
Print Assumptions C70_nearby_rays.

(** one medium: the point itself *)
Theorem C70_pixels_exact : forall cp tol p cals targets seen, pix_x_ cp <> 0 -> pix_y_ cp <> 0 -> 0 < m_n1 (mm_ cp) -> same_index (mm_ cp) ->
  views targets cals seen -> (2 <= length seen)%nat ->
  Forall (fun ct => consistent (c_ext (fst ct)) /\ c_glass (fst ct) <> vzero /\ in_front (fst ct) p /\ affine_lens (fst ct) /\
                    detected cp tol p (fst ct) (snd ct)) seen ->
  ForallOrdPairs (fun a b => cross (vsub p (e_pos (c_ext (fst a)))) (vsub p (e_pos (c_ext (fst b)))) <> vzero) seen ->
  point_position targets cals (mm_ cp) = Ok (0, p).
Proof.
  intros cp tol p cals targets seen PX PY N1 SI VW L OK NP.
  pose proof (views_rays (mm_ cp) _ _ _ VW) as RS.
  assert (R : forall ct, In ct seen -> let r := ray_tracing (fst (snd ct)) (snd (snd ct)) (fst ct) (mm_ cp) in
     on_line (fst r) (snd r) p /\ exists t, vsub p (e_pos (c_ext (fst ct))) = vscale (snd r) t).
  { intros (c, t) H. rewrite Forall_forall in OK. destruct (OK _ H) as (CO & G & F & A & D). cbn [fst snd] in *.
    destruct (detected_flat _ _ _ _ _ PX PY A D) as (x & y & FI & ->). cbn [fst snd].
    pose proof (C46_back c (mm_ cp) p CO G F N1 SI x y FI) as B. destruct (ray_tracing x y c (mm_ cp)) as (v, d). cbn [fst snd] in *.
    destruct B as (B1 & (t & B2) & _). split; auto. exists t. rewrite B2. clear. vec_eq. }
  eapply C48_meeting_rays; [exact RS|rewrite map_length; exact L| |].
  - apply Forall_forall. intros r H. apply in_map_iff in H. destruct H as (ct & <- & H). apply (R ct H).
  - unfold non_parallel. clear - NP R. induction NP as [|a l FA FP IH]; cbn [map]; constructor.
    + apply Forall_forall. intros r H. apply in_map_iff in H. destruct H as (ct & <- & H).
      rewrite Forall_forall in FA. pose proof (FA ct H) as N. intros Z. apply N.
      destruct (R a (or_introl eq_refl)) as (_ & t & ->). destruct (R ct (or_intror H)) as (_ & t' & ->).
      set (u := snd (ray_tracing (fst (snd a)) (snd (snd a)) (fst a) (mm_ cp))) in *. set (w := snd (ray_tracing _ _ (fst ct) (mm_ cp))) in *.
      clearbody u w. replace (cross (vscale u t) (vscale w t')) with (vscale (cross u w) (t * t')) by vec_eq. rewrite Z. vec_eq.
    + apply IH. intros ct H. apply R. now right.
Qed.
Print Assumptions C70_pixels_exact.

(** through a plane glass plate: within the accuracy of the projection, magnified by
    the angle between the rays *)
Theorem C70_refracted : forall cp tol p cals targets seen n2 d e s, pix_x_ cp <> 0 -> pix_y_ cp <> 0 ->
  one_plate (mm_ cp) n2 d -> 0 < m_n1 (mm_ cp) -> m_n1 (mm_ cp) <= n2 -> m_n1 (mm_ cp) <= m_n3 (mm_ cp) -> 0 <= d ->
  views targets cals seen -> (2 <= length seen)%nat ->
  Forall (fun ct => sees_refracted (mm_ cp) n2 d e p (fst ct) /\ affine_lens (fst ct) /\ detected cp tol p (fst ct) (snd ct)) seen ->
  0 < s ->
  ForallOrdPairs (fun a b => apart s (snd (ray_tracing (fst (snd a)) (snd (snd a)) (fst a) (mm_ cp))) (snd (ray_tracing (fst (snd b)) (snd (snd b)) (fst b) (mm_ cp)))) seen ->
  exists rcm res, point_position targets cals (mm_ cp) = Ok (rcm, res) /\ 0 <= rcm <= 2 * e /\ vec_diff_norm res p <= e * (1 + 2 / s).
Proof.
  intros cp tol p cals targets seen n2 d e s PX PY OP N1 N12 N13 D0 VW L OK S0 NP.
  pose proof (views_rays (mm_ cp) _ _ _ VW) as RS.
  eapply C70_nearby_rays; [exact RS|rewrite map_length; exact L|exact S0| |].
  - apply Forall_forall. intros r H. apply in_map_iff in H. destruct H as ((c, t) & <- & H).
    rewrite Forall_forall in OK. destruct (OK _ H) as ((CO & C0 & G & O1 & O2 & D1 & D2 & BD) & A & D). cbn [fst snd] in *.
    destruct (detected_flat _ _ _ _ _ PX PY A D) as (x & y & FI & ->). cbn [fst snd].
    pose proof (C68_round_trip c (mm_ cp) p n2 d x y CO C0 G OP N1 N12 N13 D0) as B. cbv zeta in B.
    specialize (B O1 O2 D1 D2 FI). destruct (ray_tracing x y c (mm_ cp)) as (v, w). cbn [fst snd].
    destruct B as (tt & _ & _ & B). exists (vadd v (vscale w tt)). split; [now exists tt|]. lra.
  - clear - NP. induction NP as [|a l FA FP IH]; cbn [map]; constructor; auto.
    apply Forall_forall. intros r H. apply in_map_iff in H. destruct H as (ct & <- & H).
    rewrite Forall_forall in FA. exact (FA ct H).
Qed.
Print Assumptions C70_refracted.

(** a case: two cameras 3 apart, the point (1, 2, 0), without and with refraction *)
Definition cam (a : R) : calib := mk_calib (set_pos simple_ext (V a 0 10)) (mk_int 0 0 1) (V 0 0 1) no_distortion empty_lut.
Definition water_cpar : cpar := mk_cpar 2 2 1 1 water.
Lemma cam_glass a : c_glass (cam a) <> vzero /\ vnorm (c_glass (cam a)) = 1 /\ unit_vector (c_glass (cam a)) = V 0 0 1.
Proof.
  assert (GN : V 0 0 1 <> vzero) by (intros [=]; lra). cbn [cam c_glass]. split; auto.
  assert (NG : vnorm (V 0 0 1) = 1). { rewrite vnorm_dot. replace (dot _ _) with 1 by (unfold dot; cbn; ring). apply sqrt_1. }
  split; auto. rewrite unit_scale by exact GN. rewrite NG. unfold vscale; apply vec_ext; cbn; field.
Qed.
Lemma cam_dm a : dm (c_ext (cam a)) = identity3. Proof. exact simple_dm. Qed.
Lemma cam_consistent a : consistent (c_ext (cam a)). Proof. exact simple_consistent. Qed.
Lemma cam_depth a x y z : depth (cam a) (V x y z) = z - 10.
Proof. unfold depth. rewrite cam_dm. unfold dot, col3; cbn; ring. Qed.
Lemma cam_lens a : affine_lens (cam a).
Proof. unfold affine_lens, affine_only. cbn. rewrite cos_0. repeat split; lra. Qed.
Lemma cam_detected cp a p : pix_x_ cp <> 0 -> pix_y_ cp <> 0 -> exists x y, detected cp 0 p (cam a) (x, y) /\ flat_image_coord p (cam a) (mm_ cp) = Ok (x, y).
Proof.
  intros PX PY. destruct (same_index_ok p (cam a) (mm_ cp) eq_refl eq_refl) as ((fx, fy) & E).
  assert (I : exists t, detected cp 0 p (cam a) t).
  { unfold detected, img_coord. rewrite E. cbn [bind fst snd]. destruct (flat_to_dist fx fy (cam a)) as (x, y). eexists. exists x, y. split; reflexivity. }
  destruct I as ((x, y) & D). exists x, y. split; auto.
  destruct (detected_flat cp 0 p (cam a) (x, y) PX PY (cam_lens a) D) as (x' & y' & E' & Q). rewrite E'. congruence.
Qed.
Lemma cam_views cp : pix_x_ cp <> 0 -> pix_y_ cp <> 0 -> exists t u, detected cp 0 (V 1 2 0) (cam 0) t /\ detected cp 0 (V 1 2 0) (cam 3) u /\
  flat_image_coord (V 1 2 0) (cam 0) (mm_ cp) = Ok t /\ flat_image_coord (V 1 2 0) (cam 3) (mm_ cp) = Ok u /\
  views [Some t; None; Some u] [cam 0; cam 1; cam 3] [(cam 0, t); (cam 3, u)].
Proof.
  intros PX PY. destruct (cam_detected cp 0 (V 1 2 0) PX PY) as (x & y & D & F). destruct (cam_detected cp 3 (V 1 2 0) PX PY) as (x' & y' & D' & F').
  exists (x, y), (x', y'). split; [exact D|]. split; [exact D'|]. split; [exact F|]. split; [exact F'|]. apply v_seen, v_unseen, v_seen, v_no_target.
Qed.

Example C70_exact_case : exists targets, point_position targets [cam 0; cam 1; cam 3] simple_mm = Ok (0, V 1 2 0).
Proof.
  destruct (cam_views simple_cpar) as (t & u & D & D' & _ & _ & VW); [cbn; lra|cbn; lra|].
  exists [Some t; None; Some u].
  apply (C70_pixels_exact simple_cpar 0 (V 1 2 0) _ _ [(cam 0, t); (cam 3, u)]); [cbn; lra|cbn; lra|cbn; lra|apply C46_example|exact VW|cbn; lia| |].
  - assert (F : forall a, in_front (cam a) (V 1 2 0)).
    { intros a. unfold in_front. rewrite cam_depth. cbn [cam c_int cc c_ext c_glass set_pos e_pos]. unfold dot, vsub. cbn. lra. }
    repeat (apply Forall_cons; [cbn [fst snd]; split; [apply cam_consistent|]; split; [apply cam_glass|]; split; [apply F|]; split; [apply cam_lens|assumption]|]). constructor.
  - constructor; [|repeat constructor]. constructor; [|constructor]. cbn [fst cam c_ext set_pos e_pos]. intros E. apply (f_equal vy) in E. cbn in E. lra.
Qed.

Lemma same_down u u' : is_unit u -> is_unit u' -> vx u = vx u' -> vy u = vy u' -> vz u <= 0 -> vz u' <= 0 -> u = u'.
Proof. unfold is_unit, dot. intros A B X Y P Q. apply vec_ext; auto. rewrite X, Y in A. clear X Y. nra. Qed.
Lemma parallel_down w w' : is_unit w -> is_unit w' -> vz w < 0 -> vz w' < 0 -> cross w w' = vzero -> w = w'.
Proof.
  intros U U' D D' C. assert (L : dot w w' * dot w w' = 1).
  { assert (X : dot (cross w w') (cross w w') = dot w w * dot w' w' - dot w w' * dot w w') by (clear; vcomp; ring).
    rewrite C, U, U' in X. replace (dot vzero vzero) with 0 in X by (unfold dot; cbn; ring). lra. }
  assert (S : dot w w' = 1 \/ dot w w' = -1). { assert (Z : (dot w w' - 1) * (dot w w' + 1) = 0) by lra. apply Rmult_integral in Z. lra. }
  destruct S as [S|S].
  - assert (Z : vsub w w' = vzero). { apply dot_zero. replace (dot _ _) with (dot w w + dot w' w' - 2 * dot w w') by (clear; vcomp; ring). rewrite U, U', S. ring. }
    clear - Z. apply vec_ext; [apply (f_equal vx) in Z|apply (f_equal vy) in Z|apply (f_equal vz) in Z]; unfold vzero, vsub in Z; cbn [vx vy vz] in Z; lra.
  - exfalso. assert (Z : vadd w w' = vzero). { apply dot_zero. replace (dot _ _) with (dot w w + dot w' w' + 2 * dot w w') by (clear; vcomp; ring). rewrite U, U', S. ring. }
    apply (f_equal vz) in Z. cbn in Z. lra.
Qed.
Lemma cam_ray a x y : let r := ray_tracing x y (cam a) water in
  exists s t al be, is_unit s /\ vz s <= 0 /\ is_unit t /\ vz t <= 0 /\ is_unit (snd r) /\ vz (snd r) <= 0 /\
    vx s = 3 / 2 * vx t /\ vy s = 3 / 2 * vy t /\ 3 / 2 * vx t = 4 / 3 * vx (snd r) /\ 3 / 2 * vy t = 4 / 3 * vy (snd r) /\
    10 + al * vz s = 2 /\ 2 + be * vz t = 1 /\ fst r = vadd (V a 0 10) (vadd (vscale s al) (vscale t be)).
Proof.
  pose proof (C43_snell x y (cam a) water (3 / 2) 1) as H. cbv zeta in H. destruct (cam_glass a) as (GN & NG & UG). rewrite UG, NG, cam_dm in H.
  cbn [water m_n1 m_n3] in H. change (cc (c_int (cam a))) with 1 in H. change (e_pos (c_ext (cam a))) with (V a 0 10) in H.
  set (cm := V x y (- (1))) in *. assert (CN : cm <> vzero) by (intros [=]; lra). pose proof (norm_pos_ne cm CN) as NP.
  set (k := / vnorm cm). assert (K : 0 < k) by (now apply Rinv_0_lt_compat).
  assert (IN : incoming cm identity3 = vscale cm k) by (unfold incoming; now rewrite mapply_id, unit_scale).
  assert (SU : is_unit (incoming cm identity3)) by (apply Hs; [assumption|apply id_keeps]).
  assert (CL : vnorm (cross (V 0 0 1) (incoming cm identity3)) <= 1). { apply cross_le_1; auto. unfold is_unit, dot. cbn. ring. }
  set (s := incoming cm identity3) in *.
  specialize (H ltac:(split; reflexivity) (cam_consistent a) ltac:(lra) GN ltac:(lra) ltac:(lra) ltac:(lra) ltac:(lra) ltac:(lra)).
  assert (SZ : vz s = - k) by (rewrite IN; unfold cm; cbn; ring).
  specialize (H ltac:(unfold dot; cbn [vx vy vz]; lra)).
  destruct (ray_tracing x y (cam a) water) as (X, out). cbn [fst snd].
  destruct H as (t & _ & TU & OU & S1 & S2 & TD & OD & _ & Xb & (al & L1) & Z1 & (be & L2) & Z2).
  exists s, t, al, be. unfold snell in S1, S2.
  assert (E1 := f_equal vx S1). assert (E2 := f_equal vy S1). assert (E3 := f_equal vx S2). assert (E4 := f_equal vy S2).
  unfold vscale, cross in E1, E2, E3, E4. cbn [vx vy vz] in E1, E2, E3, E4. unfold dot in TD, OD, Z1, Z2. cbn [vx vy vz] in TD, OD, Z1, Z2.
  subst X. subst Xb. unfold vadd, vscale in Z1, Z2. cbn [vx vy vz] in Z1, Z2.
  split; [exact SU|]. split; [lra|]. split; [exact TU|]. split; [lra|]. split; [exact OU|]. repeat (split; [lra|]). clear. vec_eq.
Qed.
Lemma cam_refracted a : 0 <= a <= 3 -> sees_refracted water (3 / 2) 1 (1 / 1000) (V 1 2 0) (cam a).
Proof.
  intros A. unfold sees_refracted. cbv zeta. destruct (cam_glass a) as (GN & NG & UG). rewrite UG, NG.
  change (e_pos (c_ext (cam a))) with (V a 0 10).
  assert (LW : level_with (V 0 0 1) (vscale (V 0 0 1) (1 + 1)) (V 1 2 0) = V 1 2 2) by (unfold level_with; vec_eq).
  assert (LC : level_with (V 0 0 1) (V 1 2 0) (V a 0 10) = V a 0 0) by (unfold level_with; vec_eq).
  rewrite LW, LC, !cam_depth.
  assert (G1 : dot (V 0 0 1) (V a 0 10) = 10) by (unfold dot; cbn; ring). assert (G2 : dot (V 0 0 1) (V 1 2 0) = 0) by (unfold dot; cbn; ring). rewrite G1, G2.
  split; [apply cam_consistent|]. split; [cbn; lra|]. split; [exact GN|]. repeat (split; [lra|]).
  apply Rmax_lub; [lra|]. replace (1 - (10 - (1 + 1)) / (10 - 0)) with (/ 5) by field.
  assert (V5 : vec_diff_norm (V 1 2 0) (V a 0 0) <= 3). { rewrite dn_norm, vnorm_dot. replace (dot _ _) with ((1 - a) * (1 - a) + 4) by (unfold dot; cbn; ring). apply Rsqr_incr_0_var; [|lra]. rewrite Rsqr_sqrt by nra. unfold Rsqr. nra. }
  assert (V0 : 0 <= vec_diff_norm (V 1 2 0) (V a 0 0)). { rewrite dn_norm. apply vnorm_pos. }
  assert (P : 0 <= (/ 5) ^ 41 <= / 5 ^ 6). { split; [apply pow_le; lra|]. rewrite pow_inv. apply Rinv_le_contravar; [apply pow_lt; lra|]. apply Rle_pow; [lra|lia]. }
  assert (/ 5 ^ 6 <= / 15000) by (apply Rinv_le_contravar; lra). nra.
Qed.
Lemma cam_lands a x y : 0 <= a <= 3 -> flat_image_coord (V 1 2 0) (cam a) water = Ok (x, y) ->
  let r := ray_tracing x y (cam a) water in exists t, vz (fst r) + t * vz (snd r) = 0 /\ Rabs (vx (fst r) + t * vx (snd r) - 1) <= 1 / 1000.
Proof.
  intros A FI r. pose proof (C68_round_trip (cam a) water (V 1 2 0) (3 / 2) 1 x y) as B. cbv zeta in B.
  destruct (cam_refracted a A) as (CO & C0 & G & O1 & O2 & D1 & D2 & BD).
  specialize (B CO C0 G ltac:(repeat split; reflexivity) ltac:(cbn; lra) ltac:(cbn; lra) ltac:(cbn; lra) ltac:(lra) O1 O2 D1 D2 FI).
  subst r. destruct (ray_tracing x y (cam a) water) as (v, w). destruct B as (t & _ & Z & B). exists t. cbn [fst snd].
  destruct (cam_glass a) as (_ & _ & UG). rewrite UG in Z. split.
  { unfold dot, vadd, vscale in Z. cbn [vx vy vz] in Z. lra. }
  assert (B' : vec_diff_norm (vadd v (vscale w t)) (V 1 2 0) <= 1 / 1000) by (eapply Rle_trans; [exact B|exact BD]).
  rewrite dn_norm, vnorm_dot in B'. eapply Rle_trans; [|exact B'].
  rewrite <- sqrt_Rsqr_abs. apply sqrt_le_1_alt. unfold Rsqr, dot, vsub, vadd, vscale. cbn [vx vy vz].
  assert (Q : forall a b c a', a' = a -> a' * a' <= a * a + b * b + c * c) by (intros a0 b0 c0 a1 ->; nra). apply Q. ring.
Qed.
Example C70_refracted_case : exists t u s, 0 < s /\ detected water_cpar 0 (V 1 2 0) (cam 0) t /\ detected water_cpar 0 (V 1 2 0) (cam 3) u /\
  exists rcm res, point_position [Some t; None; Some u] [cam 0; cam 1; cam 3] water = Ok (rcm, res) /\ 0 <= rcm <= 2 / 1000 /\ vec_diff_norm res (V 1 2 0) <= 1 / 1000 * (1 + 2 / s).
Proof.
  destruct (cam_views water_cpar) as (t & u & D & D' & F & F' & VW); [cbn; lra|cbn; lra|].
  set (r := ray_tracing (fst t) (snd t) (cam 0) water). set (r' := ray_tracing (fst u) (snd u) (cam 3) water).
  assert (NP : cross (snd r) (snd r') <> vzero).
  { intros E. pose proof (cam_ray 0 (fst t) (snd t)) as R. cbv zeta in R. fold r in R. pose proof (cam_ray 3 (fst u) (snd u)) as R'. cbv zeta in R'. fold r' in R'.
    pose proof (cam_lands 0 (fst t) (snd t) ltac:(lra)) as B. cbv zeta in B. fold r in B. pose proof (cam_lands 3 (fst u) (snd u) ltac:(lra)) as B'. cbv zeta in B'. fold r' in B'.
    destruct t as (tx, ty), u as (ux, uy). cbn [fst snd] in *. destruct (B F) as (q & Q1 & Q2). destruct (B' F') as (q' & Q1' & Q2').
    destruct R as (s & w & al & be & SU & SD & WU & WD & OU & OD & E1 & E2 & E3 & E4 & H1 & H2 & H3).
    destruct R' as (s' & w' & al' & be' & SU' & SD' & WU' & WD' & OU' & OD' & E1' & E2' & E3' & E4' & H1' & H2' & H3').
    clear B B' F F' D D' VW. clearbody r r'. destruct r as (X, o), r' as (X', o'). cbn [fst snd] in *.
    assert (ZX : vz X = 1) by (rewrite H3; unfold vadd, vscale; cbn [vx vy vz]; lra).
    assert (ZX' : vz X' = 1) by (rewrite H3'; unfold vadd, vscale; cbn [vx vy vz]; lra).
    assert (o = o'). { apply parallel_down; auto; [destruct OD as [?|Z]; [auto|rewrite Z in Q1; lra]|destruct OD' as [?|Z]; [auto|rewrite Z in Q1'; lra]]. } subst o'.
    assert (w = w') by (apply same_down; auto; lra). subst w'.
    assert (s = s') by (apply same_down; auto; lra). subst s'.
    assert (S0 : vz s <> 0) by (intros Z; rewrite Z in H1; lra). assert (W0 : vz w <> 0) by (intros Z; rewrite Z in H2; lra).
    assert (O0 : vz o <> 0) by (intros Z; rewrite Z in Q1; lra).
    assert (al = al') by (apply Rmult_eq_reg_r with (vz s); [lra|exact S0]). subst al'.
    assert (be = be') by (apply Rmult_eq_reg_r with (vz w); [lra|exact W0]). subst be'.
    assert (q = q') by (apply Rmult_eq_reg_r with (vz o); [lra|exact O0]). subst q'.
    assert (X1 : vx X' = vx X + 3) by (rewrite H3, H3'; unfold vadd, vscale; cbn [vx vy vz]; lra).
    rewrite X1 in Q2'. apply Rabs_def2 in Q2 || idtac. unfold Rabs in Q2, Q2'. destruct (Rcase_abs _), (Rcase_abs _); lra. }
  assert (N0 : snd r <> vzero) by (intros Z; apply NP; rewrite Z; unfold cross, vzero; cbn; apply vec_ext; cbn; ring).
  assert (N0' : snd r' <> vzero) by (intros Z; apply NP; rewrite Z; unfold cross, vzero; cbn; apply vec_ext; cbn; ring).
  pose proof (norm_pos_ne _ N0). pose proof (norm_pos_ne _ N0'). pose proof (norm_pos_ne _ NP).
  set (s := vnorm (cross (snd r) (snd r')) / (vnorm (snd r) * vnorm (snd r'))).
  assert (S0 : 0 < s). { apply Rdiv_lt_0_compat; auto. apply Rmult_lt_0_compat; auto. }
  exists t, u, s. split; [exact S0|]. split; [exact D|]. split; [exact D'|].
  replace (2 / 1000) with (2 * (1 / 1000)) by lra.
  apply (C70_refracted water_cpar 0 (V 1 2 0) _ _ [(cam 0, t); (cam 3, u)] (3 / 2) 1 (1 / 1000) s); [cbn; lra|cbn; lra|repeat split; reflexivity|cbn; lra|cbn; lra|cbn; lra|lra|exact VW|cbn; lia| |exact S0|].
  - constructor; [|constructor; [|constructor]]; cbn [fst snd]; (split; [apply cam_refracted; lra|]; split; [apply cam_lens|assumption]).
  - constructor; [|repeat constructor]. constructor; [|constructor]. cbn [fst snd]. change (mm_ water_cpar) with water. fold r. fold r'. split; [exact NP|].
    unfold s. right. field. split; lra.
Qed.
