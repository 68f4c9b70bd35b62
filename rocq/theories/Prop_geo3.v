(** Properties C71 (epipolar curve), C72 (look-up table), C73 (set-up of a tracking run). *)
From Verif Require Import Base Model_geo Model_geo2 Spec_geo Spec_geo2 Spec_geo3 Proof_geo Proof_geo2 Proof_geo8 Proof_geo12 Prop_geo Proof_geo9 Prop_geo2 Proof_geo13 Proof_geo14 Proof_geo15.
Local Open Scope R_scope.

(** ===== C71: the epipolar curve =====
    point k of the curve is where the second camera sees the point of the ray at height
    z_min + k (z_max - z_min) / (n - 1) *)
Theorem C71_points : forall px py c1 c2 n cp v tol pts, (2 <= n)%nat -> epipolar_curve px py c1 c2 (Z.of_nat n) cp v tol = Ok pts ->
  let r := pixel_ray cp tol c1 px py in vz (snd r) <> 0 ->
  length pts = n /\ forall k, (k < n)%nat -> exists P q, nth_error pts k = Some q /\ on_ray r P /\ vz P = step_z v n k /\ seen_at cp c2 P q.
Proof. exact curve_points. Qed.
Print Assumptions C71_points.
(** the first and the last point are at the limits *)
Theorem C71_ends : forall px py c1 c2 n cp v tol pts, (2 <= n)%nat -> epipolar_curve px py c1 c2 (Z.of_nat n) cp v tol = Ok pts ->
  let r := pixel_ray cp tol c1 px py in vz (snd r) <> 0 ->
  exists A B, on_ray r A /\ vz A = zmin0 v /\ on_ray r B /\ vz B = zmax0 v /\
    seen_at cp c2 A (hd (0, 0) pts) /\ seen_at cp c2 B (last pts (0, 0)).
Proof.
  intros px py c1 c2 n cp v tol pts N E r D. destruct (curve_points px py c1 c2 n cp v tol pts N E D) as (L & H).
  destruct (H 0%nat ltac:(lia)) as (A & a & EA & OA & ZA & SA). destruct (H (n - 1)%nat ltac:(lia)) as (B & b & EB & OB & ZB & SB).
  exists A, B. split; [exact OA|]. split. { rewrite ZA. unfold step_z. cbn [INR]. unfold Rdiv. ring. }
  split; [exact OB|]. split. { rewrite ZB. unfold step_z. field. apply not_0_INR. lia. }
  split. { destruct pts as [|p pts]; [discriminate|]. cbn in EA. injection EA as ->. exact SA. }
  replace (last pts (0, 0)) with b; [exact SB|]. clear - EB L. subst n. destruct (exists_last (l := pts)) as (l' & x & ->). { destruct pts; discriminate. }
  rewrite last_last. rewrite app_length in EB. cbn [length] in EB. replace (length l' + 1 - 1)%nat with (length l') in EB by lia.
  rewrite nth_error_app2, Nat.sub_diag in EB by lia. cbn in EB. now injection EB.
Qed.
Print Assumptions C71_ends.
(** the match of a point is on the curve: a point that the first camera sees at the given
    pixel, at one of the heights of the curve, is seen by the second camera at that point of the curve *)
Theorem C71_match : forall cp tol c1 c2 P q1 q2 n v pts k, pix_x_ cp <> 0 -> pix_y_ cp <> 0 -> 0 < m_n1 (mm_ cp) -> same_index (mm_ cp) ->
  consistent (c_ext c1) -> c_glass c1 <> vzero -> in_front c1 P -> affine_lens c1 -> vz P <> vz (e_pos (c_ext c1)) ->
  seen_at cp c1 P q1 -> seen_at cp c2 P q2 ->
  (2 <= n)%nat -> (k < n)%nat -> vz P = step_z v n k ->
  epipolar_curve (fst q1) (snd q1) c1 c2 (Z.of_nat n) cp v tol = Ok pts -> nth_error pts k = Some q2.
Proof.
  intros cp tol c1 c2 P q1 q2 n v pts k PX PY N1 SI CO G F A Z S1 S2 N K ZP E.
  destruct (seen_ray cp tol c1 P q1 PX PY N1 SI CO G F A S1) as (O & (t & T) & U).
  assert (D : vz (snd (pixel_ray cp tol c1 (fst q1) (snd q1))) <> 0). { intros Q. apply Z. rewrite T. unfold vadd, vscale. cbn [vx vy vz]. rewrite Q. ring. }
  eapply curve_through; eassumption.
Qed.
Print Assumptions C71_match.
(** through a plane plate parallel to the z planes: that point of the curve is where the second camera sees a point near P *)
Theorem C71_refracted : forall cp tol c1 c2 P q1 n v pts k n2 d e, pix_x_ cp <> 0 -> pix_y_ cp <> 0 ->
  one_plate (mm_ cp) n2 d -> 0 < m_n1 (mm_ cp) -> m_n1 (mm_ cp) <= n2 -> m_n1 (mm_ cp) <= m_n3 (mm_ cp) -> 0 <= d ->
  sees_refracted (mm_ cp) n2 d e P c1 -> affine_lens c1 -> unit_vector (c_glass c1) = V 0 0 1 ->
  seen_at cp c1 P q1 -> (2 <= n)%nat -> (k < n)%nat -> vz P = step_z v n k ->
  vz (snd (pixel_ray cp tol c1 (fst q1) (snd q1))) <> 0 ->
  epipolar_curve (fst q1) (snd q1) c1 c2 (Z.of_nat n) cp v tol = Ok pts ->
  exists P' q, nth_error pts k = Some q /\ vz P' = vz P /\ vec_diff_norm P' P <= e /\ seen_at cp c2 P' q.
Proof.
  intros cp tol c1 c2 P q1 n v pts k n2 d e PX PY OP N1 N12 N13 D0 (CO & C0 & G & O1 & O2 & D1 & D2 & BD) A UG S1 N K ZP DZ E.
  destruct (curve_points _ _ _ _ _ _ _ _ _ N E DZ) as (_ & H). destruct (H k K) as (P' & q & E' & O' & Z' & S').
  exists P', q. split; [exact E'|]. split; [congruence|]. split; [|exact S'].
  destruct (flat_ray cp tol c1 P q1 PX PY A S1) as (fx & fy & FI & RE).
  pose proof (C68_round_trip c1 (mm_ cp) P n2 d fx fy CO C0 G OP N1 N12 N13 D0) as B. cbv zeta in B.
  specialize (B O1 O2 D1 D2 FI). rewrite RE in O', DZ. destruct (ray_tracing fx fy c1 (mm_ cp)) as (vv, dd).
  destruct B as (t & _ & L & B). rewrite UG in L.
  replace P' with (vadd vv (vscale dd t)); [lra|]. apply (on_ray_height (vv, dd)); [exact DZ|now exists t|exact O'|].
  rewrite Z', <- ZP. revert L. unfold dot. cbn [vx vy vz]. lra.
Qed.
Print Assumptions C71_refracted.
(** a camera without table: the curve always exists *)
Theorem C71_total : forall px py c1 c2 num cp v tol, l_nr (c_lut c2) = 0%Z -> l_nz (c_lut c2) = 0%Z ->
  ((0 <= num)%Z -> exists pts, epipolar_curve px py c1 c2 num cp v tol = Ok pts /\ Z.of_nat (length pts) = num) /\
  ((num < 0)%Z -> epipolar_curve px py c1 c2 num cp v tol = Exn ValueError).
Proof. exact curve_total. Qed.
Print Assumptions C71_total.
(** one point: the lower end only *)
Theorem C71_one_point : forall px py c1 c2 cp v tol pts, epipolar_curve px py c1 c2 1 cp v tol = Ok pts ->
  let r := pixel_ray cp tol c1 px py in vz (snd r) <> 0 ->
  exists P q, pts = [q] /\ on_ray r P /\ vz P = zmin0 v /\ seen_at cp c2 P q.
Proof.
  intros px py c1 c2 cp v tol pts E r D. rewrite curve_eq in E. cbn [linspace bind] in E. unfold linspace in E. cbn [Z.ltb Z.eqb bind] in E.
  destruct (collect_inv _ _ _ _ E) as (ys & -> & F). inversion F as [|z q l ys' R F' E1 E2]. subst. inversion F'. subst.
  exists (move_along_ray (zmin0 v) (fst r) (snd r)), q. destruct (move_on_line (zmin0 v) r D). split; [reflexivity|]. split; [assumption|]. split; [assumption|]. now apply row_seen.
Qed.
Print Assumptions C71_one_point.

(** only the limits of the first layer are used: in a volume with slanted limits the match of a
    point of the volume may lie beyond the end of the curve, whatever the number of points *)
Definition slanted : volpar := mk_volpar 0 1 0 (-4) 1 1.
Theorem C71_layers_refuted : let P := V 1 2 (-2) in lower_z slanted (vx P) <= vz P <= upper_z slanted (vx P) /\
  exists q1 q2, seen_at simple_cpar (cam 0) P q1 /\ seen_at simple_cpar (cam 3) P q2 /\
    forall n pts tol, epipolar_curve (fst q1) (snd q1) (cam 0) (cam 3) n simple_cpar slanted tol = Ok pts -> ~ In q2 pts.
Proof. exact slanted_curve. Qed.
Print Assumptions C71_layers_refuted.
Example C71_example : exists q1 q2 pts, seen_at simple_cpar (cam 0) (V 1 2 0) q1 /\ seen_at simple_cpar (cam 3) (V 1 2 0) q2 /\
  epipolar_curve (fst q1) (snd q1) (cam 0) (cam 3) 5 simple_cpar (mk_volpar 0 1 (-1) (-1) 3 3) 0 = Ok pts /\ nth_error pts 1 = Some q2.
Proof.
  destruct (cam_seen 0 (V 1 2 0) ltac:(cbn; lra)) as (q1 & S1 & _). destruct (cam_seen 3 (V 1 2 0) ltac:(cbn; lra)) as (q2 & S2 & _).
  destruct (curve_total (fst q1) (snd q1) (cam 0) (cam 3) 5 simple_cpar (mk_volpar 0 1 (-1) (-1) 3 3) 0 eq_refl eq_refl) as (T & _).
  destruct (T ltac:(lia)) as (pts & E & _). exists q1, q2, pts. repeat (split; [assumption|]).
  eapply (C71_match simple_cpar 0 (cam 0) (cam 3) (V 1 2 0) q1 q2 5); try eassumption; try (cbn; lra); try lia.
  - apply C46_example.
  - apply cam_consistent.
  - apply cam_glass.
  - unfold in_front. rewrite cam_depth. cbn [cam c_int cc c_ext c_glass set_pos e_pos]. unfold dot, vsub. cbn. lra.
  - apply cam_lens.
  - unfold step_z. cbn. lra.
Qed.

(** ===== C72: the multimedia look-up table =====
    computing the table changes nothing but the table *)
Theorem C72_only_table : forall v cp tol c c', init_mmlut v cp tol c = Ok c' ->
  c_ext c' = c_ext c /\ c_int c' = c_int c /\ c_glass c' = c_glass c /\ c_added c' = c_added c.
Proof. intros v cp tol c c' E. destruct (init_shape _ _ _ _ _ E) as (A & B & C & D & _). auto. Qed.
Print Assumptions C72_only_table.
(** a camera without table: the call succeeds, and entry (i, j) is the shift factor of the point at distance 2 i
    from the camera axis, at height 2 j above the origin of the table *)
Theorem C72_entries : forall v cp tol c, c_glass c <> vzero -> Rmin (zmin0 v) (zmin1 v) <= Rmax (zmax0 v) (zmax1 v) -> no_table c ->
  exists c', init_mmlut v cp tol c = Ok c' /\ let l := c_lut c' in
    l_rw l = 2%Z /\ vx (l_origin l) = 0 /\ vy (l_origin l) = 0 /\ (2 <= l_nr l)%Z /\ (2 <= l_nz l)%Z /\ length (l_data l) = Z.to_nat (l_nr l * l_nz l) /\
    forall i j, (0 <= i < l_nr l)%Z -> (0 <= j < l_nz l)%Z -> exists f, entry l i j = Some f /\ factor c (mm_ cp) (2 * IZR i) (vz (l_origin l) + 2 * IZR j) f.
Proof.
  intros v cp tol c G M N. destruct (init_fresh v cp tol c G M N) as (c' & E & L & F). exists c'. split; [exact E|]. cbv zeta in *.
  pose proof (init_nodes v cp tol c c' G M E) as B. cbv zeta in B. destruct (lut_extent v cp tol c) as [[zl zh] rm]. destruct B as (O & W & N1 & N2 & _).
  split; [exact W|]. split; [now rewrite O|]. split; [now rewrite O|]. split; [exact N1|]. split; [exact N2|]. split; [exact L|exact F].
Qed.
Print Assumptions C72_entries.
(** the table reaches the rays of the image corners: every point of such a ray between the limits of the volume
    (lower limit not negative) is inside the radius, not below the first row, and less than one step above the last row;
    if the glass is parallel to the z planes it is below the last row *)
Theorem C72_covers : forall v cp tol c c' px py P, c_glass c <> vzero -> init_mmlut v cp tol c = Ok c' ->
  c_added c = no_distortion \/ (xh (c_int c) = 0 /\ yh (c_int c) = 0) ->
  px = 0 \/ px = IZR (imx_ cp) -> py = 0 \/ py = IZR (imy_ cp) ->
  let r := pixel_ray cp tol c px py in vz (snd r) <> 0 -> on_ray r P -> in_layers v (vz P) -> 0 <= Rmin (zmin0 v) (zmin1 v) ->
  let l := c_lut c' in let h0 := vz (l_origin l) in
  h0 <= glass_height c P < h0 + 2 * IZR (l_nz l) /\ axis_distance c P < 2 * (IZR (l_nr l) - 1) /\
  (unit_vector (c_glass c) = V 0 0 1 -> glass_height c P < h0 + 2 * (IZR (l_nz l) - 1)).
Proof.
  intros v cp tol c c' px py P G E AP P1 P2 r D O IL NN l h0. unfold in_layers in IL.
  assert (C : exists ij, corner_ray cp tol c ij = r).
  { unfold r. destruct P1 as [-> | ->], P2 as [-> | ->]; [exists (false, false)|exists (false, true)|exists (true, false)|exists (true, true)]; rewrite corner_pixel by exact AP; reflexivity. }
  destruct C as (ij & C). pose proof (down_2 _ NN) as DN.
  assert (M : Rmin (zmin0 v) (zmin1 v) <= Rmax (zmax0 v) (zmax1 v)) by lra.
  rewrite <- C in D, O. pose proof (corner_within v cp tol c ij P G D O M ltac:(lra)) as W. pose proof (init_nodes v cp tol c c' G M E) as B. cbv zeta in B. fold l in B. 
  pose proof (extent_wide v cp tol c G) as X.
  pose proof (flat_extent v cp tol c G) as LOW.
  destruct (lut_extent v cp tol c) as [[zl zh] rm] eqn:EX. destruct B as (OR & _ & N1 & N2 & NR & NZ). unfold h0. rewrite OR. cbn [vz]. destruct W as (W1 & W2). destruct X as (X1 & X2 & X3).
  split; [lra|]. split; [lra|]. intros U. specialize (LOW U M). cbn [fst] in LOW. rewrite flat_height by exact U.
  assert (HH : forall m, IZR m * 2 <= zh - zl -> IZR m <= IZR (l_nz l) - 1).
  { intros m HM. apply Rnot_lt_le. intros L. assert (l_nz l - 1 < m)%Z as L' by (apply lt_IZR; rewrite minus_IZR; exact L). assert (l_nz l <= m)%Z as L2 by lia. apply IZR_le in L2. lra. }
  destruct (up_2 (Rmax (zmax0 v) (zmax1 v))) as [U1 U2]. rewrite U2 in X2, U1. rewrite fmod_2 in *.
  specialize (HH (trunc (Rmax (zmax0 v) (zmax1 v) / 2) + 1 - trunc (Rmin (zmin0 v) (zmin1 v) / 2))%Z). rewrite minus_IZR, plus_IZR in HH.
  pose proof (vnorm_pos (c_glass c)) as NG. specialize (HH ltac:(lra)). lra.
Qed.
Print Assumptions C72_covers.
(** inside the table the look-up interpolates between the factors of the four surrounding nodes *)
Theorem C72_lookup : forall v cp tol c c' r h, c_glass c <> vzero -> Rmin (zmin0 v) (zmin1 v) <= Rmax (zmax0 v) (zmax1 v) -> no_table c -> init_mmlut v cp tol c = Ok c' ->
  let l := c_lut c' in let h0 := vz (l_origin l) in
  0 <= r < 2 * (IZR (l_nr l) - 1) -> h0 <= h < h0 + 2 * (IZR (l_nz l) - 1) ->
  exists i j s t fa fb fc fd, r = 2 * (IZR i + s) /\ h = h0 + 2 * (IZR j + t) /\ 0 <= s < 1 /\ 0 <= t < 1 /\
    factor c (mm_ cp) (2 * IZR i) (h0 + 2 * IZR j) fa /\ factor c (mm_ cp) (2 * IZR i) (h0 + 2 * IZR (j + 1)) fb /\
    factor c (mm_ cp) (2 * IZR (i + 1)) (h0 + 2 * IZR j) fc /\ factor c (mm_ cp) (2 * IZR (i + 1)) (h0 + 2 * IZR (j + 1)) fd /\
    get_mmf_from_mmlut l (V r 0 h) = Ok (fa * (1 - s) * (1 - t) + fb * (1 - s) * t + fc * s * (1 - t) + fd * s * t).
Proof. exact lookup_between. Qed.
Print Assumptions C72_lookup.
(** at a node it is exact *)
Theorem C72_node : forall v cp tol c c' i j f, c_glass c <> vzero -> Rmin (zmin0 v) (zmin1 v) <= Rmax (zmax0 v) (zmax1 v) -> no_table c -> init_mmlut v cp tol c = Ok c' ->
  let l := c_lut c' in let p := V (2 * IZR i) 0 (vz (l_origin l) + 2 * IZR j) in
  (0 <= i < l_nr l - 1)%Z -> (0 <= j < l_nz l - 1)%Z -> factor c (mm_ cp) (vx p) (vz p) f -> get_mmf_from_mmlut l p = Ok f.
Proof.
  intros v cp tol c c' i j f G M N E l p I J F.
  assert (BI : 0 <= IZR i < IZR (l_nr l) - 1). { split; [apply (IZR_le 0); lia|rewrite <- minus_IZR; apply IZR_lt; lia]. }
  assert (BJ : 0 <= IZR j < IZR (l_nz l) - 1). { split; [apply (IZR_le 0); lia|rewrite <- minus_IZR; apply IZR_lt; lia]. }
  destruct (lookup_between v cp tol c c' (2 * IZR i) (vz (l_origin l) + 2 * IZR j) G M N E) as (i' & j' & s & t & fa & fb & fc & fd & R1 & H1 & S & T & Fa & Fb & Fc & Fd & Q); [fold l; lra|fold l; lra|].
  fold l in H1, Fa, Q.
  assert (K : forall a b u, 0 <= u < 1 -> IZR a = IZR b + u -> a = b /\ u = 0).
  { intros a b u B0 EQ. assert (a = b) as ->; [|split; [reflexivity|lra]]. assert (b < a + 1)%Z by (apply lt_IZR; rewrite plus_IZR; lra). assert (a < b + 1)%Z by (apply lt_IZR; rewrite plus_IZR; lra). lia. }
  destruct (K i i' s S ltac:(lra)) as (<- & ->). destruct (K j j' t T ltac:(lra)) as (<- & ->). unfold p. rewrite Q.
  assert (fa = f) by (unfold factor in F, Fa; cbn [p vx vz] in F; congruence). subst. f_equal. ring.
Qed.
Print Assumptions C72_node.
(** a second call, for a larger volume, describes a larger table but keeps the entries of the first one:
    looking up a point inside the new table fails *)
Theorem C72_stale_refuted : forall tol, exists c1 c2, init_mmlut (slab 0 0) simple_cpar tol simple_cal = Ok c1 /\ init_mmlut (slab 0 8) simple_cpar tol c1 = Ok c2 /\
  l_data (c_lut c2) = l_data (c_lut c1) /\ l_nr (c_lut c2) = 9%Z /\ l_nz (c_lut c2) = 6%Z /\ l_nz (c_lut c1) = 2%Z /\ get_mmf_from_mmlut (c_lut c2) (V 6 0 (-1)) = Exn IndexError.
Proof. exact stale. Qed.
Print Assumptions C72_stale_refuted.
(** a negative lower limit is rounded up: the bottom of the volume is below the table *)
Theorem C72_bottom_refuted : forall tol c', init_mmlut (slab (-1) 0) simple_cpar tol simple_cal = Ok c' ->
  exists P, in_layers (slab (-1) 0) (vz P) /\ on_ray (pixel_ray simple_cpar tol simple_cal 0 0) P /\ glass_height simple_cal P < vz (l_origin (c_lut c')).
Proof. intros tol c' E. destruct (bottom tol c' E) as (P & A & B & C). rewrite corner_pixel in B by (left; reflexivity). now exists P. Qed.
Print Assumptions C72_bottom_refuted.
(** and the table is never used: whatever its entries, a point is projected to where it is projected without table, or not at all *)
Theorem C72_unused_refuted : forall p c l mm, img_coord p (with_lut c l) mm = img_coord p (with_lut c empty_lut) mm \/ img_coord p (with_lut c l) mm = Exn IndexError.
Proof. intros p c l mm. unfold img_coord. destruct (unused_table p c l mm) as [-> | ->]; [left|right]; reflexivity. Qed.
Print Assumptions C72_unused_refuted.
Example C72_example : exists c', init_mmlut (slab 0 8) simple_cpar 0 simple_cal = Ok c' /\ no_table simple_cal /\ 
  (0 <= 3 < l_nr (c_lut c') - 1)%Z /\ (0 <= 2 < l_nz (c_lut c') - 1)%Z /\ vz (l_origin (c_lut c')) = -1 /\
  glass_height simple_cal (V 5 5 5) = 4 /\ on_ray (pixel_ray simple_cpar 0 simple_cal 2 0) (V 5 5 5).
Proof.
  destruct (init_fresh (slab 0 8) simple_cpar 0 simple_cal simple_glass) as (c' & E & _ & _); [rewrite slab_min, slab_max; lra|repeat split|].
  exists c'. split; [exact E|]. split; [repeat split|]. destruct (init_shape _ _ _ _ _ E) as (_ & _ & _ & _ & S).
  rewrite (simple_extent 0 (slab 0 8) 10) in S; [|rewrite slab_min, fmod_0; lra|rewrite slab_max, fmod_8; lra|lra]. destruct S as (-> & _ & -> & -> & _).
  rewrite simple_nr, (trunc_is _ 6) by (try lia; cbn; lra). split; [lia|]. split; [lia|]. split; [reflexivity|].
  split. { unfold glass_height. cbn [simple_cal c_glass]. rewrite glass_unit, glass_norm. unfold dot. cbn [vx vy vz]. lra. }
  pose proof (corner_pixel simple_cpar 0 simple_cal (true, false) (or_introl eq_refl)) as C. cbn [fst snd simple_cpar imx_] in C. rewrite <- C.
  unfold corner_ray, pixel_to_metric. cbn [simple_cpar imx_ imy_ pix_x_ pix_y_ mm_ fst snd]. change (c_added simple_cal) with no_distortion. rewrite (proj2 (no_distortion_id _ _ 0)).
  destruct (simple_ray ((2 - 2 / 2) * 1 - xh (c_int simple_cal)) ((2 / 2 - 0) * 1 - yh (c_int simple_cal))) as (k & K & ->).
  exists (- 4 / k). cbn [simple_cal c_int xh yh fst snd]. apply vec_ext; unfold vadd, vscale; cbn [vx vy vz]; field; lra.
Qed.

(** ===== C73: the set-up of a tracking run =====
    lmax is the largest distance between two displacements within the limits *)
Theorem C73_lmax : forall l, (forall d e, within_limits l d -> within_limits l e -> vec_diff_norm d e <= run_lmax l) /\
  (vx (dvmin l) <= vx (dvmax l) -> vy (dvmin l) <= vy (dvmax l) -> vz (dvmin l) <= vz (dvmax l) ->
   exists d e, within_limits l d /\ within_limits l e /\ vec_diff_norm d e = run_lmax l).
Proof.
  intros l. split; [intros; now apply lmax_bound|]. intros X Y Z. exists (dvmin l), (dvmax l). unfold within_limits.
  split; [lra|]. split; [lra|]. apply lmax_attained.
Qed.
Print Assumptions C73_lmax.
(** the box the tracker searches in: the z range is that of both layers, the x range contains the given one,
    and the box contains the points at the top that the cameras see in the corners of their images *)
Theorem C73_box : forall v cp tol cals v' ymin ymax, x_lay0 v <= x_lay1 v -> run_volume v cp tol cals = (v', ymin, ymax) ->
  (zmin0 v' = Rmin (zmin0 v) (zmin1 v) /\ zmax1 v' = Rmax (zmax0 v) (zmax1 v) /\ zmin1 v' = zmin1 v /\ zmax0 v' = zmax0 v) /\
  x_lay0 v' <= x_lay0 v /\ x_lay1 v <= x_lay1 v' /\ ymin <= 0 <= ymax /\
  forall c px py, In c cals -> c_added c = no_distortion \/ (xh (c_int c) = 0 /\ yh (c_int c) = 0) ->
    px = 0 \/ px = IZR (imx_ cp) -> py = 0 \/ py = IZR (imy_ cp) ->
    let p := at_z (pixel_ray cp tol c px py) (zmax1 v') in x_lay0 v' <= fst p <= x_lay1 v' /\ ymin <= snd p <= ymax.
Proof.
  intros v cp tol cals v' ymin ymax O E. destruct (run_z _ _ _ _ _ _ _ E) as (A & B & C & D).
  split; [split; [exact A|]; split; [exact B|]; split; [exact C|exact D]|].
  assert (G : x_lay0 v' <= x_lay0 v /\ x_lay1 v <= x_lay1 v' /\ ymin <= 0 <= ymax).
  { destruct cals as [|c0 cs].
    - unfold run_volume, volumedimension in E. cbn [flat_map fold_left] in E. injection E as <- <- <-. cbn [x_lay0 x_lay1]. lra.
    - destruct (run_volume_is v cp tol (c0 :: cs) v' ymin ymax c0 (false, false) O (or_introl eq_refl) E) as (_ & _ & _ & _ & H1 & H2 & H3 & _). auto. }
  destruct G as (G1 & G2 & G3). split; [exact G1|]. split; [exact G2|]. split; [exact G3|].
  intros c px py IC AP P1 P2. assert (CR : exists ij, corner_ray cp tol c ij = pixel_ray cp tol c px py).
  { destruct P1 as [-> | ->], P2 as [-> | ->]; [exists (false, false)|exists (false, true)|exists (true, false)|exists (true, true)]; rewrite corner_pixel by exact AP; reflexivity. }
  destruct CR as (ij & <-). destruct (run_volume_is v cp tol cals v' ymin ymax c ij O IC E) as (_ & _ & _ & _ & _ & _ & _ & H). exact H.
Qed.
Print Assumptions C73_box.
(** setting up a second run with the volume parameters that the first one has changed gives the same box *)
Theorem C73_again : forall v cp tol cals v' ymin ymax, x_lay0 v <= x_lay1 v ->
  run_volume v cp tol cals = (v', ymin, ymax) -> run_volume v' cp tol cals = (v', ymin, ymax).
Proof. exact run_again. Qed.
Print Assumptions C73_again.
(** a volume with level limits keeps them *)
Theorem C73_level : forall v cp tol cals v' ymin ymax, zmin0 v = zmin1 v -> zmax0 v = zmax1 v -> run_volume v cp tol cals = (v', ymin, ymax) ->
  forall x, lower_z v' x = lower_z v x /\ upper_z v' x = upper_z v x.
Proof.
  intros v cp tol cals v' ymin ymax H1 H2 E x. destruct (run_z _ _ _ _ _ _ _ E) as (A & B & C & D). unfold lower_z, upper_z. rewrite A, B, C, D, H1, <- H2.
  rewrite Rmin_left, Rmax_left by lra. split; ring.
Qed.
Print Assumptions C73_level.
(** with slanted limits the caller's volume is changed: points of the volume are no longer inside *)
Theorem C73_slanted_refuted : forall tol, let v := mk_volpar 0 1 (-4) 0 0 0 in
  forall v' ymin ymax, run_volume v simple_cpar tol [simple_cal] = (v', ymin, ymax) -> lower_z v 0 < lower_z v' 0.
Proof. exact shrunk. Qed.
Print Assumptions C73_slanted_refuted.
Example C73_example : let l := mk_dvlim (V (-1) 0 0) (V 2 4 0) in within_limits l (V 1 1 0) /\ run_lmax l = 5.
Proof.
  cbv zeta. split; [unfold within_limits; cbn; lra|]. unfold run_lmax. cbn [dvmin dvmax vx vy vz].
  match goal with |- sqrt ?a = _ => replace a with (5 * 5) by ring end. apply sqrt_square. lra.
Qed.
