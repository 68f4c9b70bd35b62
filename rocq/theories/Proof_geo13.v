(** Proofs for C71: the epipolar curve. *)
From Verif Require Import Base Lib Model_geo Model_geo2 Spec_geo Spec_geo2 Spec_geo3 Proof_geo Proof_geo2 Proof_geo4 Proof_geo5 Proof_geo6 Proof_geo8 Proof_geo9 Proof_geo12 Prop_geo Prop_geo2.
Local Open Scope R_scope.

Lemma collect_inv {A B} (f : A -> result B) l : forall acc r, foldM (fun acc z => do y <- f z; Ok (acc ++ [y])) l acc = Ok r ->
  exists ys, r = acc ++ ys /\ Forall2 (fun z y => f z = Ok y) l ys.
Proof.
  induction l as [|z l IH]; intros acc r H; cbn [foldM] in H.
  - injection H as <-. exists []. split; [now rewrite app_nil_r|constructor].
  - destruct (f z) as [y|e] eqn:E; cbn [bind] in H; [|discriminate].
    destruct (IH _ _ H) as (ys & -> & F). exists (y :: ys). split; [now rewrite <- app_assoc|now constructor].
Qed.
Lemma collect_ok {A B} (f : A -> result B) l ys : Forall2 (fun z y => f z = Ok y) l ys -> forall acc,
  foldM (fun acc z => do y <- f z; Ok (acc ++ [y])) l acc = Ok (acc ++ ys).
Proof.
  induction 1 as [|z y l ys E H IH]; intros acc; cbn [foldM]; [now rewrite app_nil_r|].
  rewrite E. cbn [bind]. rewrite IH. now rewrite <- app_assoc.
Qed.
Lemma F2_nth {A B} (P : A -> B -> Prop) l ys : Forall2 P l ys -> forall k y, nth_error ys k = Some y -> exists z, nth_error l k = Some z /\ P z y.
Proof. induction 1 as [|z y0 l ys H F IH]; intros [|k] y E; cbn in E; try discriminate; [injection E as <-; exists z; split; [reflexivity|exact H]|now apply IH]. Qed.
Lemma F2_nth' {A B} (P : A -> B -> Prop) l ys : Forall2 P l ys -> forall k z, nth_error l k = Some z -> exists y, nth_error ys k = Some y /\ P z y.
Proof. induction 1 as [|z0 y l ys H F IH]; intros [|k] z E; cbn in E; try discriminate; [injection E as <-; exists y; split; [reflexivity|exact H]|now apply IH]. Qed.
Lemma F2_len {A B} (P : A -> B -> Prop) l ys : Forall2 P l ys -> length l = length ys.
Proof. induction 1; cbn; congruence. Qed.

(** the curve, with the intermediate values named *)
Definition curve_row (cp : cpar) (c2 : calib) (r : vec * vec) (z : R) : result (R * R) :=
  do xy <- img_coord (move_along_ray z (fst r) (snd r)) c2 (mm_ cp);
  Ok (metric_to_pixel (fst xy) (snd xy) (imx_ cp) (imy_ cp) (pix_x_ cp) (pix_y_ cp)).
Lemma foldM_ext {A S} (f g : S -> A -> result S) l : (forall s a, f s a = g s a) -> forall s, foldM f l s = foldM g l s.
Proof. intros H. induction l as [|a l IH]; intros s; cbn [foldM]; [reflexivity|]. rewrite H. destruct (g s a); cbn [bind]; auto. Qed.
Lemma curve_eq px py c1 c2 num cp v tol : epipolar_curve px py c1 c2 num cp v tol =
  do zs <- linspace (zmin0 v) (zmax0 v) num; foldM (fun acc z => do y <- curve_row cp c2 (pixel_ray cp tol c1 px py) z; Ok (acc ++ [y])) zs [].
Proof.
  unfold epipolar_curve, pixel_ray. destruct (pixel_to_metric _ _ _ _ _ _) as (x, y). destruct (dist_to_flat x y c1 tol) as (x', y').
  destruct (ray_tracing x' y' c1 (mm_ cp)) as (v0, d0). destruct (linspace _ _ _); cbn [bind]; [|reflexivity].
  apply foldM_ext. intros s z. unfold curve_row. cbn [fst snd]. destruct (img_coord _ _ _); reflexivity.
Qed.
Lemma linspace_ok a b n : (2 <= n)%nat -> linspace a b (Z.of_nat n) = Ok (map (fun i => a + IZR i * ((b - a) / IZR (Z.of_nat n - 1))) (zrange 0 (Z.of_nat n))).
Proof. intros H. unfold linspace. destruct (Z.ltb_spec (Z.of_nat n) 0); [lia|]. destruct (Z.eqb_spec (Z.of_nat n) 1); [lia|]. reflexivity. Qed.
Lemma zrange_nth n k : (k < n)%nat -> nth_error (zrange 0 (Z.of_nat n)) k = Some (Z.of_nat k).
Proof.
  intros H. unfold zrange. rewrite Z.sub_0_r, Nat2Z.id.
  rewrite (map_nth_error (fun i => (0 + Z.of_nat i)%Z) k (seq 0 n) (d := k)); [reflexivity|].
  rewrite (nth_error_nth' _ 0%nat) by (now rewrite seq_length). now rewrite seq_nth.
Qed.
Lemma zrange_len n : length (zrange 0 (Z.of_nat n)) = n.
Proof. unfold zrange. rewrite map_length, seq_length. lia. Qed.
Lemma steps_nth v n k : (k < n)%nat -> (2 <= n)%nat ->
  nth_error (map (fun i => zmin0 v + IZR i * ((zmax0 v - zmin0 v) / IZR (Z.of_nat n - 1))) (zrange 0 (Z.of_nat n))) k = Some (step_z v n k).
Proof.
  intros H N. rewrite (map_nth_error _ _ _ (zrange_nth n k H)). f_equal. unfold step_z.
  rewrite !INR_IZR_INZ. replace (Z.of_nat (n - 1)) with (Z.of_nat n - 1)%Z by lia. unfold Rdiv. ring.
Qed.
Lemma move_on_line z r : vz (snd r) <> 0 -> on_ray r (move_along_ray z (fst r) (snd r)) /\ vz (move_along_ray z (fst r) (snd r)) = z.
Proof.
  intros H. unfold move_along_ray. destruct (Req_EM_T (vz (snd r)) 0); [contradiction|]. split; [|reflexivity].
  exists ((z - vz (fst r)) / vz (snd r)). apply vec_ext; cbn; field; assumption.
Qed.
Lemma on_ray_height r p q : vz (snd r) <> 0 -> on_ray r p -> on_ray r q -> vz p = vz q -> p = q.
Proof.
  intros H (s & ->) (t & ->) E. cbn in E. assert (s = t). { apply (Rmult_eq_reg_l (vz (snd r))); [lra|assumption]. } now subst.
Qed.
Lemma row_seen cp c2 r z y : curve_row cp c2 r z = Ok y -> seen_at cp c2 (move_along_ray z (fst r) (snd r)) y.
Proof.
  unfold curve_row, seen_at. destruct (img_coord _ _ _) as [[a b]|e]; cbn [bind]; [|discriminate]. intros [= <-]. exists a, b. split; reflexivity.
Qed.
Lemma seen_unique cp c p q q' : seen_at cp c p q -> seen_at cp c p q' -> q = q'.
Proof. intros (x & y & E & <-) (x' & y' & E' & <-). rewrite E in E'. now injection E' as <- <-. Qed.

Theorem curve_points px py c1 c2 n cp v tol pts : (2 <= n)%nat -> epipolar_curve px py c1 c2 (Z.of_nat n) cp v tol = Ok pts ->
  let r := pixel_ray cp tol c1 px py in vz (snd r) <> 0 ->
  length pts = n /\ forall k, (k < n)%nat -> exists P q, nth_error pts k = Some q /\ on_ray r P /\ vz P = step_z v n k /\ seen_at cp c2 P q.
Proof.
  intros N E r D. rewrite curve_eq, linspace_ok in E by assumption. cbn [bind] in E. fold r in E.
  destruct (collect_inv _ _ _ _ E) as (ys & -> & F). cbn [app]. pose proof (F2_len _ _ _ F) as L. rewrite map_length, zrange_len in L.
  split; [congruence|]. intros k K. destruct (F2_nth' _ _ _ F k _ (steps_nth v n k K N)) as (y & Y & R).
  exists (move_along_ray (step_z v n k) (fst r) (snd r)), y. destruct (move_on_line (step_z v n k) r D). split; [assumption|]. split; [assumption|]. split; [assumption|now apply row_seen].
Qed.
Theorem curve_through px py c1 c2 n cp v tol pts : (2 <= n)%nat -> epipolar_curve px py c1 c2 (Z.of_nat n) cp v tol = Ok pts ->
  let r := pixel_ray cp tol c1 px py in vz (snd r) <> 0 ->
  forall P q k, on_ray r P -> (k < n)%nat -> vz P = step_z v n k -> seen_at cp c2 P q -> nth_error pts k = Some q.
Proof.
  intros N E r D P q k O K Z S. destruct (curve_points _ _ _ _ _ _ _ _ _ N E D) as (_ & H). destruct (H k K) as (P' & q' & E' & O' & Z' & S').
  fold r in O'. assert (P = P') by (apply (on_ray_height r); congruence). subst P'. now rewrite (seen_unique _ _ _ _ _ S S').
Qed.
Lemma seen_ray cp tol c p q : pix_x_ cp <> 0 -> pix_y_ cp <> 0 -> 0 < m_n1 (mm_ cp) -> same_index (mm_ cp) ->
  consistent (c_ext c) -> c_glass c <> vzero -> in_front c p -> affine_lens c -> seen_at cp c p q ->
  let r := pixel_ray cp tol c (fst q) (snd q) in on_ray r p /\ on_line (e_pos (c_ext c)) (snd r) p /\ is_unit (snd r).
Proof.
  intros PX PY N1 SI CO G F A (x & y & E & <-). unfold pixel_ray.
  destruct (metric_to_pixel x y (imx_ cp) (imy_ cp) (pix_x_ cp) (pix_y_ cp)) as (u, w) eqn:M1. cbn [fst snd].
  destruct (pixel_to_metric u w (imx_ cp) (imy_ cp) (pix_x_ cp) (pix_y_ cp)) as (a, b) eqn:M2.
  assert (D : detected cp tol p c (dist_to_flat a b c tol)). { exists x, y. split; [exact E|]. now rewrite M1, M2. }
  destruct (detected_flat cp tol p c _ PX PY A D) as (fx & fy & FI & ->).
  pose proof (C46_back c (mm_ cp) p CO G F N1 SI fx fy FI) as B.
  unfold on_ray. destruct (ray_tracing fx fy c (mm_ cp)) as (vv, dd). cbn [fst snd]. exact B.
Qed.
Lemma flat_ray cp tol c p q : pix_x_ cp <> 0 -> pix_y_ cp <> 0 -> affine_lens c -> seen_at cp c p q ->
  exists fx fy, flat_image_coord p c (mm_ cp) = Ok (fx, fy) /\ pixel_ray cp tol c (fst q) (snd q) = ray_tracing fx fy c (mm_ cp).
Proof.
  intros PX PY A (x & y & E & <-). unfold pixel_ray.
  destruct (metric_to_pixel x y (imx_ cp) (imy_ cp) (pix_x_ cp) (pix_y_ cp)) as (u, w) eqn:M1. cbn [fst snd].
  destruct (pixel_to_metric u w (imx_ cp) (imy_ cp) (pix_x_ cp) (pix_y_ cp)) as (a, b) eqn:M2.
  assert (D : detected cp tol p c (dist_to_flat a b c tol)). { exists x, y. split; [exact E|]. now rewrite M1, M2. }
  destruct (detected_flat cp tol p c _ PX PY A D) as (fx & fy & FI & ->). exists fx, fy. split; [exact FI|reflexivity].
Qed.
Lemma curve_total px py c1 c2 num cp v tol : l_nr (c_lut c2) = 0%Z -> l_nz (c_lut c2) = 0%Z ->
  ((0 <= num)%Z -> exists pts, epipolar_curve px py c1 c2 num cp v tol = Ok pts /\ Z.of_nat (length pts) = num) /\
  ((num < 0)%Z -> epipolar_curve px py c1 c2 num cp v tol = Exn ValueError).
Proof.
  intros A B. rewrite curve_eq. unfold linspace. split; intros N.
  - destruct (Z.ltb_spec num 0); [lia|]. set (r := pixel_ray cp tol c1 px py).
    assert (Q : forall zs, exists ys, Forall2 (fun z y => curve_row cp c2 r z = Ok y) zs ys).
    { induction zs as [|z zs (ys & IH)]; [exists []; constructor|].
      destruct (same_index_ok (move_along_ray z (fst r) (snd r)) c2 (mm_ cp) A B) as ((fx, fy) & E).
      eexists (_ :: ys). constructor; [|exact IH]. unfold curve_row, img_coord. rewrite E. cbn [bind]. reflexivity. }
    set (zs := if (num =? 1)%Z then [zmin0 v] else map (fun i => zmin0 v + IZR i * ((zmax0 v - zmin0 v) / IZR (num - 1))) (zrange 0 num)).
    assert (LZ : Z.of_nat (length zs) = num). { unfold zs. destruct (Z.eqb_spec num 1); [subst; reflexivity|]. rewrite map_length. unfold zrange. rewrite map_length, seq_length. lia. }
    destruct (Q zs) as (ys & F). exists ys. split; [|rewrite <- LZ; now rewrite (F2_len _ _ _ F)].
    replace (if (num =? 1)%Z then Ok [zmin0 v] else Ok (map (fun i => zmin0 v + IZR i * ((zmax0 v - zmin0 v) / IZR (num - 1))) (zrange 0 num))) with (Ok zs) by (unfold zs; now destruct (num =? 1)%Z).
    cbn [bind]. apply (collect_ok _ _ _ F []).
  - destruct (Z.ltb_spec num 0); [reflexivity|lia].
Qed.
Lemma cam_pinhole a x y z : z - 10 <> 0 -> pinhole (cam a) (V x y z) = ((x - a) / (10 - z), y / (10 - z)).
Proof.
  intros H. unfold pinhole. rewrite cam_depth, cam_dm. change (cc (c_int (cam a))) with 1. change (e_pos (c_ext (cam a))) with (V a 0 10).
  unfold dot, col1, col2, vsub. cbn. f_equal; field; lra.
Qed.
Lemma cam_seen a p : vz p - 10 <> 0 -> exists q, seen_at simple_cpar (cam a) p q /\ q = ((vx p - a) / (10 - vz p) + 1, 1 - vy p / (10 - vz p)).
Proof.
  destruct p as [x y z]. cbn [vx vy vz]. intros H. eexists. split; [|reflexivity]. unfold seen_at, img_coord. change (mm_ simple_cpar) with simple_mm.
  rewrite C46_pinhole; [|apply cam_glass|apply C46_example|rewrite cam_depth; exact H]. rewrite cam_pinhole by exact H. cbn [bind fst snd].
  unfold flat_to_dist. cbn [cam c_int xh yh c_added]. rewrite !Rplus_0_r. destruct (C41_no_distortion ((x - a) / (10 - z)) (y / (10 - z)) 0) as (-> & _).
  eexists _, _. split; [reflexivity|]. unfold metric_to_pixel. cbn [simple_cpar imx_ imy_ pix_x_ pix_y_]. f_equal; field; lra.
Qed.
Lemma slanted_curve : let P := V 1 2 (-2) in let slanted := mk_volpar 0 1 0 (-4) 1 1 in lower_z slanted (vx P) <= vz P <= upper_z slanted (vx P) /\
  exists q1 q2, seen_at simple_cpar (cam 0) P q1 /\ seen_at simple_cpar (cam 3) P q2 /\
    forall n pts tol, epipolar_curve (fst q1) (snd q1) (cam 0) (cam 3) n simple_cpar slanted tol = Ok pts -> ~ In q2 pts.
Proof.
  intros P v. split. { unfold lower_z, upper_z, v, P. cbn. lra. }
  destruct (cam_seen 0 P ltac:(cbn; lra)) as (q1 & S1 & E1). destruct (cam_seen 3 P ltac:(cbn; lra)) as (q2 & S2 & E2).
  exists q1, q2. split; [exact S1|]. split; [exact S2|]. intros n pts tol E I. rewrite curve_eq in E.
  destruct (seen_ray simple_cpar tol (cam 0) P q1) as (O & (t & T) & U); try (cbn; lra); try exact S1.
  { apply C46_example. } { apply cam_consistent. } { apply cam_glass. } { unfold in_front, P. rewrite cam_depth. cbn [cam c_int cc c_ext c_glass set_pos e_pos]. unfold dot, vsub. cbn. lra. } { apply cam_lens. }
  set (r := pixel_ray simple_cpar tol (cam 0) (fst q1) (snd q1)) in *.
  clearbody r.
  assert (D : vz (snd r) <> 0). { intros Q. apply (f_equal vz) in T. cbn in T. rewrite Q in T. lra. }
  destruct (linspace (zmin0 v) (zmax0 v) n) as [zs|] eqn:L; cbn [bind] in E; [|discriminate].
  destruct (collect_inv _ _ _ _ E) as (ys & -> & F). cbn [app] in I. apply In_nth_error in I. destruct I as (k & K).
  destruct (F2_nth _ _ _ F k q2 K) as (z & NZ & R). apply row_seen in R.
  assert (ZB : 0 <= z <= 1).
  { unfold linspace in L. cbn [v zmin0 zmax0] in L. destruct (Z.ltb_spec n 0); [discriminate|]. destruct (Z.eqb_spec n 1) as [->|N1].
    - injection L as <-. apply nth_error_In in NZ. destruct NZ as [<-|[]]. lra.
    - injection L as <-. apply nth_error_In in NZ. apply in_map_iff in NZ. destruct NZ as (i & <- & Hi).
      unfold zrange in Hi. apply in_map_iff in Hi. destruct Hi as (j & <- & Hj). apply in_seq in Hj.
      assert (B1 : 0 <= IZR (0 + Z.of_nat j)) by (apply IZR_le; lia). assert (B2 : IZR (0 + Z.of_nat j) <= IZR (n - 1)) by (apply IZR_le; lia).
      assert (B3 : 0 < IZR (n - 1)) by (apply IZR_lt; lia). replace (0 + IZR (0 + Z.of_nat j) * ((1 - 0) / IZR (n - 1))) with (IZR (0 + Z.of_nat j) / IZR (n - 1)) by (field; lra).
      split; [apply Rmult_le_pos; [lra|apply Rlt_le, Rinv_0_lt_compat; lra]|]. apply (Rmult_le_reg_r (IZR (n - 1))); [lra|]. unfold Rdiv. rewrite Rmult_assoc, Rinv_l by lra. lra. }
  (* the point of the ray at height z *)
  set (Q := move_along_ray z (fst r) (snd r)) in *. destruct (move_on_line z r D) as (OQ & ZQ). fold Q in OQ, ZQ. clearbody Q.
  destruct O as (s & O). destruct OQ as (s' & OQ).
  assert (QE : vsub Q P = vscale (snd r) (s' - s)). { rewrite OQ, O. clear. vec_eq. }
  assert (X : 12 * (vx Q - 1) = vz Q * -1 - 2).
  { assert (T1 := f_equal vx T). assert (T3 := f_equal vz T). assert (Q1 := f_equal vx QE). assert (Q3 := f_equal vz QE).
    unfold P in T1, T3, Q1, Q3. unfold vadd, vsub, vscale in T1, T3, Q1, Q3. cbn [vx vy vz] in T1, T3, Q1, Q3. change (e_pos (c_ext (cam 0))) with (V 0 0 10) in T1, T3. cbn [vx vy vz] in T1, T3.
    assert (vx (snd r) * 12 = - vz (snd r)). { assert (H0 : t <> 0) by (intros ->; lra). apply (Rmult_eq_reg_r t); [|exact H0]. lra. } nra. }
  destruct (cam_seen 3 Q ltac:(rewrite ZQ; lra)) as (q & SQ & EQ). pose proof (seen_unique _ _ _ _ _ R SQ) as EE. rewrite EQ, E2 in EE.
  injection EE as EX _. unfold P in EX. cbn [vx vy vz] in EX. rewrite ZQ in *. 
  assert (VX : vx Q = (10 - z) / 12) by lra. rewrite VX in EX.
  assert (W : 3 / (10 - z) = 3 / 12). { replace (3 / (10 - z)) with (/ 12 - ((10 - z) / 12 - 3) / (10 - z)) by (field; lra). lra. }
  assert (10 - z = 12); [|lra]. apply (Rmult_eq_reg_l (/ (10 - z))); [|apply Rinv_neq_0_compat; lra]. rewrite Rinv_l by lra. unfold Rdiv in W. lra.
Qed.
