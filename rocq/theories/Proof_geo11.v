From Verif Require Import Base Model_geo Spec_geo Proof_geo Proof_geo2 Proof_geo3 Proof_geo4 Proof_geo5 Proof_geo6 Proof_geo7 Proof_geo8 Proof_geo9.
Local Open Scope R_scope.
From Verif Require Import Proof_geo10 Base.
Lemma tan_refr_1 t : tan_refr 1 t = t.
Proof. unfold tan_refr. replace (1 + (1 - 1 * 1) * (t * t)) with 1 by ring. rewrite sqrt_1. field. Qed.
(** the factor used by multimed_nlay with a table of zeros *)
Lemma factor_spec mm n2 d dc D r l nn s : one_plate mm n2 d -> 0 < m_n1 mm -> m_n1 mm <= n2 -> m_n1 mm <= m_n3 mm -> 0 <= d -> 0 < dc -> 0 <= D -> 0 <= r ->
  l_data l = repeat 0 nn -> multimed_r_nlay l mm (V 0 0 (dc + d)) (V r 0 (- D)) = Ok s ->
  r <= s * r /\ 0 <= r - landing (m_n1 mm / n2) (m_n1 mm / m_n3 mm) dc d D (s * r) <= Rmax (/ 1000) ((1 - dc / (dc + d + D)) ^ 41 * r) /\ dc / (dc + d + D) * (s * r) <= r.
Proof.
  intros OP N1 N2 N3 PD PC DD Hr LD E. unfold multimed_r_nlay in E. destruct (one_medium mm) eqn:OM.
  - injection E as <-. unfold one_medium in OM. destruct OP as (L & E2 & ED). unfold n2_0 in OM. rewrite E2 in OM. cbn [nth] in OM.
    destruct (Req_EM_T (m_n1 mm) 1) as [->|]; [|discriminate]. destruct (Req_EM_T n2 1) as [->|]; [|discriminate]. destruct (Req_EM_T (m_n3 mm) 1) as [->|]; [|discriminate].
    rewrite Rmult_1_l. replace (1 / 1) with 1 by field. unfold landing. cbv zeta. rewrite !tan_refr_1.
    replace (dc * (r / (dc + d + D)) + d * (r / (dc + d + D)) + D * (r / (dc + d + D))) with r by (field; lra).
    split; [lra|]. split; [split; [lra|]|].
    + eapply Rle_trans; [|apply Rmax_l]. lra.
    + pose proof (share d dc D PD PC DD) as SH. rewrite <- (Rmult_1_l r) at 2. apply Rmult_le_compat_r; [exact Hr|]. apply SH.
  - unfold bind in E. destruct (if negb _ then _ else _) as [f|] eqn:F; [|discriminate].
    assert (f = 0) as ->. { destruct (negb _); [|injection F; auto]. eapply zero_lut; [|exact F]. exact LD. }
    destruct (Rlt_dec 0 0); [lra|]. injection E as <-. now apply shift_spec.
Qed.
Lemma incoming_dir c p : cols_orthonormal (dm (c_ext c)) -> keeps_length (dm (c_ext c)) -> 0 < cc (c_int c) -> depth c p < 0 ->
  let '(x, y) := project c p in exists kap, 0 < kap /\ incoming (V x y (- cc (c_int c))) (dm (c_ext c)) = vscale (vsub p (e_pos (c_ext c))) kap.
Proof.
  intros CO KL C D. pose proof (project_collinear c p CO ltac:(lra)) as PC. destruct (project c p) as [x y].
  set (cam := V x y (- cc (c_int c))) in *. assert (CN : cam <> vzero) by (unfold cam; intros [=]; lra).
  assert (K : 0 < - cc (c_int c) / depth c p).
  { unfold Rdiv. assert (/ depth c p < 0) by (now apply Rinv_lt_0_compat). nra. }
  pose proof (norm_pos_ne cam CN) as NC. exists (- cc (c_int c) / depth c p / vnorm cam). split; [apply Rdiv_lt_0_compat; assumption|].
  unfold incoming. rewrite unit_scale by assumption. rewrite mapply_scale, PC. apply vec_ext; cbn [vx vy vz vscale]; unfold Rdiv; ring.
Qed.
Lemma h_perp g pos pp : is_unit g -> dot (vsub pos (level_with g pos pp)) g = 0.
Proof.
  intros U. unfold level_with. assert (E : dot (vsub pos (vadd pp (vscale g (dot g pos - dot g pp)))) g = dot pos g - dot pp g - (dot g pos - dot g pp) * dot g g).
  { generalize (dot g pos - dot g pp) as k. intros k. vcomp. ring. } rewrite E, U, (dot_comm pos), (dot_comm pp). ring.
Qed.
Lemma shift_pp g pos pp h s : vsub (vadd (level_with g pos pp) (vscale h s)) pp = vadd (vscale g (- (dot g pp - dot g pos))) (vscale h s).
Proof. unfold level_with. generalize (dot g pos) (dot g pp). intros. vec_eq. Qed.
Lemma depth_lin n g (pos pp : vec) zd h s : dot n (vadd (vscale g (- zd)) (vscale h s)) = - zd * dot n g + s * dot n h.
Proof. vcomp. ring. Qed.
Lemma foot_sub g pos pp ng d : vsub (level_with g (vscale g (ng + d)) pos) pp = vadd (vscale g (dot g (vscale g (ng + d)) - dot g pp)) (vsub pos (level_with g pos pp)).
Proof. unfold level_with. generalize (dot g pos) (dot g pp) (dot g (vscale g (ng + d))). intros. vec_eq. Qed.
Lemma pos_sub g pos pp : vsub pos pp = vadd (vscale g (- (dot g pp - dot g pos))) (vscale (vsub pos (level_with g pos pp)) 1).
Proof. unfold level_with. generalize (dot g pos) (dot g pp). intros. vec_eq. Qed.
Lemma land_diff g pos pp k : vsub (vadd (vadd pp (vscale g (- (dot g pp - dot g pos)))) (vscale (vsub pos (level_with g pos pp)) k)) pos = vscale (vsub pos (level_with g pos pp)) (k - 1).
Proof. unfold level_with. generalize (dot g pos) (dot g pp). intros. vec_eq. Qed.

Lemma refracted_round_trip c mm orig n2 d x y : cols_orthonormal (dm (c_ext c)) -> keeps_length (dm (c_ext c)) -> 0 < cc (c_int c) -> c_glass c <> vzero ->
  one_plate mm n2 d -> 0 < m_n1 mm -> m_n1 mm <= n2 -> m_n1 mm <= m_n3 mm -> 0 <= d ->
  let g := unit_vector (c_glass c) in let C := e_pos (c_ext c) in let ng := vnorm (c_glass c) in
  ng + d < dot g C -> dot g orig <= ng ->
  depth c orig < 0 -> depth c (level_with g (vscale g (ng + d)) orig) < 0 ->
  flat_image_coord orig c mm = Ok (x, y) ->
  let '(X, out) := ray_tracing x y c mm in
  exists tau, 0 <= tau /\ let q := vadd X (vscale out tau) in dot g q = dot g orig /\
    vec_diff_norm q orig <= Rmax (/ 1000) ((1 - (dot g C - (ng + d)) / (dot g C - dot g orig)) ^ 41 * vec_diff_norm orig (level_with g orig C)).
Proof.
  intros CO KL CC HG OP N1 N2 N3 PD g C ng OUT INS D1 D2 E.
  assert (GU : is_unit g) by (now apply unit_vector_unit).
  set (dc := dot g C - ng - d). set (D := ng - dot g orig). set (zd := dc + d + D).
  assert (ZE : zd = dot g C - dot g orig) by (unfold zd, dc, D; ring).
  assert (PC : 0 < dc) by (unfold dc; lra). assert (DD : 0 <= D) by (unfold D; lra). assert (ZP : 0 < zd) by (unfold zd; lra).
  unfold flat_image_coord in E. pose proof (back_shift C (d_0 mm) (c_glass c) orig HG) as BS. cbv zeta in BS. fold C in E.
  destruct (trans_cam_point C (d_0 mm) (c_glass c) orig) as [[[pt cp] cr] z0]. fold g in BS. set (h := vsub orig (level_with g orig C)) in *.
  assert (D0 : d_0 mm = d) by (destruct OP as (_ & _ & ED); unfold d_0; rewrite ED; reflexivity). rewrite D0 in *.
  destruct BS as (-> & -> & BT). fold ng in BT, E. change (dot g C - ng - d) with dc in E. replace (dot g orig - ng) with (- D) in BT, E by (unfold D; ring).
  set (r := vnorm h) in *. assert (Hr : 0 <= r) by apply vnorm_pos.
  unfold multimed_nlay in E. cbn [vx vy vz] in E, BT.
  match type of E with context [multimed_r_nlay ?l mm _ _] => destruct (multimed_r_nlay l mm (V 0 0 (dc + d)) (V r 0 (- D))) as [s|] eqn:ES end; [|discriminate]. cbn [bind fst snd vx vy vz] in E.
  eapply factor_spec in ES; [|exact OP|exact N1|exact N2|exact N3|exact PD|exact PC|exact DD|exact Hr|reflexivity]. fold zd in ES. destruct ES as (S1 & S2 & S3).
  rewrite BT in E. apply (f_equal (fun o => match o with Ok z => z | Exn _ => (x, y) end)) in E. cbv beta iota in E. set (A := vadd (level_with g orig C) (vscale h s)) in *.
  assert (HG0 : dot h g = 0) by (apply h_perp; exact GU). assert (HH : dot h h = r * r) by (symmetry; apply vnorm_sq).
  (* the apparent point is in front of the camera *)
  assert (DA : depth c A < 0).
  { unfold depth in *. fold C in D1, D2 |- *. unfold A. rewrite shift_pp, <- ZE. rewrite (pos_sub g orig C), <- ZE in D1. fold h in D1. rewrite foot_sub in D2. fold h in D2.
    assert (FG : dot g (vscale g (ng + d)) - dot g C = - dc).
    { assert (EE : dot g (vscale g (ng + d)) = (ng + d) * dot g g) by (generalize g (ng + d); intros; vcomp; ring). rewrite EE, GU. unfold dc. ring. }
    rewrite FG in D2.
    set (n := col3 (dm (c_ext c))) in *. rewrite (depth_lin n g orig C) in D1 |- *.
    assert (D2' : - dc * dot n g + dot n h < 0). { revert D2. generalize dc n g h. clear. intros k a b e. vcomp. lra. }
    destruct (Req_EM_T r 0) as [R0|R0].
    { assert (h = vzero) as HZ by (now apply vnorm_zero). rewrite HZ in *. replace (dot n vzero) with 0 in * by (clear; vcomp; ring). lra. }
    assert (S1' : 1 <= s) by (apply Rmult_le_reg_r with r; lra). 
    assert (S3' : dc * s <= zd). { apply Rmult_le_reg_r with (r / zd); [apply Rdiv_lt_0_compat; lra|]. replace (dc * s * (r / zd)) with (dc / zd * (s * r)) by (field; lra). replace (zd * (r / zd)) with r by (field; lra). exact S3. }
    destruct (Rle_dec (dot n h) 0) as [NH|NH]; [nra|].
    assert (s * (- dc * dot n g + dot n h) < 0) by nra. assert (0 < dot n g) by nra. nra. }
  pose proof (incoming_dir c A CO KL CC DA) as ID. rewrite E in ID. destruct ID as (kap & KP & IN). fold C in IN.
  unfold A in IN. rewrite shift_pp, <- ZE in IN.
  set (sv := incoming (V x y (- cc (c_int c))) (dm (c_ext c))) in *.
  assert (CN : V x y (- cc (c_int c)) <> vzero) by (intros [=]; lra).
  assert (SU : is_unit sv) by (apply Hs; assumption). rewrite IN in SU.
  assert (CR : vnorm (cross g sv) < 1).
  { rewrite vnorm_dot, cross_dot, GU. rewrite IN. rewrite SU. rewrite lin_dot, HG0, GU. apply Rlt_le_trans with (sqrt 1); [|rewrite sqrt_1; lra]. apply sqrt_lt_1_alt. split.
    - pose proof (s_norm g h zd s kap r GU SU HG0 HH) as SN. assert (0 <= kap * kap * (s * r * (s * r))) by nra. nra.
    - assert (0 < zd * kap) by nra. nra. }
  assert (CR0 : 0 <= vnorm (cross g sv)) by apply vnorm_pos.
  unfold ray_tracing. rewrite D0. assert (N20 : n2_0 mm = n2) by (destruct OP as (_ & E2 & _); unfold n2_0; rewrite E2; reflexivity). rewrite N20.
  assert (T2 : m_n1 mm * vnorm (cross g sv) <= n2) by nra. assert (T3 : m_n1 mm * vnorm (cross g sv) <= m_n3 mm) by nra.
  pose proof (trace_out (V x y (- cc (c_int c))) (dm (c_ext c)) C (c_glass c) d (m_n1 mm) n2 (m_n3 mm) CN KL HG ltac:(lra)) as TO.
  assert (NZ : dot g sv <> 0). { rewrite dot_comm, IN, lin_dot, HG0, GU. assert (0 < zd * kap) by nra. nra. }
  pose proof (trace_vertex (V x y (- cc (c_int c))) (dm (c_ext c)) C (c_glass c) d (m_n1 mm) n2 (m_n3 mm) CN KL HG N1 ltac:(lra) NZ ltac:(fold g; fold sv; nra)) as TV.
  fold C. destruct (fast_ray_tracing _ _ _ _ _ _ _ _) as [X out]. cbn [fst snd] in TO, TV. fold g in TO, TV. fold sv in TO, TV. rewrite IN in TO, TV. fold ng in TV.
  rewrite (first_refraction g h (m_n1 mm) n2 zd s kap r GU SU HG0 HH N1 N2) in TO, TV.
  rewrite (second_refraction g h (m_n1 mm) n2 (m_n3 mm) zd s kap r GU SU HG0 HH N1 N2 N3) in TO.
  destruct TV as (Xb & V1 & V2 & V3 & V4).
  pose proof (arrive g h (m_n1 mm) n2 (m_n3 mm) zd s kap r GU SU HG0 HH N1 N2 N3 ZP KP C d dc D Xb X ng ltac:(unfold dc; ring) eq_refl V1 V2 V3 V4) as AR.
  destruct (q2_pos g h (m_n1 mm) n2 zd s kap r GU SU HG0 HH N1 N2 ZP KP) as (Q2 & Q2'). destruct (q3_pos g h (m_n1 mm) (m_n3 mm) zd s kap r GU SU HG0 HH N1 N3 ZP KP) as (Q3 & Q3').
  set (q2 := sqrt (1 - kap * kap * (s * r * (s * r)) * (m_n1 mm / n2 * (m_n1 mm / n2)))) in *.
  set (q3 := sqrt (1 - kap * kap * (s * r * (s * r)) * (m_n1 mm / m_n3 mm * (m_n1 mm / m_n3 mm)))) in *.
  exists (D / q3). split. { apply Rmult_le_pos; [exact DD|]. left. now apply Rinv_0_lt_compat. }
  rewrite <- TO in AR. cbv zeta. rewrite AR. set (K := s * (dc / zd + _ + _)) in *. rewrite ZE.
  split.
  { unfold h. assert (EE : forall k e, dot g (vadd (vadd C (vscale g k)) (vscale h e)) = dot g C + k * dot g g + e * dot h g) by (intros; generalize g h C; intros; vcomp; ring).
    fold h. rewrite EE, GU, HG0. ring. }
  rewrite (proj1 (diff_norm_metric _ _ vzero)). unfold h. rewrite land_diff. fold h. rewrite vnorm_scale. fold r.
  rewrite (proj1 (diff_norm_metric orig _ vzero)). fold h. fold r. rewrite <- ZE. replace (dot g C - (ng + d)) with dc by (unfold dc; ring).
  assert (KL' : K * r = landing (m_n1 mm / n2) (m_n1 mm / m_n3 mm) dc d D (s * r)).
  { unfold landing. fold zd. rewrite <- Q2', <- Q3'. unfold K. field. repeat split; lra. }
  rewrite <- KL' in S2. replace (Rabs (K - 1) * r) with (r - K * r); [apply S2|].
  rewrite <- (Rabs_pos_eq r Hr) at 3. rewrite <- Rabs_mult. rewrite <- Rabs_Ropp. rewrite Rabs_pos_eq; [ring|]. lra.
Qed.
