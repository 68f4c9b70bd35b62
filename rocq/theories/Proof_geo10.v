(** Refracted projection: accuracy of the fixed-point iteration, and the round trip with ray tracing. *)
From Verif Require Import Base Model_geo Spec_geo Proof_geo Proof_geo2 Proof_geo3 Proof_geo4 Proof_geo5 Proof_geo6 Proof_geo7 Proof_geo8 Proof_geo9.
Local Open Scope R_scope.

(** tangent of the refracted angle, from the tangent t of the incoming one; k: ratio of the indices *)
Definition tan_refr (k t : R) : R := k * t / sqrt (1 + (1 - k * k) * (t * t)).
Section Scalar.
Variable k : R.
Hypothesis (K : 0 < k <= 1).
Let m := 1 - k * k.
Lemma m_range : 0 <= m. Proof. unfold m. nra. Qed.
Lemma rad_pos t : 1 <= 1 + m * (t * t).
Proof. pose proof m_range. assert (0 <= t * t) by nra. nra. Qed.
Lemma rad_sqrt t : 1 <= sqrt (1 + m * (t * t)).
Proof. rewrite <- sqrt_1 at 1. apply sqrt_le_1_alt. apply rad_pos. Qed.
Lemma tan_refr_0 : tan_refr k 0 = 0. Proof. unfold tan_refr. rewrite Rmult_0_r. unfold Rdiv. ring. Qed.
Lemma tan_refr_mono a b : 0 <= a <= b -> tan_refr k a <= tan_refr k b.
Proof.
  intros H. unfold tan_refr. fold m. pose proof (rad_sqrt a) as SA. pose proof (rad_sqrt b) as SB.
  set (p := sqrt (1 + m * (a * a))) in *. set (q := sqrt (1 + m * (b * b))) in *.
  assert (E : a * q <= b * p).
  { apply Rsqr_incr_0; [|nra|nra]. unfold Rsqr. replace (a * q * (a * q)) with (a * a * (q * q)) by ring. replace (b * p * (b * p)) with (b * b * (p * p)) by ring.
    unfold p, q. rewrite !sqrt_sqrt by (pose proof (rad_pos a); pose proof (rad_pos b); lra). assert (a * a <= b * b) by nra. nra. }
  apply Rmult_le_reg_r with (p * q); [nra|]. replace (k * a / p * (p * q)) with (k * (a * q)) by (field; lra). replace (k * b / q * (p * q)) with (k * (b * p)) by (field; lra). nra.
Qed.
Lemma tan_refr_lip a b : 0 <= a <= b -> tan_refr k b - tan_refr k a <= b - a.
Proof.
  intros H. unfold tan_refr. fold m. pose proof (rad_sqrt a) as SA. pose proof (rad_sqrt b) as SB.
  assert (PQ : sqrt (1 + m * (a * a)) <= sqrt (1 + m * (b * b))).
  { apply sqrt_le_1_alt. pose proof m_range. assert (a * a <= b * b) by nra. nra. }
  set (p := sqrt (1 + m * (a * a))) in *. set (q := sqrt (1 + m * (b * b))) in *.
  assert (IP : / q <= / p) by (apply Rinv_le_contravar; lra). assert (IQ : 0 < / q) by (apply Rinv_0_lt_compat; lra).
  assert (I1 : / p <= 1) by (rewrite <- Rinv_1; apply Rinv_le_contravar; lra).
  unfold Rdiv. assert (k * / p <= 1) by nra. assert (k * / q <= k * / p) by nra.
  assert (a * (1 - k * / p) <= b * (1 - k * / q)); [|lra]. apply Rmult_le_compat; lra.
Qed.
Lemma tan_refr_spec t : tan (asin (sin (atan t) * k)) = tan_refr k t.
Proof.
  pose proof (rad_pos t) as RP. pose proof (rad_sqrt t) as RS. rewrite sin_atan.
  assert (T2 : 0 <= t * t) by nra. assert (T1 : 1 <= sqrt (1 + Rsqr t)) by (rewrite <- sqrt_1 at 1; apply sqrt_le_1_alt; unfold Rsqr; lra).
  assert (SQ : sqrt (1 + Rsqr t) * sqrt (1 + Rsqr t) = 1 + t * t) by (rewrite sqrt_sqrt; unfold Rsqr; lra).
  set (v := sqrt (1 + Rsqr t)) in *. set (u := t / v * k).
  assert (UU : 1 - Rsqr u = (1 + m * (t * t)) / (v * v)).
  { replace (Rsqr u) with (t * t * (k * k) / (v * v)) by (unfold u, Rsqr; field; lra).
    replace (1 + m * (t * t)) with (v * v - t * t * (k * k)) by (rewrite SQ; unfold m; ring). field. lra. }
  assert (U1 : Rsqr u < 1). { assert (0 < (1 + m * (t * t)) / (v * v)) by (apply Rdiv_lt_0_compat; nra). lra. }
  assert (UB : -1 <= u <= 1). { assert (u * u < 1) by exact U1. split; nra. }
  unfold tan. rewrite sin_asin by exact UB. rewrite cos_asin by exact UB. rewrite UU. rewrite sqrt_div_alt by nra.
  rewrite sqrt_square by lra. unfold u, tan_refr. fold m. field. lra.
Qed.
End Scalar.

(** the iteration for a function with slopes between c and 1 *)
Section Iterate.
Variables (mm : mmpar) (z0 zdiff zout r c : R) (F : R -> R).
Hypothesis (HF : forall rq, nlay_rdiff mm z0 zdiff zout r rq = r - F rq)
  (C : 0 <= c <= 1) (UP : forall a b, 0 <= a <= b -> F b - F a <= b - a) (LO : forall a b, 0 <= a <= b -> c * (b - a) <= F b - F a).
Lemma loop_spec n : forall q rq, 0 <= rq -> 0 <= r - F rq -> (Rabs q <= / 1000 -> r - F rq <= / 1000) ->
  let rq' := nlay_loop n mm z0 zdiff zout r q rq in
  rq <= rq' /\ 0 <= r - F rq' /\ (r - F rq' <= / 1000 \/ r - F rq' <= (1 - c) ^ n * (r - F rq)).
Proof.
  induction n as [|n IH]; intros q rq P E Q; cbn [nlay_loop].
  { split; [lra|]. split; [exact E|]. right. cbn. lra. }
  destruct (Rlt_dec (/ 1000) (Rabs q)) as [L|L].
  2:{ split; [lra|]. split; [exact E|]. left. apply Q. lra. }
  rewrite HF. set (e := r - F rq) in *. pose proof (UP rq (rq + e) ltac:(lra)) as U1. pose proof (LO rq (rq + e) ltac:(lra)) as U2.
  assert (E1 : 0 <= r - F (rq + e)) by (unfold e in *; lra). assert (E2 : r - F (rq + e) <= (1 - c) * e) by (unfold e in *; nra).
  destruct (IH e (rq + e)) as (A & B & D); [lra|exact E1| |].
  { rewrite Rabs_pos_eq by exact E. intros. assert ((1 - c) * e <= e) by nra. lra. }
  split; [lra|]. split; [exact B|]. destruct D as [D|D]; [now left|right]. eapply Rle_trans; [exact D|]. cbn [pow].
  assert (0 <= (1 - c) ^ n) by (apply pow_le; lra). rewrite (Rmult_comm (1 - c)), Rmult_assoc. apply Rmult_le_compat_l; assumption.
Qed.
End Iterate.

(** where the refracted ray arrives, as a function of the apparent radius *)
Definition landing (k2 k3 dc d D rq : R) : R :=
  let t := rq / (dc + d + D) in dc * t + d * tan_refr k2 t + D * tan_refr k3 t.
Section Plate.
Variables (mm : mmpar) (n2 d dc D : R).
Let n1 := m_n1 mm. Let n3 := m_n3 mm.
Hypothesis (OP : one_plate mm n2 d) (N1 : 0 < n1) (N2 : n1 <= n2) (N3 : n1 <= n3) (PD : 0 <= d) (PC : 0 < dc) (DD : 0 <= D).
Let k2 := n1 / n2. Let k3 := n1 / n3. Let zd := dc + d + D.
Let F := landing k2 k3 dc d D.
Lemma ratio_range n : n1 <= n -> 0 < n1 / n <= 1.
Proof.
  intros H. assert (0 < / n) by (apply Rinv_0_lt_compat; lra). split; [unfold Rdiv; nra|]. apply Rmult_le_reg_r with n; [lra|]. unfold Rdiv. rewrite Rmult_assoc, Rinv_l; lra.
Qed.
Lemma zd_pos : 0 < zd. Proof. unfold zd. lra. Qed.
Lemma div_range a b : 0 <= a <= b -> 0 <= a / zd <= b / zd.
Proof. intros H. pose proof zd_pos. assert (0 < / zd) by (now apply Rinv_0_lt_compat). unfold Rdiv. split; nra. Qed.
Lemma F_up a b : 0 <= a <= b -> F b - F a <= b - a.
Proof.
  intros H. pose proof (div_range a b H) as H'. pose proof zd_pos as ZP. unfold F, landing. fold zd.
  pose proof (tan_refr_lip k2 (ratio_range n2 N2) _ _ H') as A. pose proof (tan_refr_lip k3 (ratio_range n3 N3) _ _ H') as B.
  set (ta := a / zd) in *. set (tb := b / zd) in *. set (x2 := tan_refr k2 tb - tan_refr k2 ta) in *. set (x3 := tan_refr k3 tb - tan_refr k3 ta) in *.
  assert (EE : b - a = zd * (tb - ta)) by (unfold ta, tb; field; lra). rewrite EE. unfold zd.
  assert (d * x2 <= d * (tb - ta)) by (apply Rmult_le_compat_l; lra). assert (D * x3 <= D * (tb - ta)) by (apply Rmult_le_compat_l; lra). unfold x2, x3 in *. lra.
Qed.
Lemma F_lo a b : 0 <= a <= b -> dc / zd * (b - a) <= F b - F a.
Proof.
  intros H. pose proof (div_range a b H) as H'. pose proof zd_pos as ZP. unfold F, landing. fold zd.
  pose proof (tan_refr_mono k2 (ratio_range n2 N2) _ _ H') as A. pose proof (tan_refr_mono k3 (ratio_range n3 N3) _ _ H') as B.
  set (ta := a / zd) in *. set (tb := b / zd) in *.
  assert (EE : dc / zd * (b - a) = dc * (tb - ta)) by (unfold ta, tb; field; lra). rewrite EE.
  assert (0 <= d * (tan_refr k2 tb - tan_refr k2 ta)) by (apply Rmult_le_pos; lra). assert (0 <= D * (tan_refr k3 tb - tan_refr k3 ta)) by (apply Rmult_le_pos; lra). lra.
Qed.
Lemma F_0 : F 0 = 0.
Proof. unfold F, landing. fold zd. assert (0 / zd = 0) as -> by (unfold Rdiv; ring). rewrite !tan_refr_0. ring. Qed.
Lemma share : 0 <= dc / zd <= 1.
Proof. pose proof zd_pos. split; [apply Rmult_le_pos; [lra|left; now apply Rinv_0_lt_compat]|]. apply Rmult_le_reg_r with zd; [lra|]. unfold Rdiv. rewrite Rmult_assoc, Rinv_l by lra. unfold zd. lra. Qed.
Lemma rdiff_F r rq : nlay_rdiff mm (dc + d) zd (- D) r rq = r - F rq.
Proof.
  destruct OP as (L & E2 & ED). unfold nlay_rdiff. unfold n2_0, d_0. rewrite E2, ED. cbn [nth map]. fold n1 n3.
  replace (sin (atan (rq / zd)) * n1 / n2) with (sin (atan (rq / zd)) * k2) by (unfold k2, Rdiv; ring).
  replace (sin (atan (rq / zd)) * n1 / n3) with (sin (atan (rq / zd)) * k3) by (unfold k3, Rdiv; ring).
  rewrite (tan_refr_spec k2 (ratio_range n2 N2)), (tan_refr_spec k3 (ratio_range n3 N3)), tan_atan. unfold rsum. cbn [fold_right]. unfold F, landing. fold zd. ring.
Qed.
Lemma shift_n n r : 0 < r -> let s := nlay_loop n mm (dc + d) zd (- D) r (/ 10) r / r in
  r <= s * r /\ 0 <= r - F (s * r) <= Rmax (/ 1000) ((1 - dc / zd) ^ S n * r) /\ dc / zd * (s * r) <= r.
Proof.
  intros Hr. pose proof share as SH. pose proof (F_up 0 r ltac:(lra)) as U. pose proof (F_lo 0 r ltac:(lra)) as V. rewrite F_0 in U, V.
  pose proof (loop_spec mm (dc + d) zd (- D) r (dc / zd) F (rdiff_F r) SH F_up F_lo n (/ 10) r ltac:(lra) ltac:(lra)) as LS. cbv zeta in LS |- *.
  generalize dependent (nlay_loop n mm (dc + d) zd (- D) r (/ 10) r). intros rq LS. replace (rq / r * r) with rq by (field; lra).
  destruct LS as (A & B & C). { rewrite Rabs_pos_eq by lra. lra. }
  split; [exact A|]. split; [split; [exact B|]|].
  - destruct C as [C|C]; [eapply Rle_trans; [exact C|apply Rmax_l]|]. eapply Rle_trans; [exact C|]. eapply Rle_trans; [|apply Rmax_r].
    cbn [pow]. rewrite (Rmult_comm (1 - dc / zd)), Rmult_assoc. apply Rmult_le_compat_l; [apply pow_le; lra|]. lra.
  - pose proof (F_lo 0 rq ltac:(lra)) as W. rewrite F_0 in W. lra.
Qed.
(** the radial factor that the code computes without table *)
Lemma shift_eq r : 0 < r -> fast_multimed_r_nlay mm (V 0 0 (dc + d)) (V r 0 (- D)) = nlay_loop 40 mm (dc + d) zd (- D) r (/ 10) r / r.
Proof.
  intros Hr. unfold fast_multimed_r_nlay. cbn [vx vy vz]. generalize 40%nat. intros n.
  replace (sqrt ((r - 0) * (r - 0) + (0 - 0) * (0 - 0))) with r by (replace ((r - 0) * (r - 0) + (0 - 0) * (0 - 0)) with (r * r) by ring; rewrite sqrt_square; lra).
  destruct OP as (L & E2 & ED). rewrite L, ED. unfold layers_from1. change (1 <? 0)%Z with false. cbv iota.
  change (firstn (Z.to_nat 1) [d]) with [d]. change (rsum (skipn 1 [d])) with 0. rewrite Rplus_0_r.
  replace (dc + d - - D) with zd by (unfold zd; ring). pose proof zd_pos as ZP. destruct (Req_EM_T zd 0) as [?|_]; [lra|]. destruct (Req_EM_T r 0) as [?|_]; [lra|]. reflexivity.
Qed.
Lemma shift_spec r : 0 <= r -> let s := fast_multimed_r_nlay mm (V 0 0 (dc + d)) (V r 0 (- D)) in
  r <= s * r /\ 0 <= r - F (s * r) <= Rmax (/ 1000) ((1 - dc / zd) ^ 41 * r) /\ dc / zd * (s * r) <= r.
Proof.
  intros Hr. destruct (Req_EM_T r 0) as [->|R0].
  - cbv zeta. rewrite Rmult_0_r, F_0. split; [lra|]. split; [|lra]. split; [lra|]. eapply Rle_trans; [|apply Rmax_l]; lra.
  - assert (R1 : 0 < r) by lra. cbv zeta. rewrite (shift_eq r R1). exact (shift_n 40 r R1).
Qed.
End Plate.

(** tracing the ray with direction kap (h sig - g zd) *)
Lemma root_eq zd rq kap k : 0 < zd -> 0 < kap -> kap * kap * (zd * zd + rq * rq) = 1 -> 0 < k <= 1 ->
  sqrt (1 - kap * kap * (rq * rq) * (k * k)) = kap * zd * sqrt (1 + (1 - k * k) * (rq / zd * (rq / zd))).
Proof.
  intros Z K E KK. assert (0 <= kap * zd) by nra. rewrite <- (sqrt_square (kap * zd)) at 1 by assumption.
  rewrite <- sqrt_mult_alt by nra. f_equal. rewrite <- E at 1. field. lra.
Qed.
Lemma root_tan zd rq kap k : 0 < zd -> 0 < kap -> kap * kap * (zd * zd + rq * rq) = 1 -> 0 < k <= 1 ->
  let q := sqrt (1 - kap * kap * (rq * rq) * (k * k)) in 0 < q /\ kap * k * rq / q = tan_refr k (rq / zd).
Proof.
  intros Z K E KK. cbv zeta. rewrite (root_eq zd) by assumption. unfold tan_refr. pose proof (rad_sqrt k KK (rq / zd)) as RS.
  set (v := sqrt (1 + (1 - k * k) * (rq / zd * (rq / zd)))) in *. split; [|field; repeat split; lra].
  apply Rmult_lt_0_compat; [|lra]. now apply Rmult_lt_0_compat.
Qed.
Lemma ratio01 a b : 0 < a -> a <= b -> 0 < a / b <= 1.
Proof.
  intros A H. assert (0 < / b) by (apply Rinv_0_lt_compat; lra). split; [unfold Rdiv; nra|]. apply Rmult_le_reg_r with b; [lra|]. unfold Rdiv. rewrite Rmult_assoc, Rinv_l; lra.
Qed.
Lemma lin_dot g h zd sig kap : dot (vscale (vadd (vscale g (- zd)) (vscale h sig)) kap) g = kap * (sig * dot h g - zd * dot g g).
Proof. vcomp. ring. Qed.
Lemma lin_norm g h zd sig kap : dot (vscale (vadd (vscale g (- zd)) (vscale h sig)) kap) (vscale (vadd (vscale g (- zd)) (vscale h sig)) kap) =
  kap * kap * (zd * zd * dot g g + sig * sig * dot h h - 2 * zd * sig * dot h g).
Proof. vcomp. ring. Qed.
Lemma lin_perp g h zd sig kap : vsub (vscale (vadd (vscale g (- zd)) (vscale h sig)) kap) (vscale g (- (zd * kap))) = vscale h (sig * kap).
Proof. vec_eq. Qed.
Lemma lin_assoc g h a b c : vadd (vscale (vscale h a) b) (vscale g c) = vadd (vscale h (a * b)) (vscale g c).
Proof. vec_eq. Qed.
Lemma lin2_dot g h a q : dot (vadd (vscale h a) (vscale g (- q))) g = a * dot h g - q * dot g g.
Proof. vcomp. ring. Qed.
Lemma lin2_norm g h a q : dot (vadd (vscale h a) (vscale g (- q))) (vadd (vscale h a) (vscale g (- q))) = a * a * dot h h + q * q * dot g g - 2 * q * a * dot h g.
Proof. vcomp. ring. Qed.
Lemma lin2_perp g h a q b c : vadd (vscale (vsub (vadd (vscale h a) (vscale g (- q))) (vscale g (- q))) b) (vscale g c) = vadd (vscale h (a * b)) (vscale g c).
Proof. vec_eq. Qed.
Section Vectors.
Variables (g h : vec) (n1 n2 n3 zd sig kap r : R).
Let s := vscale (vadd (vscale g (- zd)) (vscale h sig)) kap.
Let rq := sig * r.
Hypothesis (GU : is_unit g) (SU : is_unit s) (HG : dot h g = 0) (HR : dot h h = r * r) (N1 : 0 < n1) (N2 : n1 <= n2) (N3 : n1 <= n3) (Z : 0 < zd) (KP : 0 < kap).
Let k2 := n1 / n2. Let k3 := n1 / n3.
Let q2 := sqrt (1 - kap * kap * (rq * rq) * (k2 * k2)).
Let q3 := sqrt (1 - kap * kap * (rq * rq) * (k3 * k3)).
Lemma s_dot : dot s g = - (zd * kap).
Proof. unfold s. rewrite lin_dot, HG, GU. ring. Qed.
Lemma s_norm : kap * kap * (zd * zd + rq * rq) = 1.
Proof. rewrite <- SU. unfold s. rewrite lin_norm, HG, HR, GU. unfold rq. ring. Qed.
Lemma s_perp : vsub s (vscale g (dot s g)) = vscale h (sig * kap).
Proof. rewrite s_dot. apply lin_perp. Qed.
Lemma s_sin : 1 - dot s g ^ 2 = kap * kap * (rq * rq).
Proof. rewrite s_dot. rewrite <- s_norm. ring. Qed.
Lemma first_refraction : refract g s n1 n2 = vadd (vscale h (sig * kap * k2)) (vscale g (- q2)).
Proof.
  rewrite (refract_eq g s n1 n2 GU SU ltac:(lra)). rewrite s_perp.
  assert (P : (sqrt (1 - dot s g ^ 2) * n1 / n2) ^ 2 = kap * kap * (rq * rq) * (k2 * k2)).
  { rewrite (p_sq g s n1 n2 GU SU ltac:(lra)). rewrite s_sin. unfold k2. ring. }
  rewrite P. fold q2. fold k2. apply lin_assoc.
Qed.
Let t := vadd (vscale h (sig * kap * k2)) (vscale g (- q2)).
Lemma K2 : 0 < k2 <= 1. Proof. now apply ratio01. Qed.
Lemma K3 : 0 < k3 <= 1. Proof. now apply ratio01. Qed.
Lemma q2_sq : q2 * q2 = 1 - kap * kap * (rq * rq) * (k2 * k2).
Proof.
  unfold q2. apply sqrt_sqrt. pose proof K2. assert (0 <= kap * kap * (rq * rq)) by nra. assert (kap * kap * (rq * rq) <= 1) by (pose proof s_norm; nra). nra.
Qed.
Lemma q2_pos : 0 < q2 /\ kap * k2 * rq / q2 = tan_refr k2 (rq / zd).
Proof. apply root_tan; first [assumption|apply s_norm|apply K2]. Qed.
Lemma q3_pos : 0 < q3 /\ kap * k3 * rq / q3 = tan_refr k3 (rq / zd).
Proof. apply root_tan; first [assumption|apply s_norm|apply K3]. Qed.
Lemma t_dot : dot t g = - q2.
Proof. unfold t. rewrite lin2_dot, HG, GU. ring. Qed.
Lemma t_unit : is_unit t.
Proof.
  unfold is_unit, t. rewrite lin2_norm, HG, HR, GU, q2_sq. unfold rq. ring.
Qed.
Lemma second_refraction : refract g t n2 n3 = vadd (vscale h (sig * kap * k3)) (vscale g (- q3)).
Proof.
  rewrite (refract_eq g t n2 n3 GU t_unit ltac:(lra)). rewrite t_dot.
  assert (P : (sqrt (1 - (- q2) ^ 2) * n2 / n3) ^ 2 = kap * kap * (rq * rq) * (k3 * k3)).
  { pose proof (p_sq g t n2 n3 GU t_unit ltac:(lra)) as PS. rewrite t_dot in PS. rewrite PS.
    replace (1 - (- q2) ^ 2) with (1 - q2 * q2) by ring. rewrite q2_sq. unfold k2, k3. field. lra. }
  rewrite P. fold q3. unfold t. replace (sig * kap * k3) with (sig * kap * k2 * (n2 / n3)) by (unfold k2, k3; field; lra).
  apply lin2_perp.
Qed.
(** the vertex and the point at the particle's depth *)
Lemma arrive C d dc D Xb X ng : dot g C = ng + d + dc -> zd = dc + d + D ->
  on_line C s Xb -> dot g Xb = ng + d -> on_line Xb t X -> dot g X = ng ->
  vadd X (vscale (vadd (vscale h (sig * kap * k3)) (vscale g (- q3))) (D / q3)) =
  vadd (vadd C (vscale g (- zd))) (vscale h (sig * (dc / zd + kap * k2 * d / q2 + kap * k3 * D / q3))).
Proof.
  intros GC ZE (a & ->) GB (b & ->) GX. destruct q2_pos as (Q2 & _). destruct q3_pos as (Q3 & _).
  rewrite dot_lin in GB. rewrite (dot_comm g s), s_dot, GC in GB.
  assert (A : a = dc / (zd * kap)). { apply Rmult_eq_reg_r with (zd * kap); [|nra]. replace (dc / (zd * kap) * (zd * kap)) with dc by (field; lra). lra. }
  rewrite !dot_lin in GX. rewrite (dot_comm g s), s_dot, GC, (dot_comm g t), t_dot in GX.
  assert (B : b = d / q2). { apply Rmult_eq_reg_r with q2; [|lra]. replace (d / q2 * q2) with d by (field; lra). lra. }
  subst a b. unfold s, t. apply vec_ext; cbn [vx vy vz vadd vscale]; rewrite ZE in *; field; lra.
Qed.
End Vectors.

Lemma tb1 pos pp g a b : vsub (vsub pos (vscale g a)) (vsub (vsub pp (vscale g b)) (vscale g 0)) = vsub pos (vadd pp (vscale g (a - b))).
Proof. vec_eq. Qed.
Lemma glass_g glass k : glass <> vzero -> vscale glass (k / vnorm glass) = vscale (unit_vector glass) k.
Proof. intros H. pose proof (norm_pos_ne glass H). rewrite unit_scale by assumption. apply vec_ext; cbn [vx vy vz vscale]; field; lra. Qed.
Lemma tb2 pos pp g dp dc d : vsub (vsub pos (vscale g dp)) (vsub (vsub pp (vscale g dc)) (vscale g d)) = vsub pos (vadd pp (vscale g (dp - dc - d))).
Proof. vec_eq. Qed.
Lemma tb3 pp g dp dc d h k : vsub (vsub (vsub (vsub pp (vscale g dc)) (vscale g d)) (vscale g (- dp))) (vscale h (- k)) = vadd (vadd pp (vscale g (dp - dc - d))) (vscale h k).
Proof. vec_eq. Qed.
Lemma tb4 pp g dp dc d : vsub (vsub (vsub pp (vscale g dc)) (vscale g d)) (vscale g (- dp)) = vadd pp (vscale g (dp - dc - d)).
Proof. vec_eq. Qed.
Lemma tb5 a k : vadd a (vscale vzero k) = a.
Proof. vec_eq. Qed.
Lemma back_shift pp d glass pos : glass <> vzero ->
  let g := unit_vector glass in let h := vsub pos (level_with g pos pp) in
  let '(pt, cp, cr, z0) := trans_cam_point pp d glass pos in
  z0 = (dot g pp - vnorm glass - d) + d /\ pt = V (vnorm h) 0 (dot g pos - vnorm glass) /\
  forall s, back_trans_point glass d cr cp (V (0 + (vx pt - 0) * s) (0 + (vy pt - 0) * s) (vz pt)) = vadd (level_with g pos pp) (vscale h s).
Proof.
  intros HG. pose proof (norm_pos_ne glass HG) as NG. cbv zeta. unfold trans_cam_point.
  destruct (Req_EM_T (vnorm glass) 0) as [?|_]; [lra|]. rewrite <- !dot_unit by assumption. rewrite !glass_g by assumption.
  set (g := unit_vector glass) in *. set (ng := vnorm glass) in *. cbn [vx vy vz].
  assert (LW : level_with g pos pp = vadd pp (vscale g ((dot g pos - ng) - (dot g pp - ng - d) - d))) by (unfold level_with; f_equal; f_equal; ring).
  rewrite tb2. rewrite LW. set (h := vsub pos _). split; [reflexivity|]. split; [reflexivity|]. intros s.
  unfold back_trans_point. fold ng. cbn [vx vy vz]. unfold ng. rewrite !glass_g by assumption. fold g. fold ng. rewrite tb2. fold h.
  replace (- (dot g pos - ng) / vnorm glass) with (- (dot g pos - ng) / ng) by reflexivity.
  destruct (Rlt_dec 0 (vnorm h)) as [P|P].
  - replace (- (0 + (vnorm h - 0) * s) / vnorm h) with (- s) by (field; lra). apply tb3.
  - assert (h = vzero) as ->. { apply vnorm_zero. pose proof (vnorm_pos h). lra. } rewrite tb5. apply tb4.
Qed.
