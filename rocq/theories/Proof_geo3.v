(** Radial lens distortion: the correction converges to the original point; refutations for the other parameters. *)
From Verif Require Import Base Model_geo Spec_geo Proof_geo Proof_geo2.
Local Open Scope R_scope.

Lemma rabs_inv a b : Rabs a <= b -> - b <= a <= b.
Proof. unfold Rabs. destruct (Rcase_abs a); lra. Qed.

Lemma abs_mono k a B n : 0 <= a <= B -> Rabs (k * a ^ n) <= Rabs k * B ^ n.
Proof.
  intros H. rewrite Rabs_mult. apply Rmult_le_compat_l; [apply Rabs_pos|]. rewrite Rabs_pos_eq; [now apply pow_incr|]. apply pow_le. lra.
Qed.
Lemma pow_lip a b B n : 0 <= a <= B -> 0 <= b <= B -> B * Rabs (a ^ n - b ^ n) <= INR n * B ^ n * Rabs (a - b).
Proof.
  intros Ha Hb. induction n.
  - cbn [pow INR]. replace (1 - 1) with 0 by ring. rewrite Rabs_R0. lra.
  - replace (a ^ S n - b ^ S n) with (a * (a ^ n - b ^ n) + b ^ n * (a - b)) by (cbn [pow]; ring).
    rewrite S_INR. pose proof (Rabs_triang (a * (a ^ n - b ^ n)) (b ^ n * (a - b))) as T. rewrite !Rabs_mult in T.
    rewrite (Rabs_pos_eq a) in T by lra. rewrite (Rabs_pos_eq (b ^ n)) in T by (apply pow_le; lra).
    pose proof (Rabs_pos (a - b)). pose proof (Rabs_pos (a ^ n - b ^ n)).
    assert (B1 : b ^ n <= B ^ n) by (apply pow_incr; lra). assert (B0 : 0 <= b ^ n) by (apply pow_le; lra).
    apply Rle_trans with (B * (a * Rabs (a ^ n - b ^ n) + b ^ n * Rabs (a - b))); [apply Rmult_le_compat_l; lra|].
    assert (E1 : a * (B * Rabs (a ^ n - b ^ n)) <= B * (INR n * B ^ n * Rabs (a - b))).
    { apply Rmult_le_compat; try lra. apply Rmult_le_pos; lra. }
    assert (E2 : B * (b ^ n * Rabs (a - b)) <= B * (B ^ n * Rabs (a - b))).
    { apply Rmult_le_compat_l; [lra|]. apply Rmult_le_compat_r; lra. }
    cbn [pow]. lra.
Qed.
Lemma c_bound ap a B : 0 <= a <= B -> 3 * Rabs (radial_c ap a) <= radial_slope ap B.
Proof.
  intros H. unfold radial_c, radial_slope.
  pose proof (abs_mono (k1 ap) a B 2 H). pose proof (abs_mono (k2 ap) a B 4 H). pose proof (abs_mono (k3 ap) a B 6 H).
  pose proof (Rabs_triang (k1 ap * a ^ 2 + k2 ap * a ^ 4) (k3 ap * a ^ 6)). pose proof (Rabs_triang (k1 ap * a ^ 2) (k2 ap * a ^ 4)).
  pose proof (Rabs_pos (k1 ap * a ^ 2)). pose proof (Rabs_pos (k2 ap * a ^ 4)). pose proof (Rabs_pos (k3 ap * a ^ 6)). lra.
Qed.
Definition radial_m (ap : addp) (B : R) : R := Rabs (k1 ap) * B ^ 2 + Rabs (k2 ap) * B ^ 4 + Rabs (k3 ap) * B ^ 6.
Lemma c_bound' ap a B : 0 <= a <= B -> Rabs (radial_c ap a) <= radial_m ap B.
Proof.
  intros H. unfold radial_c, radial_m.
  pose proof (abs_mono (k1 ap) a B 2 H). pose proof (abs_mono (k2 ap) a B 4 H). pose proof (abs_mono (k3 ap) a B 6 H).
  pose proof (Rabs_triang (k1 ap * a ^ 2 + k2 ap * a ^ 4) (k3 ap * a ^ 6)). pose proof (Rabs_triang (k1 ap * a ^ 2) (k2 ap * a ^ 4)). lra.
Qed.
Lemma c_lip ap a b B : 0 <= a <= B -> 0 <= b <= B -> B * Rabs (radial_c ap a - radial_c ap b) <= (radial_slope ap B - radial_m ap B) * Rabs (a - b).
Proof.
  intros Ha Hb. unfold radial_c, radial_slope, radial_m.
  replace (k1 ap * a ^ 2 + k2 ap * a ^ 4 + k3 ap * a ^ 6 - (k1 ap * b ^ 2 + k2 ap * b ^ 4 + k3 ap * b ^ 6))
    with (k1 ap * (a ^ 2 - b ^ 2) + k2 ap * (a ^ 4 - b ^ 4) + k3 ap * (a ^ 6 - b ^ 6)) by ring.
  pose proof (Rabs_triang (k1 ap * (a ^ 2 - b ^ 2) + k2 ap * (a ^ 4 - b ^ 4)) (k3 ap * (a ^ 6 - b ^ 6))) as T1.
  pose proof (Rabs_triang (k1 ap * (a ^ 2 - b ^ 2)) (k2 ap * (a ^ 4 - b ^ 4))) as T2.
  rewrite !Rabs_mult in *.
  assert (P : forall k n, B * (Rabs k * Rabs (a ^ n - b ^ n)) <= Rabs k * (INR n * B ^ n * Rabs (a - b))).
  { intros. replace (B * (Rabs k * Rabs (a ^ n - b ^ n))) with (Rabs k * (B * Rabs (a ^ n - b ^ n))) by ring.
    apply Rmult_le_compat_l; [apply Rabs_pos|]. now apply pow_lip. }
  pose proof (P (k1 ap) 2%nat) as P1. pose proof (P (k2 ap) 4%nat) as P2. pose proof (P (k3 ap) 6%nat) as P3.
  replace (INR 2) with 2 in P1 by (cbn; ring). replace (INR 4) with 4 in P2 by (cbn; ring). replace (INR 6) with 6 in P3 by (cbn; ring).
  apply Rle_trans with (B * (Rabs (k1 ap) * Rabs (a ^ 2 - b ^ 2) + Rabs (k2 ap) * Rabs (a ^ 4 - b ^ 4) + Rabs (k3 ap) * Rabs (a ^ 6 - b ^ 6)));
    [apply Rmult_le_compat_l; lra|]. lra.
Qed.
(** mixed contraction: |q c(a) - R c(R)| for q at least as close to R as a *)
Lemma mix_lip ap q a R0 B : 0 <= a <= B -> 0 <= R0 <= B -> Rabs (q - R0) <= Rabs (a - R0) ->
  Rabs (q * radial_c ap a - R0 * radial_c ap R0) <= radial_slope ap B * Rabs (a - R0).
Proof.
  intros Ha HR Q. replace (q * radial_c ap a - R0 * radial_c ap R0) with ((q - R0) * radial_c ap a + R0 * (radial_c ap a - radial_c ap R0)) by ring.
  eapply Rle_trans; [apply Rabs_triang|]. rewrite !Rabs_mult. rewrite (Rabs_pos_eq R0) by lra.
  pose proof (c_bound' ap a B Ha). pose proof (c_lip ap a R0 B Ha HR).
  assert (Rabs (q - R0) * Rabs (radial_c ap a) <= Rabs (a - R0) * radial_m ap B) by (apply Rmult_le_compat; try apply Rabs_pos; assumption).
  assert (R0 * Rabs (radial_c ap a - radial_c ap R0) <= B * Rabs (radial_c ap a - radial_c ap R0)) by (apply Rmult_le_compat_r; [apply Rabs_pos|lra]).
  lra.
Qed.
Lemma norm_scaled q ux uy : 0 <= q -> ux ^ 2 + uy ^ 2 = 1 -> sqrt ((q * ux) ^ 2 + (q * uy) ^ 2) = q.
Proof. intros. replace ((q * ux) ^ 2 + (q * uy) ^ 2) with (q * q * (ux ^ 2 + uy ^ 2)) by ring. rewrite H0, Rmult_1_r. now apply sqrt_square. Qed.
Lemma radial_step ap rho q ux uy : radial_only ap ->
  correct_step (rho * ux) (rho * uy) ap q (q * ux) (q * uy) = ((rho - q * radial_c ap q) * ux, (rho - q * radial_c ap q) * uy).
Proof. intros (P1 & P2 & S & H). unfold correct_step. rewrite P1, P2, S, H, sin_0, cos_0. fold (radial_c ap q). f_equal; field. Qed.

Section Loop.
Variables (ap : addp) (rho R0 B L tol ux uy : R).
Hypothesis (RO : radial_only ap) (U : ux ^ 2 + uy ^ 2 = 1) (R0p : 0 < R0) (HB : 11 / 10 * R0 <= B)
  (HS : radial_slope ap B <= L) (HL : L <= / 10) (Hrho : rho = R0 * (1 + radial_c ap R0)).
Lemma L_pos : 0 <= L. Proof. pose proof (c_bound ap R0 B ltac:(lra)). pose proof (Rabs_pos (radial_c ap R0)). lra. Qed.
Lemma contract q a : Rabs (a - R0) <= R0 / 30 -> Rabs (q - R0) <= Rabs (a - R0) -> Rabs (rho - q * radial_c ap a - R0) <= L * Rabs (a - R0).
Proof.
  intros A Q. replace (rho - q * radial_c ap a - R0) with (- (q * radial_c ap a - R0 * radial_c ap R0)) by (rewrite Hrho; ring).
  rewrite Rabs_Ropp. assert (0 <= a <= B) by (apply rabs_inv in A; lra).
  pose proof (mix_lip ap q a R0 B H ltac:(lra) Q). pose proof (Rabs_pos (a - R0)).
  assert (radial_slope ap B * Rabs (a - R0) <= L * Rabs (a - R0)) by (apply Rmult_le_compat_r; lra). lra.
Qed.
Lemma radial_loop : 0 <= tol -> forall n q, Rabs (q - R0) <= R0 / 30 ->
  exists a, correct_loop n (rho * ux) (rho * uy) ap tol q (q * ux) (q * uy) =
    (a, rho - a * radial_c ap a, (rho - a * radial_c ap a) * ux, (rho - a * radial_c ap a) * uy) /\
    Rabs (a - R0) <= R0 / 30 /\ (Rabs (rho - a * radial_c ap a - a) <= tol * a \/ Rabs (a - R0) <= (/ 10) ^ n * Rabs (q - R0)).
Proof.
  intros T. pose proof L_pos as LP. induction n; intros q Q.
  - exists q. cbn [correct_loop]. rewrite radial_step by assumption. set (q' := rho - q * radial_c ap q).
    pose proof (contract q q Q (Rle_refl _)) as C. fold q' in C. pose proof (Rabs_pos (q - R0)).
    assert (C' : Rabs (q' - R0) <= R0 / 30) by nra. apply rabs_inv in C' as C''. apply rabs_inv in Q as Q'.
    rewrite norm_scaled by lra. destruct (Rlt_dec (12 / 10 * q) q'); [lra|]. split; [reflexivity|]. split; [assumption|].
    right. cbn [pow]. lra.
  - cbn [correct_loop]. rewrite radial_step by assumption. set (q' := rho - q * radial_c ap q).
    pose proof (contract q q Q (Rle_refl _)) as C. fold q' in C. pose proof (Rabs_pos (q - R0)).
    assert (C' : Rabs (q' - R0) <= R0 / 30) by nra. apply rabs_inv in C' as C''. apply rabs_inv in Q as Q'.
    rewrite norm_scaled by lra. destruct (Rlt_dec (12 / 10 * q) q'); [lra|].
    destruct (Rle_dec (Rabs (q' - q)) (tol * q)) as [D|D].
    + exists q. split; [reflexivity|]. split; [assumption|]. left. exact D.
    + destruct (IHn q' C') as (a & E & A1 & A2). exists a. split; [exact E|]. split; [assumption|].
      destruct A2 as [A2|A2]; [left; assumption|].
      right. eapply Rle_trans; [exact A2|]. cbn [pow]. assert (0 <= (/ 10) ^ n) by (apply pow_le; lra).
      replace (/ 10 * (/ 10) ^ n * Rabs (q - R0)) with ((/ 10) ^ n * (/ 10 * Rabs (q - R0))) by ring. apply Rmult_le_compat_l; [assumption|]. nra.
Qed.
Lemma radial_final : 0 <= tol ->
  exists q, correct_brown_affine (rho * ux) (rho * uy) ap tol = (q * ux, q * uy) /\ Rabs (q - R0) <= tol * R0 / 8 + R0 / 10 ^ 200.
Proof.
  intros T. pose proof L_pos as LP.
  assert (C0 : 3 * Rabs (radial_c ap R0) <= / 10) by (pose proof (c_bound ap R0 B ltac:(lra)); lra).
  assert (Q0 : Rabs (rho - R0) <= R0 / 30).
  { rewrite Hrho. replace (R0 * (1 + radial_c ap R0) - R0) with (R0 * radial_c ap R0) by ring. rewrite Rabs_mult, (Rabs_pos_eq R0) by lra. nra. }
  apply rabs_inv in Q0 as Q0'.
  destruct (radial_loop T 200 rho Q0) as (a & E & A1 & A2).
  unfold correct_brown_affine. replace (at_origin (rho * ux) (rho * uy)) with false.
  2:{ symmetry. apply at_origin_false. intros [E1 E2]. apply Rmult_integral in E1, E2. destruct E1 as [?|E1]; [lra|]. destruct E2 as [?|E2]; [lra|]. rewrite E1, E2 in U. lra. }
  rewrite norm_scaled by (try assumption; lra). rewrite E.
  fold (radial_c ap a). set (q' := rho - a * radial_c ap a) in *.
  exists (rho - q' * radial_c ap a). destruct RO as (P1 & P2 & S & H). rewrite P1, P2, S, H, sin_0, cos_0. split; [f_equal; field|].
  pose proof (contract a a A1 (Rle_refl _)) as C1. fold q' in C1. pose proof (Rabs_pos (a - R0)) as AP.
  assert (Q' : Rabs (q' - R0) <= Rabs (a - R0)) by nra.
  pose proof (contract q' a A1 Q') as C2. apply rabs_inv in A1 as A1'.
  assert (K : Rabs (a - R0) <= 10 / 9 * (tol * a) \/ Rabs (a - R0) <= (/ 10) ^ 200 * (R0 / 30)).
  { destruct A2 as [A2|A2].
    - left. pose proof (Rabs_triang (a - q') (q' - R0)) as TT. replace (a - q' + (q' - R0)) with (a - R0) in TT by ring.
      rewrite (Rabs_minus_sym a q') in TT. assert (L * Rabs (a - R0) <= / 10 * Rabs (a - R0)) by (apply Rmult_le_compat_r; assumption). lra.
    - right. eapply Rle_trans; [exact A2|]. apply Rmult_le_compat_l; [apply pow_le; lra|assumption]. }
  assert (LL : L * Rabs (a - R0) <= / 10 * Rabs (a - R0)) by (apply Rmult_le_compat_r; assumption).
  assert (TA : tol * a <= tol * (31 / 30 * R0)) by (apply Rmult_le_compat_l; lra). assert (0 <= tol * R0) by (apply Rmult_le_pos; lra).
  assert (PP : 0 < (/ 10) ^ 200) by (apply pow_lt; lra).
  assert (PE : R0 / 10 ^ 200 = (/ 10) ^ 200 * R0) by (unfold Rdiv; rewrite pow_inv; ring). rewrite PE. clear PE.
  generalize dependent ((/ 10) ^ 200). intros e A2 K PP. assert (0 < e * R0) by (apply Rmult_lt_0_compat; assumption).
  destruct K as [K|K]; lra.
Qed.
End Loop.

Lemma radial_correct X Y ap tol B : radial_only ap -> 0 <= tol -> 11 / 10 * sqrt (X ^ 2 + Y ^ 2) <= B -> radial_slope ap B <= / 10 ->
  let '(x, y) := distort_brown_affine X Y ap in
  let '(X', Y') := correct_brown_affine x y ap tol in
  let r := sqrt (X ^ 2 + Y ^ 2) in
  sqrt ((X' - X) ^ 2 + (Y' - Y) ^ 2) <= tol * r / 8 + r / 10 ^ 200.
Proof.
  intros RO T HB HS. destruct (at_origin X Y) eqn:O.
  - unfold distort_brown_affine. rewrite O. unfold correct_brown_affine. apply at_origin_true in O as [-> ->].
    replace (at_origin 0 0) with true by (symmetry; now apply at_origin_true).
    replace (0 ^ 2 + 0 ^ 2) with 0 by ring. replace ((0 - 0) ^ 2 + (0 - 0) ^ 2) with 0 by ring. rewrite sqrt_0. unfold Rdiv. rewrite !Rmult_0_l, Rmult_0_r, Rmult_0_l. lra.
  - set (r := sqrt (X ^ 2 + Y ^ 2)) in *. apply at_origin_false in O as O'.
    assert (SQ : 0 < X ^ 2 + Y ^ 2). { destruct (Req_dec X 0) as [->|]; [|nra]. destruct (Req_dec Y 0) as [->|]; [exfalso; auto|nra]. }
    assert (RP : 0 < r) by (now apply sqrt_lt_R0). assert (RR : r * r = X ^ 2 + Y ^ 2) by (apply sqrt_sqrt; lra).
    assert (D : distort_brown_affine X Y ap = (r * (1 + radial_c ap r) * (X / r), r * (1 + radial_c ap r) * (Y / r))).
    { unfold distort_brown_affine. rewrite O. fold r. fold (radial_c ap r). destruct RO as (P1 & P2 & S & H). rewrite P1, P2, S, H, sin_0, cos_0. f_equal; field; lra. }
    rewrite D. destruct (radial_final ap (r * (1 + radial_c ap r)) r B (/ 10) tol (X / r) (Y / r)) as (q & E & Q); try assumption; try lra.
    { replace ((X / r) ^ 2 + (Y / r) ^ 2) with ((X ^ 2 + Y ^ 2) / (r * r)) by (field; lra). rewrite RR. field. lra. }
    rewrite E. replace ((q * (X / r) - X) ^ 2 + (q * (Y / r) - Y) ^ 2) with ((q - r) * (q - r) * ((X ^ 2 + Y ^ 2) / (r * r))) by (field; lra).
    rewrite RR. unfold Rdiv at 1. rewrite Rinv_r by lra. rewrite Rmult_1_r. change ((q - r) * (q - r)) with (Rsqr (q - r)). rewrite sqrt_Rsqr_abs. exact Q.
Qed.

(** refutations *)
Definition dec_ap : addp := mk_addp 0 0 0 (/ 10) 0 1 0.
Lemma sqrt2_sq : sqrt (1 ^ 2 + 1 ^ 2) ^ 2 = 2.
Proof. replace (1 ^ 2 + 1 ^ 2) with 2 by ring. rewrite <- Rsqr_pow2. apply Rsqr_sqrt. lra. Qed.
Lemma decentering_not_fixed :
  distort_brown_affine 1 1 dec_ap = (14 / 10, 128 / 100) /\
  correct_step (14 / 10) (128 / 100) dec_ap (sqrt (1 ^ 2 + 1 ^ 2)) 1 1 = (1, 108 / 100).
Proof.
  unfold distort_brown_affine, correct_step. replace (at_origin 1 1) with false by (symmetry; apply at_origin_false; lra).
  cbn [dec_ap k1 k2 k3 p1 p2 scx she]. rewrite sin_0, cos_0. rewrite sqrt2_sq. split; f_equal; field.
Qed.
Definition shear_ap : addp := mk_addp (/ 10) 0 0 0 0 1 (PI / 6).
Lemma shear_not_fixed : exists x y, distort_brown_affine 1 1 shear_ap = (x, y) /\
  correct_step x y shear_ap (sqrt (1 ^ 2 + 1 ^ 2)) 1 1 = (9 / 10, 1).
Proof.
  unfold distort_brown_affine, correct_step. replace (at_origin 1 1) with false by (symmetry; apply at_origin_false; lra).
  cbn [shear_ap k1 k2 k3 p1 p2 scx she]. eexists. eexists. split; [reflexivity|].
  rewrite sqrt2_sq. assert (C : cos (PI / 6) <> 0). { rewrite cos_PI6. pose proof (sqrt_lt_R0 3 ltac:(lra)). lra. }
  rewrite sin_PI6. f_equal; field. assumption.
Qed.
