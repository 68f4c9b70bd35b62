(** trafo.py: pixel/metric conversion and lens distortion *)
From Verif Require Import Base Model_geo Spec_geo Proof_geo.
Local Open Scope R_scope.

Lemma pixel_metric_inv x y imx imy px py : px <> 0 -> py <> 0 ->
  (let '(a, b) := pixel_to_metric x y imx imy px py in metric_to_pixel a b imx imy px py) = (x, y) /\
  (let '(a, b) := metric_to_pixel x y imx imy px py in pixel_to_metric a b imx imy px py) = (x, y).
Proof. intros. unfold pixel_to_metric, metric_to_pixel. split; f_equal; field; assumption. Qed.

Lemma at_origin_true x y : at_origin x y = true <-> x = 0 /\ y = 0.
Proof. unfold at_origin. destruct (Req_EM_T x 0), (Req_EM_T y 0); split; intuition congruence. Qed.
Lemma at_origin_false x y : at_origin x y = false <-> ~ (x = 0 /\ y = 0).
Proof. rewrite <- at_origin_true. destruct (at_origin x y); intuition congruence. Qed.

Lemma affine_step x y ap r xq yq : affine_only ap ->
  correct_step x y ap r xq yq = ((x + yq * sin (she ap)) / scx ap, y / cos (she ap)).
Proof. intros (H1 & H2 & H3 & H4 & H5). unfold correct_step. rewrite H1, H2, H3, H4, H5. f_equal; ring. Qed.
Lemma affine_loop n x y ap tol : affine_only ap -> forall rq xq yq,
  let '(_, _, _, b) := correct_loop n x y ap tol rq xq yq in b = y / cos (she ap).
Proof.
  intros A. induction n; intros; cbn [correct_loop]; rewrite (affine_step _ _ _ _ _ _ A).
  - reflexivity.
  - match goal with |- context [Rle_dec ?a ?b] => destruct (Rle_dec a b) end; [reflexivity|]. apply IHn.
Qed.
Lemma affine_correct x y ap tol : affine_only ap -> ~ (x = 0 /\ y = 0) ->
  correct_brown_affine x y ap tol = ((x + y / cos (she ap) * sin (she ap)) / scx ap, y / cos (she ap)).
Proof.
  intros A N. unfold correct_brown_affine. apply at_origin_false in N. rewrite N.
  pose proof (affine_loop 200 x y ap tol A (sqrt (x ^ 2 + y ^ 2)) x y) as H.
  destruct (correct_loop 200 x y ap tol (sqrt (x ^ 2 + y ^ 2)) x y) as [[[r0 r] xq] yq]. subst yq.
  destruct A as (H1 & H2 & H3 & H4 & H5). rewrite H1, H2, H3, H4, H5. f_equal; ring.
Qed.
Lemma affine_inverse X Y ap tol : affine_only ap -> scx ap <> 0 -> cos (she ap) <> 0 ->
  (let '(x, y) := distort_brown_affine X Y ap in correct_brown_affine x y ap tol) = (X, Y) /\
  (let '(x, y) := correct_brown_affine X Y ap tol in distort_brown_affine x y ap) = (X, Y).
Proof.
  intros A S C.
  assert (D : forall a b, distort_brown_affine a b ap = (scx ap * a - sin (she ap) * b, cos (she ap) * b)).
  { intros. destruct A as (H1 & H2 & H3 & H4 & H5). unfold distort_brown_affine. rewrite H1, H2, H3, H4, H5.
    destruct (at_origin a b) eqn:O; [apply at_origin_true in O as [-> ->]; f_equal; ring|]. f_equal; ring. }
  split.
  - rewrite D. destruct (at_origin X Y) eqn:O.
    + apply at_origin_true in O as [-> ->]. replace (scx ap * 0 - sin (she ap) * 0) with 0 by ring. replace (cos (she ap) * 0) with 0 by ring.
      unfold correct_brown_affine. replace (at_origin 0 0) with true by (symmetry; now apply at_origin_true). reflexivity.
    + rewrite affine_correct; [f_equal; field; auto|assumption|]. apply at_origin_false in O. intros [E1 E2]. apply O.
      assert (Y = 0) by (apply Rmult_integral in E2 as [?|?]; [contradiction|assumption]). subst Y. split; [|reflexivity].
      replace (scx ap * X - sin (she ap) * 0) with (scx ap * X) in E1 by ring. apply Rmult_integral in E1 as [?|?]; [contradiction|assumption].
  - destruct (at_origin X Y) eqn:O.
    + unfold correct_brown_affine. rewrite O, D. apply at_origin_true in O as [-> ->]. f_equal; ring.
    + apply at_origin_false in O. rewrite affine_correct by assumption. rewrite D. f_equal; field; auto.
Qed.
Lemma no_distortion_affine : affine_only no_distortion. Proof. repeat split. Qed.
Lemma no_distortion_id x y tol : distort_brown_affine x y no_distortion = (x, y) /\ correct_brown_affine x y no_distortion tol = (x, y).
Proof.
  assert (D : distort_brown_affine x y no_distortion = (x, y)).
  { unfold distort_brown_affine. destruct (at_origin x y) eqn:O; [apply at_origin_true in O as [-> ->]; reflexivity|].
    cbn [k1 k2 k3 p1 p2 scx she no_distortion]. rewrite sin_0, cos_0. f_equal; ring. }
  split; [exact D|]. destruct (affine_inverse x y no_distortion tol) as [H _].
  - apply no_distortion_affine.
  - cbn. lra.
  - cbn. rewrite cos_0. lra.
  - rewrite D in H. exact H.
Qed.
Lemma flat_dist_id x y c tol : affine_only (c_added c) -> scx (c_added c) <> 0 -> cos (she (c_added c)) <> 0 ->
  (let '(a, b) := flat_to_dist x y c in dist_to_flat a b c tol) = (x, y) /\
  (let '(a, b) := dist_to_flat x y c tol in flat_to_dist a b c) = (x, y).
Proof.
  intros A S C. unfold flat_to_dist, dist_to_flat. split.
  - destruct (affine_inverse (x + xh (c_int c)) (y + yh (c_int c)) (c_added c) tol A S C) as [H _].
    destruct (distort_brown_affine _ _ _) as [a b]. rewrite H. f_equal; ring.
  - destruct (affine_inverse x y (c_added c) tol A S C) as [_ H].
    destruct (correct_brown_affine _ _ _ _) as [a b]. replace (a - xh (c_int c) + xh (c_int c)) with a by ring. replace (b - yh (c_int c) + yh (c_int c)) with b by ring. exact H.
Qed.

(** fixed points of the correction's iteration *)
Lemma fixed_point_iff X Y x y ap : p1 ap = 0 -> she ap = 0 -> scx ap <> 0 -> ~ (X = 0 /\ Y = 0) ->
  (correct_step x y ap (sqrt (X ^ 2 + Y ^ 2)) X Y = (X, Y) <-> distort_brown_affine X Y ap = (x, y)).
Proof.
  intros P S C N. apply at_origin_false in N. unfold correct_step, distort_brown_affine. rewrite N, P, S, sin_0, cos_0.
  set (r := sqrt _). set (c := k1 ap * r ^ 2 + _ + _).
  assert (E : forall u, (x + Y * 0) / scx ap - u = X <-> scx ap * (X + u) = x).
  { intros u. split; intros E; [rewrite <- E; field; assumption|]. rewrite <- E. field; assumption. }
  split; intros H; apply pair_equal_spec in H as [H1 H2]; apply pair_equal_spec; split.
  - transitivity (scx ap * (X + (X * c + 0 * (r ^ 2 + 2 * X ^ 2) + 2 * p2 ap * X * Y))); [ring|]. apply E. etransitivity; [|exact H1]. ring.
  - lra.
  - transitivity ((x + Y * 0) / scx ap - (X * c + 0 * (r ^ 2 + 2 * X ^ 2) + 2 * p2 ap * X * Y)); [ring|]. apply E. lra.
  - lra.
Qed.
