(** Entries close to those of a rotation matrix make an almost orthonormal matrix. *)
From Coq Require Import Reals Psatz.
From Flocq Require Import Core.
From Verif Require Import F64 F64R Model_par Spec_par Proof_par4 Lib Base.
From Verif Require Spec_geo Model_geo Proof_geo.
Local Open Scope R_scope.

Lemma abs3 a b c : a * a + b * b + c * c = 1 -> Rabs a + Rabs b + Rabs c <= 7 / 4.
Proof.
  intros H. assert (A : Rabs a * Rabs a + Rabs b * Rabs b + Rabs c * Rabs c = 1).
  { rewrite <- H. rewrite <- !Rabs_mult. rewrite !Rabs_pos_eq by apply Rle_0_sqr. ring. }
  pose proof (Rabs_pos a). pose proof (Rabs_pos b). pose proof (Rabs_pos c). generalize dependent (Rabs a). generalize dependent (Rabs b). generalize dependent (Rabs c). intros z Z y Y x E X.
  destruct (Rle_lt_dec (x + y + z) (7 / 4)) as [L|L]; [exact L|]. exfalso.
  assert ((x + y + z) * (x + y + z) <= 3) by (pose proof (Rle_0_sqr (x - y)); pose proof (Rle_0_sqr (y - z)); pose proof (Rle_0_sqr (x - z)); unfold Rsqr in *; lra). nra.
Qed.
Lemma dot_near D a b c a' b' c' x y z x' y' z' : 0 <= D <= / 10 ->
  Rabs a + Rabs b + Rabs c <= 7 / 4 -> Rabs a' + Rabs b' + Rabs c' <= 7 / 4 ->
  Rabs (x - a) <= D -> Rabs (y - b) <= D -> Rabs (z - c) <= D -> Rabs (x' - a') <= D -> Rabs (y' - b') <= D -> Rabs (z' - c') <= D ->
  Rabs ((x * x' + y * y' + z * z') - (a * a' + b * b' + c * c')) <= 4 * D.
Proof.
  intros HD S S' X Y Z X' Y' Z'.
  replace (x * x' + y * y' + z * z' - (a * a' + b * b' + c * c')) with
    ((a * (x' - a') + b * (y' - b') + c * (z' - c')) + (a' * (x - a) + b' * (y - b) + c' * (z - c)) + ((x - a) * (x' - a') + (y - b) * (y' - b') + (z - c) * (z' - c'))) by ring.
  assert (T : forall p q r, Rabs (p + q + r) <= Rabs p + Rabs q + Rabs r).
  { intros p q r. pose proof (Rabs_triang (p + q) r). pose proof (Rabs_triang p q). lra. }
  assert (M : forall p q e, Rabs q <= e -> Rabs (p * q) <= Rabs p * e). { intros p q e H. rewrite Rabs_mult. apply Rmult_le_compat_l; [apply Rabs_pos|exact H]. }
  eapply Rle_trans; [apply T|].
  assert (A1 : Rabs (a * (x' - a') + b * (y' - b') + c * (z' - c')) <= 7 / 4 * D).
  { eapply Rle_trans; [apply T|]. pose proof (M a _ _ X'). pose proof (M b _ _ Y'). pose proof (M c _ _ Z'). nra. }
  assert (A2 : Rabs (a' * (x - a) + b' * (y - b) + c' * (z - c)) <= 7 / 4 * D).
  { eapply Rle_trans; [apply T|]. pose proof (M a' _ _ X). pose proof (M b' _ _ Y). pose proof (M c' _ _ Z). nra. }
  assert (P : forall p q, Rabs p <= D -> Rabs q <= D -> Rabs (p * q) <= D * D). { intros p q P Q. rewrite Rabs_mult. apply Rmult_le_compat; auto using Rabs_pos. }
  assert (A3 : Rabs ((x - a) * (x' - a') + (y - b) * (y' - b') + (z - c) * (z' - c')) <= 3 * (D * D)).
  { eapply Rle_trans; [apply T|]. pose proof (P _ _ X X'). pose proof (P _ _ Y Y'). pose proof (P _ _ Z Z'). lra. }
  nra.
Qed.
(** cross product entries *)
Lemma two_near D a b c d p q r s : 0 <= D <= / 10 -> Rabs a <= 1 -> Rabs b <= 1 -> Rabs c <= 1 -> Rabs d <= 1 ->
  Rabs (p - a) <= D -> Rabs (q - b) <= D -> Rabs (r - c) <= D -> Rabs (s - d) <= D -> Rabs ((p * q - r * s) - (a * b - c * d)) <= 5 * D.
Proof.
  intros HD A B C E P Q R S.
  assert (M : forall u v u' v', Rabs u <= 1 -> Rabs v <= 1 -> Rabs (u' - u) <= D -> Rabs (v' - v) <= D -> Rabs (u' * v' - u * v) <= 21 / 10 * D).
  { intros u v u' v' U V U' V'. replace (u' * v' - u * v) with (u * (v' - v) + v * (u' - u) + (u' - u) * (v' - v)) by ring.
    pose proof (Rabs_triang (u * (v' - v) + v * (u' - u)) ((u' - u) * (v' - v))). pose proof (Rabs_triang (u * (v' - v)) (v * (u' - u))). rewrite !Rabs_mult in *.
    pose proof (Rabs_pos u). pose proof (Rabs_pos v). pose proof (Rabs_pos (u' - u)). pose proof (Rabs_pos (v' - v)).
    assert (Rabs u * Rabs (v' - v) <= D) by nra. assert (Rabs v * Rabs (u' - u) <= D) by nra. assert (Rabs (u' - u) * Rabs (v' - v) <= D * / 10) by nra. lra. }
  pose proof (M a b p q A B P Q) as M1. pose proof (M c d r s C E R S) as M2. apply Rabs_le. apply Rabs_le_inv in M1. apply Rabs_le_inv in M2. lra.
Qed.

Lemma det_near D a b c k l m x y z p q r : 0 <= D <= / 10 -> Rabs a + Rabs b + Rabs c <= 7 / 4 -> Rabs k + Rabs l + Rabs m <= 7 / 4 ->
  Rabs (x - a) <= D -> Rabs (y - b) <= D -> Rabs (z - c) <= D -> Rabs (p - k) <= 5 * D -> Rabs (q - l) <= 5 * D -> Rabs (r - m) <= 5 * D ->
  Rabs ((x * p + y * q + z * r) - (a * k + b * l + c * m)) <= 12 * D.
Proof.
  intros HD S1 S2 X Y Z P Q R.
  replace (x * p + y * q + z * r - (a * k + b * l + c * m)) with
    ((a * (p - k) + b * (q - l) + c * (r - m)) + (k * (x - a) + l * (y - b) + m * (z - c)) + ((x - a) * (p - k) + (y - b) * (q - l) + (z - c) * (r - m))) by ring.
  assert (T : forall p q r, Rabs (p + q + r) <= Rabs p + Rabs q + Rabs r).
  { intros p' q' r'. pose proof (Rabs_triang (p' + q') r'). pose proof (Rabs_triang p' q'). lra. }
  assert (M : forall p q e, Rabs q <= e -> Rabs (p * q) <= Rabs p * e). { intros p' q' e H. rewrite Rabs_mult. apply Rmult_le_compat_l; [apply Rabs_pos|exact H]. }
  eapply Rle_trans; [apply T|].
  assert (A1 : Rabs (a * (p - k) + b * (q - l) + c * (r - m)) <= 7 / 4 * (5 * D)).
  { eapply Rle_trans; [apply T|]. pose proof (M a _ _ P). pose proof (M b _ _ Q). pose proof (M c _ _ R). nra. }
  assert (A2 : Rabs (k * (x - a) + l * (y - b) + m * (z - c)) <= 7 / 4 * D).
  { eapply Rle_trans; [apply T|]. pose proof (M k _ _ X). pose proof (M l _ _ Y). pose proof (M m _ _ Z). nra. }
  assert (P' : forall p q, Rabs p <= D -> Rabs q <= 5 * D -> Rabs (p * q) <= D * (5 * D)). { intros p' q' P' Q'. rewrite Rabs_mult. apply Rmult_le_compat; auto using Rabs_pos. }
  assert (A3 : Rabs ((x - a) * (p - k) + (y - b) * (q - l) + (z - c) * (r - m)) <= 15 * (D * D)).
  { eapply Rle_trans; [apply T|]. pose proof (P' _ _ X P). pose proof (P' _ _ Y Q). pose proof (P' _ _ Z R). lra. }
  nra.
Qed.

Definition flat (m : list (list f64)) (r : list (list R)) (D : R) : Prop := Forall2 (Forall2 (fun x r => fin x /\ Rabs (val x - r) <= D)) m r.
Lemma almost_orthonormal m o D : 0 <= D <= / 10 -> Spec_geo.orthonormal o -> Spec_geo.mdet o = 1 -> flat m (entries o) D ->
  length m = 3%nat /\ Forall (fun r => length r = 3%nat /\ Forall fin r) m /\
  (forall i j a b, nth_error m i = Some a -> nth_error m j = Some b -> Rabs (vdot a b - (if Nat.eqb i j then 1 else 0)) <= 4 * D) /\ Rabs (vdet m - 1) <= 12 * D.
Proof.
  intros HD (O1 & O2 & O3 & O12 & O13 & O23) DET F. destruct o as [[a b c] [d e f] [g h i]].
  unfold entries, Model_geo.dot in *. cbn [map Model_geo.row1 Model_geo.row2 Model_geo.row3 Model_geo.vx Model_geo.vy Model_geo.vz] in *.
  unfold flat in F. repeat match goal with H : Forall2 _ _ (_ :: _) |- _ => inversion H; clear H; subst | H : Forall2 _ _ [] |- _ => inversion H; clear H; subst end.
  repeat match goal with H : _ /\ _ |- _ => destruct H end.
  assert (HD : 0 <= D <= / 10) by (split; assumption).
  pose proof (abs3 _ _ _ O1) as S1. pose proof (abs3 _ _ _ O2) as S2. pose proof (abs3 _ _ _ O3) as S3.
  split; [reflexivity|]. split; [repeat first [assumption | apply Forall_nil | apply Forall_cons | (split; [reflexivity|])]|]. split.
  - assert (R12 : d * a + e * b + f * c = 0) by lra. assert (R13 : g * a + h * b + i * c = 0) by lra. assert (R23 : g * d + h * e + i * f = 0) by lra.
    intros u v p q U V. destruct u as [|[|[|u]]]; destruct v as [|[|[|v]]]; cbn [nth_error] in U, V; try (destruct u; discriminate U); try (destruct v; discriminate V);
      injection U as <-; injection V as <-; cbn [Nat.eqb vdot];
      [rewrite <- O1|rewrite <- O12|rewrite <- O13|rewrite <- R12|rewrite <- O2|rewrite <- O23|rewrite <- R13|rewrite <- R23|rewrite <- O3]; apply dot_near; assumption.
  - cbn [vdet]. rewrite <- DET. unfold Spec_geo.mdet, Model_geo.dot, Model_geo.cross. cbn [Model_geo.row1 Model_geo.row2 Model_geo.row3 Model_geo.vx Model_geo.vy Model_geo.vz].
    assert (A1 : forall p q r, p * p + q * q + r * r = 1 -> Rabs p <= 1 /\ Rabs q <= 1 /\ Rabs r <= 1).
    { intros p q r E. assert (K : forall t, t * t <= 1 -> Rabs t <= 1) by (intros t T; apply Rabs_le; nra).
      pose proof (Rle_0_sqr p). pose proof (Rle_0_sqr q). pose proof (Rle_0_sqr r). unfold Rsqr in *. repeat split; apply K; lra. }
    destruct (A1 _ _ _ O2) as (? & ? & ?). destruct (A1 _ _ _ O3) as (? & ? & ?).
    apply det_near; [exact HD|exact S1| |assumption|assumption|assumption| | |]; try (apply two_near; assumption).
    apply abs3. replace 1 with ((d * d + e * e + f * f) * (g * g + h * h + i * i) - (d * g + e * h + f * i) * (d * g + e * h + f * i)) by (rewrite O2, O3, O23; ring). ring.
Qed.
