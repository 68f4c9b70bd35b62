(** Property C96: the apparent position of a point behind a plane glass plate (multimed_nlay). *)
From Coq Require Import Reals Psatz.
From Verif Require Import Base Model_geo Spec_geo Proof_geo Proof_geo2 Proof_geo3 Proof_geo4 Proof_geo5 Proof_geo6 Proof_geo7 Proof_geo8 Proof_geo9 Proof_geo10 Proof_geo11 Prop_geo.
Local Open Scope R_scope.

(** distance in the plane of x and y *)
Definition across (p q : vec) : R := sqrt ((vx q - vx p) * (vx q - vx p) + (vy q - vy p) * (vy q - vy p)).
Lemma fast_axis mm cam pos : fast_multimed_r_nlay mm cam pos = fast_multimed_r_nlay mm (V 0 0 (vz cam)) (V (across cam pos) 0 (vz pos)).
Proof.
  unfold fast_multimed_r_nlay. cbn [vx vy vz].
  replace (sqrt ((across cam pos - 0) * (across cam pos - 0) + (0 - 0) * (0 - 0))) with (across cam pos); [reflexivity|].
  replace ((across cam pos - 0) * (across cam pos - 0) + (0 - 0) * (0 - 0)) with (across cam pos * across cam pos) by ring. symmetry. apply sqrt_square, sqrt_pos.
Qed.
Lemma nlay_axis mm cam pos : exists s, multimed_r_nlay empty_lut mm (V 0 0 (vz cam)) (V (across cam pos) 0 (vz pos)) = Ok s /\
  multimed_nlay empty_lut mm cam pos = Ok (vx cam + (vx pos - vx cam) * s, vy cam + (vy pos - vy cam) * s).
Proof.
  unfold multimed_nlay, multimed_r_nlay. cbn [l_nr l_nz empty_lut Z.eqb andb negb]. destruct (one_medium mm); [exists 1; split; reflexivity|]. cbn [bind].
  destruct (Rlt_dec 0 0) as [H|_]; [lra|]. rewrite (fast_axis mm cam pos). cbn [bind]. eexists. split; reflexivity.
Qed.

(** ===== C96 =====
    A camera dc above a plate of thickness d and a point D below its inner face; [n1], [n2], the index of the plate, and n3 with n1 the
    smallest; no look-up table.  The apparent point lies behind the camera's axis in the direction of the point, at some distance rho;
    a light ray that leaves the camera towards it (angle b1) and is refracted by the law of Snell at both faces (angles b2, b3) meets
    the depth of the point short of it by at most 0.001 or the 41st power of the part of the way behind the outer face, times r. *)
Theorem C96_refraction : forall mm n2 d dc D cam pos, one_plate mm n2 d -> 0 < m_n1 mm -> m_n1 mm <= n2 -> m_n1 mm <= m_n3 mm -> 0 <= d -> 0 < dc -> 0 <= D ->
  vz cam = dc + d -> vz pos = - D ->
  exists x y s, multimed_nlay empty_lut mm cam pos = Ok (x, y) /\
    x - vx cam = s * (vx pos - vx cam) /\ y - vy cam = s * (vy pos - vy cam) /\
    let r := across cam pos in let rho := across cam (V x y (vz pos)) in
    r <= rho /\
    forall b1 b2 b3, - PI / 2 < b1 < PI / 2 -> - PI / 2 < b2 < PI / 2 -> - PI / 2 < b3 < PI / 2 ->
      tan b1 = rho / (dc + d + D) -> n2 * sin b2 = m_n1 mm * sin b1 -> m_n3 mm * sin b3 = m_n1 mm * sin b1 ->
      0 <= r - (dc * tan b1 + d * tan b2 + D * tan b3) <= Rmax (1 / 1000) (((d + D) / (dc + d + D)) ^ 41 * r).
Proof.
  intros mm n2 d dc D cam pos OP N1 N12 N13 PD PC DD ZC ZP. destruct (nlay_axis mm cam pos) as (s & ES & EN). rewrite ZC, ZP in ES.
  assert (R0 : 0 <= across cam pos) by apply sqrt_pos. pose proof (factor_spec mm n2 d dc D (across cam pos) empty_lut 0 s OP N1 N12 N13 PD PC DD R0 eq_refl ES) as (A & B & _).
  exists (vx cam + (vx pos - vx cam) * s), (vy cam + (vy pos - vy cam) * s), s. split; [exact EN|]. split; [ring|]. split; [ring|]. cbv zeta.
  set (r := across cam pos) in *.
  assert (RHO : across cam (V (vx cam + (vx pos - vx cam) * s) (vy cam + (vy pos - vy cam) * s) (vz pos)) = Rabs s * r).
  { unfold across, r. cbn [vx vy]. replace (_ + _) with (s * s * ((vx pos - vx cam) * (vx pos - vx cam) + (vy pos - vy cam) * (vy pos - vy cam))) by ring. rewrite sqrt_mult_alt by nra. f_equal. exact (sqrt_Rsqr_abs s). }
  assert (SR : Rabs s * r = s * r). { destruct (Req_dec r 0) as [->|N]; [ring|]. rewrite Rabs_pos_eq; [reflexivity|]. assert (0 < r) by lra. nra. }
  rewrite RHO, SR. split; [exact A|]. intros b1 b2 b3 B1 B2 B3 T S2 S3.
  assert (K2 : 0 < m_n1 mm / n2 <= 1) by (apply ratio01; lra). assert (K3 : 0 < m_n1 mm / m_n3 mm <= 1) by (apply ratio01; lra).
  assert (E1 : b1 = atan (s * r / (dc + d + D))) by (rewrite <- T; symmetry; apply atan_tan; lra).
  assert (T2 : tan b2 = tan_refr (m_n1 mm / n2) (s * r / (dc + d + D))).
  { rewrite <- (tan_refr_spec _ K2), <- E1. replace (sin b1 * (m_n1 mm / n2)) with (sin b2) by (field_simplify_eq; lra). now rewrite asin_sin by lra. }
  assert (T3 : tan b3 = tan_refr (m_n1 mm / m_n3 mm) (s * r / (dc + d + D))).
  { rewrite <- (tan_refr_spec _ K3), <- E1. replace (sin b1 * (m_n1 mm / m_n3 mm)) with (sin b3) by (field_simplify_eq; lra). now rewrite asin_sin by lra. }
  unfold landing in B. cbv zeta in B. rewrite T2, T3, T.
  replace ((d + D) / (dc + d + D)) with (1 - dc / (dc + d + D)) by (field; lra). replace (1 / 1000) with (/ 1000) by field. exact B.
Qed.
Print Assumptions C96_refraction.

(** Whatever the medium (without table), only distances count: turning and moving camera and point together, keeping the heights,
    turns and moves the apparent point with them; the point on the axis of the camera is seen where it is. *)
Theorem C96_symmetry : forall mm cam pos cam' pos' a b, a * a + b * b = 1 -> vz cam' = vz cam -> vz pos' = vz pos ->
  vx pos' - vx cam' = a * (vx pos - vx cam) - b * (vy pos - vy cam) -> vy pos' - vy cam' = b * (vx pos - vx cam) + a * (vy pos - vy cam) ->
  exists x y x' y', multimed_nlay empty_lut mm cam pos = Ok (x, y) /\ multimed_nlay empty_lut mm cam' pos' = Ok (x', y') /\
    x' - vx cam' = a * (x - vx cam) - b * (y - vy cam) /\ y' - vy cam' = b * (x - vx cam) + a * (y - vy cam).
Proof.
  intros mm cam pos cam' pos' a b U Z1 Z2 X Y. destruct (nlay_axis mm cam pos) as (s & ES & EN). destruct (nlay_axis mm cam' pos') as (s' & ES' & EN').
  assert (RR : across cam' pos' = across cam pos). { unfold across. f_equal. rewrite X, Y. set (u := vx pos - vx cam). set (v := vy pos - vy cam). replace ((a * u - b * v) * (a * u - b * v) + (b * u + a * v) * (b * u + a * v)) with ((a * a + b * b) * (u * u + v * v)) by ring. rewrite U. ring. }
  rewrite RR, Z1, Z2, ES in ES'. injection ES' as <-. do 4 eexists. split; [exact EN|]. split; [exact EN'|]. rewrite X, Y. split; ring.
Qed.
Print Assumptions C96_symmetry.
Theorem C96_axis : forall l mm cam pos x y, vx pos = vx cam -> vy pos = vy cam -> multimed_nlay l mm cam pos = Ok (x, y) -> x = vx pos /\ y = vy pos.
Proof. intros l mm cam pos x y X Y. unfold multimed_nlay. destruct (multimed_r_nlay l mm cam pos) as [s|]; [|discriminate]. cbn [bind]. intros [= <- <-]. rewrite X, Y. split; ring. Qed.
Print Assumptions C96_axis.

(** ---- non-vacuity: water behind a plate of one unit, a camera at (3, -1), 10 above the plate ---- *)
Example C96_case : exists x y s, multimed_nlay empty_lut water (V 3 (-1) 11) (V 7 2 (-20)) = Ok (x, y) /\ x - 3 = s * 4 /\ y + 1 = s * 3 /\ 5 <= across (V 3 (-1) 11) (V x y (-20)).
Proof.
  destruct (C96_refraction water (3 / 2) 1 10 20 (V 3 (-1) 11) (V 7 2 (-20))) as (x & y & s & E & X & Y & R & _);
    try (cbn; lra); [repeat split|].
  exists x, y, s. split; [exact E|]. cbn [vx vy vz] in *. split; [lra|]. split; [lra|]. replace 5 with (across (V 3 (-1) 11) (V 7 2 (-20))); [exact R|].
  unfold across. cbn [vx vy]. replace ((7 - 3) * (7 - 3) + (2 - -1) * (2 - -1)) with (5 * 5) by ring. apply sqrt_square. lra.
Qed.
