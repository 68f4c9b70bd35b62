(** Property C87: the coordinate conversions, vector helpers and kinematics of
    tracking in double precision. *)
From Coq Require Import ZArith Reals Psatz.
From Flocq Require Import Core.Core.
From Verif Require Import F64 F64R F64E Model_track Spec_track Model_f64 Spec_f64 Proof_f64 Proof_f642 Proof_f643 Base.
Local Open Scope R_scope.

(** ---- image coordinates ---- *)
Theorem C87_pixel : forall x y imx imy px py,
  bounded x (2 ^ 100) -> bounded y (2 ^ 100) -> (Z.abs imx <= 2 ^ 30)%Z -> (Z.abs imy <= 2 ^ 30)%Z -> bounded px (2 ^ 100) -> bounded py (2 ^ 100) ->
  let '(mx, my) := fpixel_to_metric x y imx imy px py in
  let ex := (val x - IZR imx / 2) * val px in let ey := (IZR imy / 2 - val y) * val py in
  within mx ex (/ 2 ^ 51 * Rabs ex + / 2 ^ 1075) /\ within my ey (/ 2 ^ 51 * Rabs ey + / 2 ^ 1075).
Proof.
  intros x y imx imy px py X Y IX IY PX PY. unfold fpixel_to_metric. destruct (p2m_x x imx px X IX PX) as (F & E). destruct (p2m_y y imy py Y IY PY) as (G & H).
  cbv zeta. rewrite <- tiny_eq. split; (split; [assumption|]); (eapply Rle_trans; [eassumption|]); apply Rplus_le_compat_r, Rmult_le_compat_r; try apply Rabs_pos; apply uu2.
Qed.
Print Assumptions C87_pixel.

Theorem C87_metric : forall x y imx imy px py,
  bounded x (2 ^ 100) -> bounded y (2 ^ 100) -> (Z.abs imx <= 2 ^ 30)%Z -> (Z.abs imy <= 2 ^ 30)%Z -> bounded px (2 ^ 100) -> bounded py (2 ^ 100) ->
  / 2 ^ 100 <= Rabs (val px) -> / 2 ^ 100 <= Rabs (val py) ->
  let '(qx, qy) := fmetric_to_pixel x y imx imy px py in
  within qx (val x / val px + IZR imx / 2) (/ 2 ^ 51 * (Rabs (val x / val px) + Rabs (IZR imx)) + / 2 ^ 900) /\
  within qy (IZR imy / 2 - val y / val py) (/ 2 ^ 51 * (Rabs (val y / val py) + Rabs (IZR imy)) + / 2 ^ 900).
Proof. intros x y imx imy px py X Y IX IY PX PY LX LY. split; [now apply metric_x|now apply metric_y]. Qed.
Print Assumptions C87_metric.

(** pixels survive the conversion to image coordinates and back up to 2^-50 of their size and the image size *)
Theorem C87_roundtrip : forall x y imx imy px py,
  bounded x (2 ^ 100) -> bounded y (2 ^ 100) -> (Z.abs imx <= 2 ^ 30)%Z -> (Z.abs imy <= 2 ^ 30)%Z -> bounded px (2 ^ 100) -> bounded py (2 ^ 100) ->
  / 2 ^ 100 <= Rabs (val px) -> / 2 ^ 100 <= Rabs (val py) ->
  let '(mx, my) := fpixel_to_metric x y imx imy px py in
  let '(x', y') := fmetric_to_pixel mx my imx imy px py in
  within x' (val x) (/ 2 ^ 50 * (Rabs (val x) + Rabs (IZR imx)) + / 2 ^ 900) /\
  within y' (val y) (/ 2 ^ 50 * (Rabs (val y) + Rabs (IZR imy)) + / 2 ^ 900).
Proof. intros x y imx imy px py X Y IX IY PX PY LX LY. unfold fpixel_to_metric, fmetric_to_pixel. split; [now apply round_x|now apply round_y]. Qed.
Print Assumptions C87_roundtrip.

(** so whole pixels are recovered by rounding to the nearest integer *)
Theorem C87_integer : forall i j imx imy px py,
  (Z.abs i <= 2 ^ 30)%Z -> (Z.abs j <= 2 ^ 30)%Z -> (Z.abs imx <= 2 ^ 30)%Z -> (Z.abs imy <= 2 ^ 30)%Z -> bounded px (2 ^ 100) -> bounded py (2 ^ 100) ->
  / 2 ^ 100 <= Rabs (val px) -> / 2 ^ 100 <= Rabs (val py) ->
  let '(mx, my) := fpixel_to_metric (f_of_Z i) (f_of_Z j) imx imy px py in
  let '(x', y') := fmetric_to_pixel mx my imx imy px py in
  (forall k, k <> i -> Rabs (val x' - IZR i) < Rabs (val x' - IZR k)) /\ (forall k, k <> j -> Rabs (val y' - IZR j) < Rabs (val y' - IZR k)).
Proof.
  intros i j imx imy px py HI HJ IX IY PX PY LX LY.
  assert (K : forall z, (Z.abs z <= 2 ^ 30)%Z -> bounded (f_of_Z z) (2 ^ 100) /\ val (f_of_Z z) = IZR z).
  { intros z Hz. destruct (f_of_Z_exact z) as (F & V); [lia|]. split; [|exact V]. split; [exact F|]. rewrite V. eapply Rle_trans; [apply z30, Hz|apply p2_le; lia]. }
  destruct (K i HI) as (BI & VI). destruct (K j HJ) as (BJ & VJ). pose proof (C87_roundtrip _ _ _ _ _ _ BI BJ IX IY PX PY LX LY) as R.
  unfold fpixel_to_metric, fmetric_to_pixel in *. rewrite VI, VJ in R. destruct R as ((_ & RX) & (_ & RY)).
  assert (B : forall a b, (Z.abs a <= 2 ^ 30)%Z -> (Z.abs b <= 2 ^ 30)%Z -> / 2 ^ 50 * (Rabs (IZR a) + Rabs (IZR b)) + / 2 ^ 900 < / 2).
  { intros a b A B. pose proof (z30 a A) as A'. pose proof (z30 b B) as B'. pose proof (inv_le 50 900 ltac:(lia)) as I9. set (u := Rabs (IZR a)) in *. set (v := Rabs (IZR b)) in *. set (h := / 2 ^ 900) in *. clearbody u v h. cbn [pow] in *. lra. }
  split; intros k Hk; apply nearest; auto; (eapply Rle_lt_trans; [eassumption|]); apply B; auto.
Qed.
Print Assumptions C87_integer.

Definition mic17 : f64 := fdiv (f_of_Z 17) (f_of_Z 1000).   (* a pixel size of 0.017 mm *)
Lemma mic17_fin : fin mic17. Proof. split; vm_compute; reflexivity. Qed.
Lemma mic17_val : / 2 ^ 7 <= val mic17 <= 1.
Proof.
  assert (E : mic17 = SpecFloat.S754_finite false 4899916394579100 (-58)) by (vm_compute; reflexivity). rewrite E. unfold val. cbn [BinarySingleNaN.SF2R SpecFloat.cond_Zopp]. unfold Defs.F2R. cbn [Defs.Fnum Defs.Fexp]. change (-58)%Z with (- Z.of_nat 58)%Z. rewrite bpow_neg. cbn [pow Zaux.cond_Zopp]. lra.
Qed.
Example C87_pixel_case : bounded (f_of_Z 1279) (2 ^ 100) /\ bounded mic17 (2 ^ 100) /\ / 2 ^ 100 <= Rabs (val mic17) /\
  fst (fpixel_to_metric (f_of_Z 1279) fzero 1280 1024 mic17 mic17) <> fzero.
Proof.
  pose proof mic17_val as V. pose proof (Rinv_0_lt_compat _ (p2 7)). assert (AV : Rabs (val mic17) = val mic17) by (apply Rabs_pos_eq; lra).
  destruct (f_of_Z_exact 1279) as (F & E); [lia|]. split; [split; [exact F|rewrite E, Rabs_pos_eq by lra; apply Rle_trans with (2 ^ 11); [cbn; lra|apply p2_le; lia]]|].
  split; [split; [exact mic17_fin|rewrite AV; apply Rle_trans with (2 ^ 0); [change (2 ^ 0) with 1; lra|apply p2_le; lia]]|]. split; [rewrite AV; pose proof (inv_le 7 100 ltac:(lia)); lra|]. vm_compute. discriminate.
Qed.
(** the round trip is not exact: pixel 0.1 of an image 1280 wide comes back as another number *)
Example C87_not_exact : let x := fdiv (f_of_Z 1) (f_of_Z 10) in
  let '(mx, my) := fpixel_to_metric x fzero 1280 1024 mic17 mic17 in fst (fmetric_to_pixel mx my 1280 1024 mic17 mic17) <> x.
Proof. vm_compute. discriminate. Qed.

(** ---- vectors ---- *)
Theorem C87_difference : forall a b, vec_bounded a (2 ^ 198) -> vec_bounded b (2 ^ 198) ->
  let '(a0, a1, a2) := a in let '(b0, b1, b2) := b in let '(d0, d1, d2) := fvec_subt a b in let '(s0, s1, s2) := fvec_add a b in
  within d0 (val a0 - val b0) (/ 2 ^ 53 * Rabs (val a0 - val b0)) /\ within d1 (val a1 - val b1) (/ 2 ^ 53 * Rabs (val a1 - val b1)) /\ within d2 (val a2 - val b2) (/ 2 ^ 53 * Rabs (val a2 - val b2)) /\
  within s0 (val a0 + val b0) (/ 2 ^ 53 * Rabs (val a0 + val b0)) /\ within s1 (val a1 + val b1) (/ 2 ^ 53 * Rabs (val a1 + val b1)) /\ within s2 (val a2 + val b2) (/ 2 ^ 53 * Rabs (val a2 + val b2)).
Proof.
  intros [[a0 a1] a2] [[b0 b1] b2] ((A0 & B0) & (A1 & B1) & (A2 & B2)) ((C0 & D0) & (C1 & D1) & (C2 & D2)). replace (/ 2 ^ 53) with uu by (unfold uu; cbn [pow]; lra).
  assert (H : 2 ^ 198 + 2 ^ 198 <= huge) by (change (2 ^ 198 + 2 ^ 198) with (2 ^ 198 + 2 ^ 198); replace (2 ^ 198 + 2 ^ 198) with (2 ^ 199) by (change (2 ^ 199) with (2 * 2 ^ 198); ring); apply pow_huge; lia).
  assert (S : forall x y, fin x -> fin y -> Rabs (val x) <= 2 ^ 198 -> Rabs (val y) <= 2 ^ 198 -> within (fsub x y) (val x - val y) (uu * Rabs (val x - val y)) /\ within (fadd x y) (val x + val y) (uu * Rabs (val x + val y))).
  { intros x y Fx Fy Bx By. split; [apply sub_close|apply add_close]; auto; (eapply Rle_trans; [|exact H]); [apply abs_sub|apply abs_add]; auto. }
  cbn [fvec_subt fvec_add fmap2]. repeat (split; [apply S; auto|]). apply S; auto.
Qed.
Print Assumptions C87_difference.

Theorem C87_products : forall a b, vec_bounded a (2 ^ 200) -> vec_bounded b (2 ^ 200) ->
  within (fvec_dot a b) (rdot (exact a) (exact b)) (/ 2 ^ 51 * rsize (exact a) (exact b) + / 2 ^ 1073) /\
  let '(a0, a1, a2) := exact a in let '(b0, b1, b2) := exact b in let '(c0, c1, c2) := fvec_cross a b in
  within c0 (a1 * b2 - a2 * b1) (/ 2 ^ 51 * (Rabs (a1 * b2) + Rabs (a2 * b1)) + / 2 ^ 1073) /\
  within c1 (a2 * b0 - a0 * b2) (/ 2 ^ 51 * (Rabs (a2 * b0) + Rabs (a0 * b2)) + / 2 ^ 1073) /\
  within c2 (a0 * b1 - a1 * b0) (/ 2 ^ 51 * (Rabs (a0 * b1) + Rabs (a1 * b0)) + / 2 ^ 1073).
Proof.
  intros a b A B. assert (T : / 2 ^ 1073 = 4 * tiny). { rewrite tiny_eq. change 1075%nat with (2 + 1073)%nat. rewrite pow_add. cbn [Nat.add]. replace (2 ^ 2) with 4 by (cbn; lra). rewrite Rinv_mult. lra. }
  rewrite T. split; [apply dot_close; auto|]. pose proof tiny_pos as P. destruct a as [[a0 a1] a2], b as [[b0 b1] b2]. destruct A as (A0 & A1 & A2), B as (B0 & B1 & B2). cbn [exact fvec_cross].
  assert (K : forall x y z w, bounded x (2 ^ 200) -> bounded y (2 ^ 200) -> bounded z (2 ^ 200) -> bounded w (2 ^ 200) ->
    within (fsub (fmul x y) (fmul z w)) (val x * val y - val z * val w) (/ 2 ^ 51 * (Rabs (val x * val y) + Rabs (val z * val w)) + 4 * tiny)).
  { intros x y z w X Y Z W. destruct (two_close x y z w X Y Z W) as (F & E). split; [exact F|lra]. }
  split; [|split]; apply K; auto.
Qed.
Print Assumptions C87_products.

Theorem C87_length : forall a, vec_fin a -> / 2 ^ 500 <= rlength (exact a) <= 2 ^ 200 -> within (fvec_norm a) (rlength (exact a)) (/ 2 ^ 50 * rlength (exact a)).
Proof. exact norm_close. Qed.
Print Assumptions C87_length.
Theorem C87_distance : forall a b, vec_bounded a (2 ^ 198) -> vec_bounded b (2 ^ 198) -> let d := rlength (rminus (exact a) (exact b)) in
  / 2 ^ 499 <= d <= 2 ^ 199 -> within (fvec_diff_norm a b) d (/ 2 ^ 49 * d).
Proof. intros a b A B d L. now apply diff_norm_close. Qed.
Print Assumptions C87_distance.
Theorem C87_unit : forall a, vec_fin a -> / 2 ^ 500 <= rlength (exact a) <= 2 ^ 200 ->
  let n := rlength (exact a) in
  let '(x, y, z) := a in let '(u, v, w) := funit_vector a in
  within u (val x / n) (/ 2 ^ 49) /\ within v (val y / n) (/ 2 ^ 49) /\ within w (val z / n) (/ 2 ^ 49).
Proof. exact unit_close. Qed.
Print Assumptions C87_unit.
Example C87_vectors_case : let a := (f_of_Z 3, f_of_Z 4, f_of_Z 12) in vec_fin a /\ rlength (exact a) = 13 /\ fvec_norm a = f_of_Z 13 /\ funit_vector a <> a.
Proof.
  cbv zeta. destruct (f_of_Z_exact 3) as (F3 & V3); [lia|]. destruct (f_of_Z_exact 4) as (F4 & V4); [lia|]. destruct (f_of_Z_exact 12) as (F12 & V12); [lia|].
  split; [repeat split; first [apply F3|apply F4|apply F12]|]. split; [|split; [vm_compute; reflexivity|vm_compute; discriminate]].
  cbn [exact]. rewrite V3, V4, V12. unfold rlength, rdot. replace (3 * 3 + 4 * 4 + 12 * 12) with (13 * 13) by lra. apply sqrt_square. lra.
Qed.
(** very short vectors: the squares underflow, the length is 0 and unit_vector gives the vector back *)
Theorem C87_short_refuted : exists a, vec_fin a /\ 0 < rlength (exact a) /\ fvec_norm a = fzero /\ funit_vector a = a.
Proof.
  exists (SpecFloat.S754_finite false (2 ^ 52) (-700), fzero, fzero). split; [split; [|split]; split; vm_compute; reflexivity|].
  split; [|split; vm_compute; reflexivity]. cbn [exact]. unfold rlength, rdot. apply sqrt_lt_R0. change (val fzero) with 0.
  assert (P : 0 < val (SpecFloat.S754_finite false (2 ^ 52) (-700))). { unfold val. cbn [BinarySingleNaN.SF2R]. apply Float_prop.F2R_gt_0. reflexivity. }
  pose proof (Rmult_lt_0_compat _ _ P P). lra.
Qed.
Print Assumptions C87_short_refuted.

(** ---- kinematics ---- *)
(** The position expected next is 2 current - previous, rounded once per component; a particle in uniform
    motion whose next position is a double is predicted exactly. *)
Theorem C87_moving : forall prev curr, vec_bounded prev (2 ^ 200) -> vec_bounded curr (2 ^ 200) ->
  let '(p0, p1, p2) := prev in let '(c0, c1, c2) := curr in let '(m0, m1, m2) := fmoving prev curr in
  within m0 (2 * val c0 - val p0) (/ 2 ^ 53 * Rabs (2 * val c0 - val p0)) /\ within m1 (2 * val c1 - val p1) (/ 2 ^ 53 * Rabs (2 * val c1 - val p1)) /\
  within m2 (2 * val c2 - val p2) (/ 2 ^ 53 * Rabs (2 * val c2 - val p2)).
Proof.
  intros [[p0 p1] p2'] [[c0 c1] c2] (P0 & P1 & P2) (C0 & C1 & C2). replace (/ 2 ^ 53) with uu by (unfold uu; cbn [pow]; lra). cbn [fmoving fvec_subt fvec_scale fmap2].
  destruct (moving_comp _ _ C0 P0) as (A & _ & B). destruct (moving_comp _ _ C1 P1) as (C & _ & D). destruct (moving_comp _ _ C2 P2) as (E & _ & F). repeat (split; [split; assumption|]). split; assumption.
Qed.
Print Assumptions C87_moving.
Theorem C87_uniform : forall prev curr next, vec_bounded prev (2 ^ 200) -> vec_bounded curr (2 ^ 200) -> vec_fin next ->
  rminus (exact next) (exact curr) = rminus (exact curr) (exact prev) -> exact (fmoving prev curr) = exact next.
Proof.
  intros [[p0 p1] p2'] [[c0 c1] c2] [[n0 n1] n2] (P0 & P1 & P2) (C0 & C1 & C2) (N0 & N1 & N2). cbn [exact rminus fmoving fvec_subt fvec_scale fmap2]. intros E. injection E as E0 E1 E2.
  destruct (moving_comp _ _ C0 P0) as (_ & V0 & _). destruct (moving_comp _ _ C1 P1) as (_ & V1 & _). destruct (moving_comp _ _ C2 P2) as (_ & V2 & _). rewrite V0, V1, V2.
  replace (2 * val c0 - val p0) with (val n0) by lra. replace (2 * val c1 - val p1) with (val n1) by lra. replace (2 * val c2 - val p2') with (val n2) by lra. now rewrite !rnd_val.
Qed.
Print Assumptions C87_uniform.
Theorem C87_extrapolation : forall x0 x1 x3, vec_bounded x0 (2 ^ 200) -> vec_bounded x1 (2 ^ 200) -> vec_bounded x3 (2 ^ 200) ->
  let '(a0, a1, a2) := exact x0 in let '(b0, b1, b2) := exact x1 in let '(c0, c1, c2) := exact x3 in let '(e0, e1, e2) := fextrap x0 x1 x3 in
  within e0 ((5 * c0 - 4 * b0 + a0) / 2) (/ 2 ^ 51 * (5 * Rabs c0 + 4 * Rabs b0 + Rabs a0) + / 2 ^ 1075) /\
  within e1 ((5 * c1 - 4 * b1 + a1) / 2) (/ 2 ^ 51 * (5 * Rabs c1 + 4 * Rabs b1 + Rabs a1) + / 2 ^ 1075) /\
  within e2 ((5 * c2 - 4 * b2 + a2) / 2) (/ 2 ^ 51 * (5 * Rabs c2 + 4 * Rabs b2 + Rabs a2) + / 2 ^ 1075).
Proof.
  intros [[a0 a1] a2] [[b0 b1] b2] [[c0 c1] c2] (A0 & A1 & A2) (B0 & B1 & B2) (C0 & C1 & C2). rewrite <- tiny_eq. cbn [exact fextrap fvec_subt fvec_add fvec_scale fmap2].
  split; [|split]; apply extrap_comp; auto.
Qed.
Print Assumptions C87_extrapolation.
Example C87_kinematics_case : let q z := (f_of_Z (10 + 3 * z), f_of_Z (7 * z), fdiv (f_of_Z z) (f_of_Z 4)) in
  vec_bounded (q 1%Z) (2 ^ 200) /\ vec_bounded (q 2%Z) (2 ^ 200) /\ fmoving (q 1%Z) (q 2%Z) = q 3%Z /\ fextrap (q 1%Z) (q 2%Z) (q 3%Z) = q 4%Z.
Proof.
  cbv zeta. assert (K : forall z, (Z.abs z <= 100)%Z -> bounded (f_of_Z z) (2 ^ 200)).
  { intros z Hz. destruct (f_of_Z_exact z) as (F & V); [lia|]. split; [exact F|]. rewrite V. eapply Rle_trans; [apply z30; lia|]. apply p2_le. lia. }
  assert (Q : fdiv (f_of_Z 1) (f_of_Z 4) = SpecFloat.S754_finite false (2 ^ 52) (-54)) by (vm_compute; reflexivity). assert (H : fdiv (f_of_Z 2) (f_of_Z 4) = SpecFloat.S754_finite false (2 ^ 52) (-53)) by (vm_compute; reflexivity).
  assert (BF : forall e, (-60 <= e <= 0)%Z -> SpecFloat.valid_binary 53 1024 (SpecFloat.S754_finite false (2 ^ 52) e) = true -> bounded (SpecFloat.S754_finite false (2 ^ 52) e) (2 ^ 200)).
  { intros e He V. split; [split; [reflexivity|exact V]|]. unfold val. cbn [BinarySingleNaN.SF2R]. rewrite <- Operations.F2R_abs. unfold Operations.Fabs, F2R. cbn [Fnum Fexp]. change (IZR (Z.abs (Zaux.cond_Zopp false (Zpos (2 ^ 52))))) with (bpow radix2 52). rewrite <- bpow_plus, <- bpow_nat. apply bpow_le. lia. }
  split; [split; [apply K; lia|split; [apply K; lia|rewrite Q; apply BF; [lia|vm_compute; reflexivity]]]|]. split; [split; [apply K; lia|split; [apply K; lia|rewrite H; apply BF; [lia|vm_compute; reflexivity]]]|]. split; vm_compute; reflexivity.
Qed.

(** ---- limits ---- *)
Definition limits_fin (tp : tpar) : Prop := fin (dvxmin tp) /\ fin (dvxmax tp) /\ fin (dvymin tp) /\ fin (dvymax tp) /\ fin (dvzmin tp) /\ fin (dvzmax tp).
Definition strictly_inside (tp : tpar) (d : R * R * R) : Prop := let '(x, y, z) := d in
  val (dvxmin tp) < x < val (dvxmax tp) /\ val (dvymin tp) < y < val (dvymax tp) /\ val (dvzmin tp) < z < val (dvzmax tp).
(** a computed displacement passes the test only if the exact one is strictly inside the limits *)
Lemma sub_val x y : bounded x (2 ^ 198) -> bounded y (2 ^ 198) -> fin (fsub x y) /\ val (fsub x y) = rnd (val x - val y).
Proof.
  intros (F & B) (G & C). apply fsub_correct; auto. apply rnd_huge. eapply Rle_trans; [apply (abs_sub _ _ _ _ B C)|]. apply Rle_trans with (2 ^ 199); [change (2 ^ 199) with (2 * 2 ^ 198); lra|apply pow_huge; lia].
Qed.
Lemma rnd_above m e : fin m -> val m < rnd e -> val m < e.
Proof. intros F H. destruct (Rlt_or_le (val m) e) as [L|L]; auto. apply rnd_le in L. rewrite rnd_val in L by exact F. lra. Qed.
Lemma rnd_below m e : fin m -> rnd e < val m -> e < val m.
Proof. intros F H. destruct (Rlt_or_le e (val m)) as [L|L]; auto. apply rnd_le in L. rewrite rnd_val in L by exact F. lra. Qed.
Lemma flt_val x y : fin x -> fin y -> (flt x y = true <-> val x < val y).
Proof. intros F G. rewrite flt_correct by assumption. destruct (Rlt_bool_spec (val x) (val y)); split; auto; try discriminate; lra. Qed.
Theorem C87_limits : forall tp a b, limits_fin tp -> vec_bounded a (2 ^ 198) -> vec_bounded b (2 ^ 198) ->
  pos3d_in_bounds tp (fvec_subt a b) = true -> strictly_inside tp (rminus (exact a) (exact b)).
Proof.
  intros tp [[a0 a1] a2] [[b0 b1] b2] (L0 & L1 & L2 & L3 & L4 & L5) (A0 & A1 & A2) (B0 & B1 & B2). unfold pos3d_in_bounds. cbn [fvec_subt fmap2 exact rminus]. rewrite !andb_true_iff.
  destruct (sub_val _ _ A0 B0) as (F0 & V0). destruct (sub_val _ _ A1 B1) as (F1 & V1). destruct (sub_val _ _ A2 B2) as (F2 & V2). rewrite !flt_val by assumption. rewrite V0, V1, V2. intros (((((H0 & H1) & H2) & H3) & H4) & H5).
  unfold strictly_inside. eauto 12 using rnd_above, rnd_below.
Qed.
Print Assumptions C87_limits.
(** conversely a displacement strictly inside is only refused if it is so close to a limit that it is rounded to it *)
Theorem C87_limits_converse : forall tp a b, limits_fin tp -> vec_bounded a (2 ^ 198) -> vec_bounded b (2 ^ 198) ->
  strictly_inside tp (rminus (exact a) (exact b)) ->
  pos3d_in_bounds tp (fvec_subt a b) = true \/
  (let '(x, y, z) := exact (fvec_subt a b) in
   x = val (dvxmin tp) \/ x = val (dvxmax tp) \/ y = val (dvymin tp) \/ y = val (dvymax tp) \/ z = val (dvzmin tp) \/ z = val (dvzmax tp)).
Proof.
  intros tp [[a0 a1] a2] [[b0 b1] b2] (L0 & L1 & L2 & L3 & L4 & L5) (A0 & A1 & A2) (B0 & B1 & B2). unfold pos3d_in_bounds. cbn [fvec_subt fmap2 exact rminus]. rewrite !andb_true_iff.
  destruct (sub_val _ _ A0 B0) as (F0 & V0). destruct (sub_val _ _ A1 B1) as (F1 & V1). destruct (sub_val _ _ A2 B2) as (F2 & V2). rewrite !flt_val by assumption. rewrite V0, V1, V2. intros ((H0 & H1) & (H2 & H3) & (H4 & H5)).
  assert (U : forall m e, fin m -> val m < e -> val m < rnd e \/ rnd e = val m). { intros m e F H. apply Rlt_le, rnd_le in H. rewrite rnd_val in H by exact F. lra. }
  assert (W : forall m e, fin m -> e < val m -> rnd e < val m \/ rnd e = val m). { intros m e F H. apply Rlt_le, rnd_le in H. rewrite rnd_val in H by exact F. lra. }
  destruct (U _ _ L0 H0) as [?|?]; [|tauto]. destruct (W _ _ L1 H1) as [?|?]; [|tauto]. destruct (U _ _ L2 H2) as [?|?]; [|tauto]. destruct (W _ _ L3 H3) as [?|?]; [|tauto].
  destruct (U _ _ L4 H4) as [?|?]; [|tauto]. destruct (W _ _ L5 H5) as [?|?]; [|tauto]. tauto.
Qed.
Print Assumptions C87_limits_converse.
Definition tp87 : tpar := mk_tpar (f_of_Z (-2)) (f_of_Z 2) (f_of_Z (-2)) (f_of_Z 2) (f_of_Z (-2)) (f_of_Z 2) (f_of_Z 100) (f_of_Z 10) true.
Example C87_limits_case : limits_fin tp87 /\ pos3d_in_bounds tp87 (fvec_subt (f_of_Z 5, f_of_Z 7, f_of_Z 9) (f_of_Z 4, f_of_Z 8, f_of_Z 9)) = true /\
  pos3d_in_bounds tp87 (fvec_subt (f_of_Z 5, f_of_Z 7, f_of_Z 9) (f_of_Z 3, f_of_Z 8, f_of_Z 9)) = false.
Proof. split; [|split; vm_compute; reflexivity]. repeat split; vm_compute; reflexivity. Qed.

(** ---- angle and acceleration ---- *)
(** the argument of the arc cosine is within 2^-47 of the exact cosine, hence of [-1, 1] *)
Theorem C87_cosine : forall s p c, vec_bounded s (2 ^ 198) -> vec_bounded p (2 ^ 198) -> vec_bounded c (2 ^ 198) ->
  let e0 := rminus (exact p) (exact s) in let e1 := rminus (exact c) (exact s) in
  / 2 ^ 400 <= rlength e0 <= 2 ^ 199 -> / 2 ^ 400 <= rlength e1 <= 2 ^ 199 ->
  within (fcosine s p c) (rdot e0 e1 / (rlength e0 * rlength e1)) (/ 2 ^ 47) /\ Rabs (val (fcosine s p c)) <= 1 + / 2 ^ 47.
Proof.
  intros s p c S P C e0 e1 L0 L1. pose proof (cosine_close s p c S P C L0 L1) as W. split; [exact W|]. destruct W as (_ & W). fold e0 e1 in W. eapply Rle_trans; [apply (abs_near _ _ _ W)|]. apply Rplus_le_compat_r.
  assert (I0 : 0 < / 2 ^ 400) by apply Rinv_0_lt_compat, p2. assert (N : 0 < rlength e0 * rlength e1) by (apply Rmult_lt_0_compat; lra).
  rewrite div_pos_abs by lra. rewrite (Rabs_pos_eq (rlength e0 * rlength e1)) by lra. apply Rmult_le_reg_r with (rlength e0 * rlength e1); [exact N|]. unfold Rdiv. rewrite Rmult_assoc, Rinv_l by lra.
  pose proof (rdot_size e0 e1). pose proof (rsize_len e0 e1). lra.
Qed.
Print Assumptions C87_cosine.
Theorem C87_acceleration : forall acos gon s p c, vec_bounded s (2 ^ 190) -> vec_bounded p (2 ^ 190) -> vec_bounded c (2 ^ 190) ->
  let l0 := rlength (rminus (exact p) (exact s)) in let l1 := rlength (rminus (exact c) (exact s)) in
  within (snd (fangle_acc acos gon s p c)) (rlength (rminus (exact p) (exact c))) (/ 2 ^ 48 * (l0 + l1) + / 2 ^ 499).
Proof. intros acos gon s p c S P C. exact (acc_close s p c S P C). Qed.
Print Assumptions C87_acceleration.
(** which angle: with the displacements as computed (each is the exact one rounded, [C87_difference]), 200 gon for a reversal
    (this includes a particle and prediction that both stay at rest), 0 for equal displacements, otherwise the arc cosine *)
Theorem C87_angle_cases : forall acos gon s p c, vec_bounded s (2 ^ 198) -> vec_bounded p (2 ^ 198) -> vec_bounded c (2 ^ 198) ->
  let expected := exact (fvec_subt p s) in let actual := exact (fvec_subt c s) in let angle := fst (fangle_acc acos gon s p c) in
  (expected = rminus (0, 0, 0) actual -> angle = f_of_Z 200) /\
  (expected <> rminus (0, 0, 0) actual -> expected = actual -> angle = fzero) /\
  (expected <> rminus (0, 0, 0) actual -> expected <> actual -> angle = fmul gon (acos (fcosine s p c))).
Proof.
  intros acos gon [[s0 s1] s2] [[p0 p1] p2] [[c0 c1] c2] (S0 & S1 & S2) (P0 & P1 & P2) (K0 & K1 & K2).
  unfold fangle_acc. cbn [fvec_subt fmap2 exact rminus fst fall_eq fvec_neg].
  assert (A0 := proj1 (sub_val _ _ P0 S0)). assert (A1 := proj1 (sub_val _ _ P1 S1)). assert (A2 := proj1 (sub_val _ _ P2 S2)).
  assert (D0 := proj1 (sub_val _ _ K0 S0)). assert (D1 := proj1 (sub_val _ _ K1 S1)). assert (D2 := proj1 (sub_val _ _ K2 S2)).
  destruct (fin_fneg _ D0) as (N0 & V0). destruct (fin_fneg _ D1) as (N1 & V1). destruct (fin_fneg _ D2) as (N2 & V2).
  rewrite !feq_correct by assumption. rewrite V0, V1, V2, !Rminus_0_l.
  assert (Q : forall x y z x' y' z' : R, (x, y, z) = (x', y', z') <-> Req_bool x x' && Req_bool y y' && Req_bool z z' = true).
  { intros. rewrite !andb_true_iff. split.
    - intros E. injection E as -> -> ->. rewrite !Req_bool_true; auto.
    - intros ((X & Y) & Z). destruct (Req_bool_spec x x'), (Req_bool_spec y y'), (Req_bool_spec z z'); congruence. }
  rewrite !Q. destruct (_ && _ && _).
  - repeat split; intros; congruence.
  - destruct (_ && _ && _); repeat split; intros; congruence.
Qed.
Print Assumptions C87_angle_cases.
Lemma at3_198 z : (Z.abs z <= 2 ^ 53)%Z -> vec_bounded (f_of_Z z, fzero, fzero) (2 ^ 198).
Proof.
  intros H. destruct (f_of_Z_exact z H) as (F & V). destruct (f_of_Z_exact 0) as (F0 & V0); [lia|]. change (f_of_Z 0) with fzero in *.
  assert (G : forall x y, fin x -> val x = IZR y -> (Z.abs y <= 2 ^ 53)%Z -> bounded x (2 ^ 198)).
  { intros x y Fx Vx L. split; [exact Fx|]. rewrite Vx, <- abs_IZR. eapply Rle_trans; [apply IZR_le, L|]. change (IZR (2 ^ 53)) with (bpow radix2 53). rewrite <- bpow_nat. apply bpow_le. lia. }
  split; [eapply G; eauto|]. split; (eapply G; [exact F0|exact V0|lia]).
Qed.
(** along one axis from 0: expected at 2, found at -2, at 2 and at 3 *)
Example C87_angle_cases_case : forall acos gon, let x z := (f_of_Z z, fzero, fzero) in
  (forall z, In z [0; 2; -2; 3]%Z -> vec_bounded (x z) (2 ^ 198)) /\
  fst (fangle_acc acos gon (x 0%Z) (x 2%Z) (x (-2)%Z)) = f_of_Z 200 /\ fst (fangle_acc acos gon (x 0%Z) (x 2%Z) (x 2%Z)) = fzero /\
  fst (fangle_acc acos gon (x 0%Z) (x 2%Z) (x 3%Z)) = fmul gon (acos (f_of_Z 1)).
Proof.
  intros acos gon x. split.
  - intros z [<-|[<-|[<-|[<-|[]]]]]; apply at3_198; lia.
  - unfold fangle_acc. cbn [fst].
    replace (fall_eq (fvec_subt (x 2%Z) (x 0%Z)) (fvec_neg (fvec_subt (x (-2)%Z) (x 0%Z)))) with true by (vm_compute; reflexivity).
    replace (fall_eq (fvec_subt (x 2%Z) (x 0%Z)) (fvec_neg (fvec_subt (x 2%Z) (x 0%Z)))) with false by (vm_compute; reflexivity).
    replace (fall_eq (fvec_subt (x 2%Z) (x 0%Z)) (fvec_subt (x 2%Z) (x 0%Z))) with true by (vm_compute; reflexivity).
    replace (fall_eq (fvec_subt (x 2%Z) (x 0%Z)) (fvec_neg (fvec_subt (x 3%Z) (x 0%Z)))) with false by (vm_compute; reflexivity).
    replace (fall_eq (fvec_subt (x 2%Z) (x 0%Z)) (fvec_subt (x 3%Z) (x 0%Z))) with false by (vm_compute; reflexivity).
    replace (fcosine (x 0%Z) (x 2%Z) (x 3%Z)) with (f_of_Z 1) by (vm_compute; reflexivity). auto.
Qed.

(** But the computed cosine can exceed 1 although the motion is exactly straight: from (0,0,0), expected at
    (1,1,1), found at (2,2,2).  An arc cosine that gives nan above 1, as numpy's does, makes the angle nan, and the
    candidate is refused although its acceleration (1.73) is below the limit (10), whatever the limit for the angle. *)
Definition at3 (z : Z) : vec := (f_of_Z z, f_of_Z z, f_of_Z z).
Theorem C87_angle_refuted : forall acos gon, (forall x, flt (f_of_Z 1) x = true -> acos x = SpecFloat.S754_nan) ->
  rminus (exact (at3 2)) (exact (at3 0)) = (2, 2, 2) /\ rminus (exact (at3 1)) (exact (at3 0)) = (1, 1, 1) /\
  flt (f_of_Z 1) (fcosine (at3 0) (at3 1) (at3 2)) = true /\
  let aa := fangle_acc acos gon (at3 0) (at3 1) (at3 2) in
  fst aa = SpecFloat.S754_nan /\ flt (snd aa) (f_of_Z 10) = true /\
  forall tp, dacc tp = f_of_Z 10 -> acceptable tp (fst aa) (snd aa) = false /\ ~ smooth_motion tp aa.
Proof.
  intros acos gon NAN. assert (B : flt (f_of_Z 1) (fcosine (at3 0) (at3 1) (at3 2)) = true) by (vm_compute; reflexivity).
  assert (V : forall z, (Z.abs z <= 2 ^ 53)%Z -> exact (at3 z) = (IZR z, IZR z, IZR z)). { intros z Hz. unfold at3, exact. destruct (f_of_Z_exact z Hz) as (_ & ->). reflexivity. }
  split; [rewrite !V by lia; unfold rminus; f_equal; [f_equal|]; lra|]. split; [rewrite !V by lia; unfold rminus; f_equal; [f_equal|]; lra|]. split; [exact B|]. cbv zeta.
  assert (A : fst (fangle_acc acos gon (at3 0) (at3 1) (at3 2)) = SpecFloat.S754_nan).
  { unfold fangle_acc. cbn [fst]. assert (N1 : fall_eq (fvec_subt (at3 1) (at3 0)) (fvec_neg (fvec_subt (at3 2) (at3 0))) = false) by (vm_compute; reflexivity).
    assert (N2 : fall_eq (fvec_subt (at3 1) (at3 0)) (fvec_subt (at3 2) (at3 0)) = false) by (vm_compute; reflexivity). rewrite N1, N2, (NAN _ B). unfold fmul. destruct gon; reflexivity. }
  assert (S : snd (fangle_acc acos gon (at3 0) (at3 1) (at3 2)) = fvec_norm (fvec_subt (fvec_subt (at3 1) (at3 0)) (fvec_subt (at3 2) (at3 0)))) by reflexivity.
  split; [exact A|]. split; [rewrite S; vm_compute; reflexivity|]. intros tp D.
  assert (T : flt (snd (fangle_acc acos gon (at3 0) (at3 1) (at3 2))) (fdiv (dacc tp) (f_of_Z 10)) = false) by (rewrite S, D; vm_compute; reflexivity).
  assert (NL : flt SpecFloat.S754_nan (dangle tp) = false) by (destruct (dangle tp) as [[]|[]| |[] ? ?]; reflexivity).
  split.
  - unfold acceptable. rewrite A, T, NL, Bool.andb_false_r. reflexivity.
  - unfold smooth_motion. rewrite A, T, NL. intros [(_ & H)|H]; discriminate.
Qed.
Print Assumptions C87_angle_refuted.
(** an arc cosine as assumed, and a straight motion that is accepted *)
Definition acos87 (x : f64) : f64 := if flt (f_of_Z 1) x then SpecFloat.S754_nan else fzero.
Example C87_angle_case : (forall x, flt (f_of_Z 1) x = true -> acos87 x = SpecFloat.S754_nan) /\ dacc tp87 = f_of_Z 10 /\
  let aa := fangle_acc acos87 (f_of_Z 63) (at3 0) (f_of_Z 1, fzero, fzero) (f_of_Z 3, fzero, fzero) in acceptable tp87 (fst aa) (snd aa) = true.
Proof. split; [intros x H; unfold acos87; now rewrite H|]. split; [reflexivity|vm_compute; reflexivity]. Qed.
