(** Reconstruction from rays that pass near a point *)
From Verif Require Import Base Model_geo Spec_geo Spec_geo2 Proof_geo Proof_geo2 Proof_geo4 Proof_geo5 Proof_geo6 Proof_geo9.
Local Open Scope R_scope.

Lemma dn_norm a b : vec_diff_norm a b = vnorm (vsub a b). Proof. apply (diff_norm_metric a b a). Qed.
Lemma dn_sym a b : vec_diff_norm a b = vec_diff_norm b a. Proof. apply (diff_norm_metric a b a). Qed.
Lemma dn_tri a b c : vec_diff_norm a c <= vec_diff_norm a b + vec_diff_norm b c.
Proof. rewrite !dn_norm. replace (vsub a c) with (vadd (vsub a b) (vsub b c)) by vec_eq. apply triangle. Qed.

(** the foot on the first line is not far from any point q1 of it *)
Lemma foot_near s q1 d1 q2 d2 t1 t2 : 0 < s -> cross d1 d2 <> vzero -> s * (vnorm d1 * vnorm d2) <= vnorm (cross d1 d2) ->
  let w := vsub q1 q2 in let ab := vsub (vadd q1 (vscale d1 t1)) (vadd q2 (vscale d2 t2)) in
  dot ab d1 = 0 -> dot ab d2 = 0 -> Rabs t1 * vnorm d1 <= vnorm w / s.
Proof.
  intros S N H w ab P1 P2.
  set (X := dot (cross d1 d2) (cross d1 d2)) in *.
  assert (X0 : 0 < X). { destruct (dot_self_pos (cross d1 d2)) as [?|E]; [assumption|]. exfalso. apply N. apply dot_zero. symmetry. exact E. }
  set (u := vsub (vscale d1 (dot d2 d2)) (vscale d2 (dot d1 d2))).
  assert (EU : dot u u = dot d2 d2 * X) by (unfold u, X; clear; vcomp; ring).
  assert (ET : t1 * X = - dot w u).
  { assert (A : dot ab d1 = dot w d1 + t1 * dot d1 d1 - t2 * dot d1 d2) by (unfold ab, w; clear; vcomp; ring).
    assert (B : dot ab d2 = dot w d2 + t1 * dot d1 d2 - t2 * dot d2 d2) by (unfold ab, w; clear; vcomp; ring).
    assert (C : dot w u = dot w d1 * dot d2 d2 - dot w d2 * dot d1 d2) by (unfold u; clear; vcomp; ring).
    assert (D : X = dot d1 d1 * dot d2 d2 - dot d1 d2 * dot d1 d2) by (unfold X; clear; vcomp; ring).
    rewrite C, D. rewrite A in P1. rewrite B in P2.
    replace (dot w d1) with (t2 * dot d1 d2 - t1 * dot d1 d1) by lra.
    replace (dot w d2) with (t2 * dot d2 d2 - t1 * dot d1 d2) by lra. ring. }
  set (c := vnorm (cross d1 d2)) in *.
  assert (C2 : c * c = X) by apply vnorm_sq.
  assert (C0 : 0 < c). { pose proof (vnorm_pos (cross d1 d2)). fold c in H0. nra. }
  assert (NU : vnorm u = vnorm d2 * c).
  { rewrite vnorm_dot, EU, sqrt_mult; [|apply dot_self_pos|lra]. rewrite <- vnorm_dot. rewrite <- C2. rewrite sqrt_square by lra. reflexivity. }
  assert (CS : Rabs (dot w u) <= vnorm w * vnorm u).
  { apply Rabs_le. split.
    - pose proof (cauchy_schwarz (vscale w (-1)) u) as Q. rewrite vnorm_scale in Q.
      replace (dot (vscale w (-1)) u) with (- dot w u) in Q by (clear; vcomp; ring). replace (Rabs (-1)) with 1 in Q by (rewrite Rabs_left by lra; ring). lra.
    - apply cauchy_schwarz. }
  assert (T : Rabs t1 * X <= vnorm w * (vnorm d2 * c)).
  { rewrite <- NU. rewrite <- (Rabs_right X) by lra. rewrite <- Rabs_mult, ET, Rabs_Ropp. exact CS. }
  assert (T' : Rabs t1 * c <= vnorm w * vnorm d2).
  { rewrite <- C2 in T. apply Rmult_le_reg_r with c; [lra|]. lra. }
  apply Rmult_le_reg_r with s; [lra|]. unfold Rdiv. rewrite Rmult_assoc, (Rmult_assoc (vnorm w)), Rinv_l, Rmult_1_r by lra.
  pose proof (vnorm_pos d1). pose proof (vnorm_pos d2). pose proof (vnorm_pos w). pose proof (Rabs_pos t1).
  (* |t1| |d1| s |d2| <= |t1| c <= |w| |d2| *)
  assert (D2 : 0 < vnorm d2).
  { destruct H1 as [?|E]; [assumption|]. exfalso. apply N. symmetry in E. apply vnorm_zero in E. subst d2. clear. vec_eq. }
  apply Rmult_le_reg_r with (vnorm d2); [lra|].
  apply Rle_trans with (Rabs t1 * c); [|lra].
  replace (Rabs t1 * (vnorm d1 * s) * vnorm d2) with (Rabs t1 * (s * (vnorm d1 * vnorm d2))) by ring.
  apply Rmult_le_compat_l; lra.
Qed.

Lemma near_mid eps s v1 d1 v2 d2 p q1 q2 : 0 < s -> apart s d1 d2 -> on_line v1 d1 q1 -> on_line v2 d2 q2 ->
  vec_diff_norm q1 p <= eps -> vec_diff_norm q2 p <= eps ->
  0 <= fst (skew_midpoint v1 d1 v2 d2) <= 2 * eps /\ vec_diff_norm (snd (skew_midpoint v1 d1 v2 d2)) p <= eps * (1 + 2 / s).
Proof.
  intros S (N & H) L1 L2 E1 E2. destruct (skew_min v1 d1 v2 d2 N) as (a & b & LA & LB & P1 & P2 & E & M). rewrite E. cbn [fst snd].
  pose proof (M q1 q2 L1 L2) as M1.
  assert (W : vec_diff_norm q1 q2 <= 2 * eps). { pose proof (dn_tri q1 p q2). rewrite (dn_sym p q2) in H0. lra. }
  split. { split; [rewrite dn_norm; apply vnorm_pos|lra]. }
  destruct (on_line_shift _ _ _ _ L1 LA) as (t1 & ->). destruct (on_line_shift _ _ _ _ L2 LB) as (t2 & ->).
  pose proof (foot_near s q1 d1 q2 d2 t1 t2 S N H P1 P2) as F1. cbv zeta in F1.
  assert (F2 : Rabs t2 * vnorm d2 <= vnorm (vsub q2 q1) / s).
  { apply (foot_near s q2 d2 q1 d1 t2 t1 S).
    - intros Z. apply N. destruct (cross_laws d1 d2) as (_ & _ & Z2 & _). rewrite Z2 in Z. clear - Z.
      apply vec_ext; [apply (f_equal vx) in Z|apply (f_equal vy) in Z|apply (f_equal vz) in Z]; unfold vneg, vzero in *; cbn [vx vy vz] in *; lra.
    - destruct (cross_laws d1 d2) as (_ & _ & Z2 & _). rewrite Z2.
      assert (NN : forall v, vnorm (vneg v) = vnorm v) by (intros v; rewrite !vnorm_dot; f_equal; clear; vcomp; ring). rewrite NN.
      rewrite (Rmult_comm (vnorm d2)). exact H.
    - clear - P2. replace (dot _ d2) with (- dot (vsub (vadd q1 (vscale d1 t1)) (vadd q2 (vscale d2 t2))) d2) by (vcomp; ring). rewrite P2. ring.
    - clear - P1. replace (dot _ d1) with (- dot (vsub (vadd q1 (vscale d1 t1)) (vadd q2 (vscale d2 t2))) d1) by (vcomp; ring). rewrite P1. ring. }
  rewrite <- !dn_norm in F1, F2. rewrite (dn_sym q2 q1) in F2.
  assert (WS : vec_diff_norm q1 q2 / s <= 2 * eps / s). { unfold Rdiv. apply Rmult_le_compat_r; [apply Rlt_le, Rinv_0_lt_compat; lra|exact W]. }
  assert (G : forall q d t, vec_diff_norm q p <= eps -> Rabs t * vnorm d <= 2 * eps / s -> vnorm (vsub (vadd q (vscale d t)) p) <= eps + 2 * eps / s).
  { intros q d t A B. replace (vsub (vadd q (vscale d t)) p) with (vadd (vsub q p) (vscale d t)) by (clear; vec_eq).
    eapply Rle_trans; [apply triangle|]. rewrite vnorm_scale. rewrite dn_norm in A. lra. }
  rewrite dn_norm.
  replace (vsub (vscale (vadd (vadd q1 (vscale d1 t1)) (vadd q2 (vscale d2 t2))) (/ 2)) p)
    with (vscale (vadd (vsub (vadd q1 (vscale d1 t1)) p) (vsub (vadd q2 (vscale d2 t2)) p)) (/ 2)).
  2:{ clear. apply vec_ext; cbn [vx vy vz vscale vadd vsub]; field. }
  rewrite vnorm_scale, Rabs_right by lra.
  pose proof (triangle (vsub (vadd q1 (vscale d1 t1)) p) (vsub (vadd q2 (vscale d2 t2)) p)).
  pose proof (G q1 d1 t1 E1 ltac:(lra)). pose proof (G q2 d2 t2 E2 ltac:(lra)).
  replace (eps * (1 + 2 / s)) with (eps + 2 * eps / s) by (unfold Rdiv; ring). lra.
Qed.

Lemma rsum_bound (A : Type) (f : A -> R) l b : (forall a, In a l -> 0 <= f a <= b) -> 0 <= rsum (map f l) <= b * INR (length l).
Proof.
  induction l as [|a l IH]; intros H. { unfold rsum. cbn. lra. }
  pose proof (H a (or_introl eq_refl)). specialize (IH (fun x hx => H x (or_intror hx))).
  change (length (a :: l)) with (S (length l)). rewrite S_INR. unfold rsum in *. cbn [map fold_right]. lra.
Qed.
Lemma vsum_bound (l : list (R * vec)) p r : (forall a, In a l -> vec_diff_norm (snd a) p <= r) ->
  vnorm (vsub (V (rsum (map (fun a => vx (snd a)) l)) (rsum (map (fun a => vy (snd a)) l)) (rsum (map (fun a => vz (snd a)) l))) (vscale p (INR (length l)))) <= r * INR (length l).
Proof.
  induction l as [|a l IH]; intros H.
  { cbn. replace (vsub _ _) with vzero by (unfold rsum; cbn; vec_eq). replace (vnorm vzero) with 0; [lra|]. symmetry. now apply vnorm_zero. }
  pose proof (H a (or_introl eq_refl)) as HA. specialize (IH (fun x hx => H x (or_intror hx))).
  change (length (a :: l)) with (S (length l)). rewrite S_INR. rewrite dn_norm in HA.
  eapply Rle_trans; [|eapply Rle_trans; [apply (triangle (vsub (snd a) p))|rewrite Rmult_plus_distr_l, Rmult_1_r, Rplus_comm; apply Rplus_le_compat; [apply IH|apply HA]]].
  right. f_equal. unfold rsum. cbn [map fold_right]. apply vec_ext; cbn [vx vy vz vscale vadd vsub]; ring.
Qed.

Lemma position_near targets cals mm rays p eps s : rays_seen mm targets cals rays -> (2 <= length rays)%nat -> 0 < s ->
  Forall (fun r => exists q, on_line (fst r) (snd r) q /\ vec_diff_norm q p <= eps) rays ->
  ForallOrdPairs (fun r q => apart s (snd r) (snd q)) rays ->
  exists d res, point_position targets cals mm = Ok (d, res) /\ 0 <= d <= 2 * eps /\ vec_diff_norm res p <= eps * (1 + 2 / s).
Proof.
  intros RS L S NR AP. apply rays_seen_of in RS. unfold point_position. rewrite RS, pair_results_all.
  set (l := map _ (all_pairs rays)).
  assert (PR : forall r q, In (r, q) (all_pairs rays) -> In r rays /\ In q rays /\ apart s (snd r) (snd q)).
  { clear - AP. induction AP as [|a t FA FP IH]; intros r q H; [destruct H|].
    cbn [all_pairs] in H. apply in_app_or in H. destruct H as [H|H].
    - apply in_map_iff in H. destruct H as (b & E & Hb). inversion E; subst. rewrite Forall_forall in FA. cbn. auto.
    - destruct (IH r q H) as (A & B & C). cbn; auto. }
  assert (ML : forall a, In a l -> 0 <= fst a <= 2 * eps /\ vec_diff_norm (snd a) p <= eps * (1 + 2 / s)).
  { intros a H. apply in_map_iff in H. destruct H as ((r, q) & <- & H). destruct (PR r q H) as (A & B & C). cbn [fst snd].
    rewrite Forall_forall in NR. destruct (NR r A) as (q1 & L1 & E1). destruct (NR q B) as (q2 & L2 & E2).
    eapply near_mid; eauto. }
  assert (LN : l <> []). { unfold l. destruct rays as [|r [|q t]]; cbn in L; try lia. discriminate. }
  rewrite (mean_is l LN). eexists. eexists. split; [reflexivity|].
  assert (N0 : 0 < INR (length l)). { apply lt_0_INR. destruct l; [congruence|cbn; lia]. }
  split.
  - pose proof (rsum_bound _ fst l (2 * eps) (fun a h => proj1 (ML a h))) as (B1 & B2). split.
    + apply Rmult_le_pos; [exact B1|apply Rlt_le, Rinv_0_lt_compat, N0].
    + apply Rmult_le_reg_r with (INR (length l)); [exact N0|]. unfold Rdiv. rewrite Rmult_assoc, Rinv_l; lra.
  - pose proof (vsum_bound l p _ (fun a h => proj2 (ML a h))) as B. rewrite dn_norm.
    match goal with |- vnorm (vsub ?m p) <= _ => replace (vsub m p) with (vscale (vsub (V (rsum (map (fun a => vx (snd a)) l)) (rsum (map (fun a => vy (snd a)) l)) (rsum (map (fun a => vz (snd a)) l))) (vscale p (INR (length l)))) (/ INR (length l))) end.
    2:{ apply vec_ext; cbn [vx vy vz vscale vadd vsub]; field; lra. }
    rewrite vnorm_scale, Rabs_right; [|apply Rle_ge, Rlt_le, Rinv_0_lt_compat, N0].
    apply Rmult_le_reg_r with (INR (length l)); [exact N0|]. rewrite Rmult_comm, <- Rmult_assoc, Rinv_r by lra. lra.
Qed.
