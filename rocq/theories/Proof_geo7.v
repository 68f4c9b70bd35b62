(** epipolar segment, dumbbell precision, multi-camera positions, angle_acc, searchquader *)
From Verif Require Import Base Model_geo Spec_geo Proof_geo Proof_geo4 Proof_geo5 Proof_geo6.
Local Open Scope R_scope.

(** ---- epi_mm ---- *)
Lemma move_on_ray z v d : vz d <> 0 -> on_line v d (move_along_ray z v d) /\ vz (move_along_ray z v d) = z.
Proof.
  intros H. unfold move_along_ray. destruct (Req_EM_T (vz d) 0) as [?|_]; [contradiction|]. split; [|reflexivity].
  exists ((z - vz v) / vz d). apply vec_ext; cbn [vx vy vz vadd vscale]; field; assumption.
Qed.
Lemma dot_affine n a b o l : dot n (vsub (vadd (vscale a (1 - l)) (vscale b l)) o) = (1 - l) * dot n (vsub a o) + l * dot n (vsub b o).
Proof. vcomp; ring. Qed.
Lemma pos_comb l wa wb : 0 <= l <= 1 -> 0 < wa * wb -> 0 < ((1 - l) * wa + l * wb) * wa.
Proof.
  intros L H. assert (0 < wa * wa) by (assert (wa <> 0) by (intros ->; lra); nra).
  replace (((1 - l) * wa + l * wb) * wa) with ((1 - l) * (wa * wa) + l * (wa * wb)) by ring.
  generalize dependent (wa * wa). generalize dependent (wa * wb). intros B HB A HA. destruct (Rle_dec A B); nra.
Qed.
(** the image of a segment is a segment *)
Lemma project_segment c a b l : 0 <= l <= 1 -> 0 < depth c a * depth c b ->
  exists t, 0 <= t <= 1 /\ let p := vadd (vscale a (1 - l)) (vscale b l) in
    fst (project c p) = (1 - t) * fst (project c a) + t * fst (project c b) /\
    snd (project c p) = (1 - t) * snd (project c a) + t * snd (project c b).
Proof.
  intros HL HD. cbv zeta. set (p := vadd _ _).
  assert (W : depth c p = (1 - l) * depth c a + l * depth c b) by (unfold depth, p; apply dot_affine).
  unfold project. fold (depth c p) (depth c a) (depth c b).
  unfold p. rewrite !dot_affine. fold p.
  change (dot (col3 (dm (c_ext c))) (vsub a (e_pos (c_ext c)))) with (depth c a).
  change (dot (col3 (dm (c_ext c))) (vsub b (e_pos (c_ext c)))) with (depth c b).
  set (wa := depth c a) in *. set (wb := depth c b) in *.
  assert (NA : wa <> 0) by (intros X; rewrite X in HD; lra). assert (NB : wb <> 0) by (intros X; rewrite X in HD; lra). set (wp := depth c p) in *.
  assert (NP : 0 < wp * wa) by (rewrite W; now apply pos_comb). assert (NP0 : wp <> 0) by (intros X; rewrite X in NP; lra).
  destruct (Req_EM_T wp 0) as [?|_]; [contradiction|]. destruct (Req_EM_T wa 0) as [?|_]; [contradiction|]. destruct (Req_EM_T wb 0) as [?|_]; [contradiction|].
  exists (l * wb / wp). cbn [fst snd].
  assert (E : 1 - l * wb / wp = (1 - l) * wa / wp) by (rewrite W; field; lra).
  split.
  - assert (0 <= l * wb / wp /\ 0 <= (1 - l) * wa / wp) as [? ?]; [|lra].
    assert (NB2 : 0 < wb * wp) by (assert (0 < (wp * wa) * (wa * wb)) by nra; assert (0 < wa * wa) by nra; nra).
    assert (IP : 0 < / (wp * wp)) by (apply Rinv_0_lt_compat; nra).
    split.
    + replace (l * wb / wp) with (l * (wb * wp) * / (wp * wp)) by (field; assumption). apply Rmult_le_pos; [apply Rmult_le_pos; lra|lra].
    + replace ((1 - l) * wa / wp) with ((1 - l) * (wp * wa) * / (wp * wp)) by (field; assumption). apply Rmult_le_pos; [apply Rmult_le_pos; lra|lra].
  - rewrite E. split; field; auto.
Qed.
Lemma line_between v d a b p : on_line v d a -> on_line v d b -> on_line v d p -> vz d <> 0 -> vz a <= vz p <= vz b ->
  exists l, 0 <= l <= 1 /\ p = vadd (vscale a (1 - l)) (vscale b l).
Proof.
  intros (ta & ->) (tb & ->) (tp & ->) D H. cbn [vz vadd vscale] in H.
  destruct (Req_dec ta tb) as [->|N].
  - exists 0. split; [lra|]. assert (tp = tb) as -> by nra. vec_eq.
  - exists ((tp - ta) / (tb - ta)). split.
    + assert (P : 0 < / ((tb - ta) * (tb - ta))) by (apply Rinv_0_lt_compat; nra).
      replace ((tp - ta) / (tb - ta)) with ((tp - ta) * (tb - ta) * / ((tb - ta) * (tb - ta))) by (field; lra).
      assert (0 < (vz d) * vz d) by nra.
      assert (A : 0 <= (tp - ta) * (tb - ta)). { assert (0 <= ((tp - ta) * vz d) * ((tb - ta) * vz d)) by nra. nra. }
      assert (B : 0 <= (tb - tp) * (tb - ta)). { assert (0 <= ((tb - tp) * vz d) * ((tb - ta) * vz d)) by nra. nra. }
      split; [apply Rmult_le_pos; lra|]. apply Rmult_le_reg_r with ((tb - ta) * (tb - ta)); [nra|]. rewrite Rmult_assoc, Rinv_l by nra. nra.
    + apply vec_ext; cbn [vx vy vz vadd vscale]; field; lra.
Qed.
Lemma epi_segment xl yl cal1 cal2 mm v : c_glass cal2 <> vzero -> one_medium mm = true ->
  let '(pos, dir) := ray_tracing xl yl cal1 mm in
  vz dir <> 0 ->
  exists A B, epi_mm xl yl cal1 cal2 mm v = Ok (project cal2 A, project cal2 B) /\
    on_line pos dir A /\ vz A = fst (z_limits v pos) /\ on_line pos dir B /\ vz B = snd (z_limits v pos) /\
    (forall P, on_line pos dir P -> vz A <= vz P <= vz B -> 0 < depth cal2 A * depth cal2 B ->
      exists t, 0 <= t <= 1 /\
        fst (project cal2 P) = (1 - t) * fst (project cal2 A) + t * fst (project cal2 B) /\
        snd (project cal2 P) = (1 - t) * snd (project cal2 A) + t * snd (project cal2 B)).
Proof.
  intros HG OM. unfold epi_mm. destruct (ray_tracing xl yl cal1 mm) as [pos dir]. intros HZ. destruct (z_limits v pos) as [z1 z2].
  rewrite !one_medium_projection by assumption. cbn [bind].
  destruct (move_on_ray z1 pos dir HZ) as [A1 A2]. destruct (move_on_ray z2 pos dir HZ) as [B1 B2].
  exists (move_along_ray z1 pos dir), (move_along_ray z2 pos dir). split; [reflexivity|]. cbn [fst snd].
  do 4 (split; [assumption|]). intros P PL PZ DD. destruct (line_between pos dir _ _ P A1 B1 PL HZ PZ) as (l & L & ->).
  apply project_segment; assumption.
Qed.
Lemma epi_2D_mid xl yl cal1 mm v : let '(pos, dir) := ray_tracing xl yl cal1 mm in
  vz dir <> 0 -> on_line pos dir (epi_mm_2D xl yl cal1 mm v) /\ vz (epi_mm_2D xl yl cal1 mm v) = (fst (z_limits v pos) + snd (z_limits v pos)) / 2.
Proof.
  unfold epi_mm_2D. destruct (ray_tracing xl yl cal1 mm) as [pos dir]. intros HZ. destruct (z_limits v pos) as [z1 z2].
  destruct (move_on_ray (/ 2 * (z1 + z2)) pos dir HZ) as [A1 A2]. split; [assumption|]. rewrite A2. cbn [fst snd]. field.
Qed.

(** ---- dumbbell ---- *)
Lemma skew_nonneg v1 d1 v2 d2 : 0 <= fst (skew_midpoint v1 d1 v2 d2).
Proof. unfold skew_midpoint. cbn [fst]. apply vnorm_pos. Qed.
Lemma rsum_nonneg l : Forall (fun x => 0 <= x) l -> 0 <= rsum l.
Proof. induction 1; unfold rsum in *; cbn [fold_right]; lra. Qed.
Lemma pairs_nonneg rays : Forall (fun x : R * vec => 0 <= fst x) (pair_results rays).
Proof.
  induction rays as [|r t]; [constructor|]. cbn [pair_results]. apply Forall_app. split; [|assumption].
  apply Forall_forall. intros x X. apply in_map_iff in X as (q & <- & _). apply skew_nonneg.
Qed.
Lemma position_nonneg t cals mm r p : point_position t cals mm = Ok (r, p) -> 0 <= r.
Proof.
  unfold point_position. intros H. destruct (pair_results _) as [|x l] eqn:E; [discriminate|].
  pose proof (pairs_nonneg (rays_of t cals mm)) as N. rewrite E in N. rewrite mean_is in H by discriminate. injection H as <- _.
  assert (0 < INR (length (x :: l))) by (apply lt_0_INR; cbn; lia).
  apply Rmult_le_pos; [|left; now apply Rinv_0_lt_compat]. change (0 <= rsum (map fst (x :: l))). apply rsum_nonneg. apply Forall_map. exact N.
Qed.
Lemma len_err_range db a b : 0 < db -> 0 <= len_err db a b < 1 \/ (len_err db a b = 1 /\ a = b).
Proof.
  intros H. unfold len_err. pose proof (vnorm_pos (vsub a b)) as N. destruct (Rlt_dec db (vnorm (vsub a b))) as [L|L].
  - left. assert (0 < db / vnorm (vsub a b)) by (apply Rdiv_lt_0_compat; lra).
    assert (db / vnorm (vsub a b) <= 1); [|lra]. apply Rmult_le_reg_r with (vnorm (vsub a b)); [lra|]. unfold Rdiv. rewrite Rmult_assoc, Rinv_l by lra. lra.
  - destruct (Req_dec (vnorm (vsub a b)) 0) as [E|E].
    + right. split; [rewrite E; unfold Rdiv; ring|]. rewrite <- (proj1 (diff_norm_metric a b a)) in E. now apply (diff_norm_metric a b a) in E.
    + left. assert (0 < vnorm (vsub a b) / db) by (apply Rdiv_lt_0_compat; lra).
      assert (vnorm (vsub a b) / db <= 1); [|lra]. apply Rmult_le_reg_r with db; [lra|]. unfold Rdiv. rewrite Rmult_assoc, Rinv_l by lra. lra.
Qed.
Lemma len_err_nonneg db a b : 0 < db -> 0 <= len_err db a b.
Proof. intros H. destruct (len_err_range db a b H) as [?|[? _]]; lra. Qed.
Lemma len_err_zero db a b : 0 < db -> (len_err db a b = 0 <-> vec_diff_norm a b = db).
Proof.
  intros H. rewrite (proj1 (diff_norm_metric a b a)). unfold len_err. set (n := vnorm (vsub a b)). pose proof (vnorm_pos (vsub a b)) as N. fold n in N.
  destruct (Rlt_dec db n) as [L|L]; split; intros E; try lra.
  - exfalso. assert (F : db / n = 1) by lra. apply (f_equal (fun x => x * n)) in F. unfold Rdiv in F. rewrite Rmult_assoc, Rinv_l in F by lra. lra.
  - assert (F : n / db = 1) by lra. apply (f_equal (fun x => x * db)) in F. unfold Rdiv in F. rewrite Rmult_assoc, Rinv_l in F by lra. lra.
  - rewrite E. field. lra.
Qed.
Lemma ep_inv db a b t : exact_pairs db (a :: b :: t) -> vec_diff_norm (snd a) (snd b) = db /\ exact_pairs db t.
Proof. inversion 1; auto. Qed.
Lemma sums_spec db n : forall l, (length l <= n)%nat -> 0 < db -> Forall (fun x => 0 <= fst x) l ->
  let '(s, e) := dumbbell_sums db l in 0 <= s /\ 0 <= e /\ (s = 0 <-> Forall (fun x => fst x = 0) l) /\ (e = 0 <-> exact_pairs db l).
Proof.
  induction n; intros l L H F.
  - destruct l; [|cbn in L; lia]. cbn. repeat split; try lra; constructor.
  - destruct l as [|a [|b t]].
    + cbn. repeat split; try lra; constructor.
    + cbn. inversion F; subst. repeat split; try lra; try (intros; constructor; auto; fail). intros X. inversion X; subst. assumption.
    + cbn [dumbbell_sums]. inversion F as [|? ? F1 F2]; subst. inversion F2 as [|? ? F3 F4]; subst.
      specialize (IHn t ltac:(cbn in L; lia) H F4). destruct (dumbbell_sums db t) as [s e]. destruct IHn as (S0 & E0 & S1 & E1).
      pose proof (len_err_nonneg db (snd a) (snd b) H) as LN. split; [lra|]. split; [lra|]. split; split.
      * intros X. constructor; [lra|]. constructor; [lra|]. apply S1. lra.
      * intros X. inversion X as [|? ? X1 X2]; subst. inversion X2 as [|? ? X3 X4]; subst. apply S1 in X4. lra.
      * intros X. constructor; [apply len_err_zero; [assumption|lra]|apply E1; lra].
      * intros X. apply ep_inv in X as [X1 X2]. apply E1 in X2. assert (Z := proj2 (len_err_zero db (snd a) (snd b) H) X1). lra.
Qed.
Lemma all_ok_ok {A} (l : list (result A)) r : all_ok l = Ok r -> Forall2 (fun x y => x = Ok y) l r.
Proof.
  revert r. induction l as [|x l]; intros r; cbn [all_ok]; [intros [= <-]; constructor|].
  destruct x as [a|]; cbn [bind]; [|discriminate]. destruct (all_ok l) as [b|]; cbn [bind]; [|discriminate]. intros [= <-]. constructor; auto.
Qed.
Lemma dumbbell_spec targets mm cals db w q : 0 < db -> 0 <= w -> weighted_dumbbell_precision targets mm cals db w = Ok q ->
  exists pts, Forall2 (fun t p => point_position t cals mm = Ok p) targets pts /\ 0 <= q /\
    (q = 0 <-> Forall (fun x => fst x = 0) pts /\ (w = 0 \/ exact_pairs db pts)).
Proof.
  intros HD HW. unfold weighted_dumbbell_precision. destruct (all_ok _) as [pts|] eqn:E; cbn [bind]; [|discriminate].
  intros HQ. apply all_ok_ok in E. exists pts.
  assert (F2 : Forall2 (fun t p => point_position t cals mm = Ok p) targets pts).
  { revert E. clear. revert pts. induction targets as [|t l IH]; intros pts E; cbn [map] in E; inversion E; subst; constructor; auto. }
  split; [exact F2|].
  assert (F : Forall (fun x => 0 <= fst x) pts).
  { clear - F2. induction F2 as [|t p l l' H]; constructor; auto. destruct p as [r p]. eapply position_nonneg. exact H. }
  destruct (length pts =? 0)%nat eqn:L; [discriminate|]. apply Nat.eqb_neq in L. injection HQ as <-. unfold dumbbell_precision.
  pose proof (sums_spec db (length pts) pts (le_n _) HD F) as S. destruct (dumbbell_sums db pts) as [s e]. destruct S as (S0 & E0 & S1 & E1).
  assert (N : 0 < INR (length pts)) by (apply lt_0_INR; lia). set (n := INR (length pts)) in *.
  assert (IN : 0 < / n) by (now apply Rinv_0_lt_compat).
  assert (EQ : s / n + w * e / (/ 2 * n) = (s + 2 * (w * e)) * / n) by (field; lra). rewrite EQ.
  assert (0 <= w * e) by nra. split; [nra|]. rewrite <- S1, <- E1. split.
  - intros X. apply Rmult_integral in X as [X|X]; [|lra]. split; [lra|]. assert (w * e = 0) as Y by lra. apply Rmult_integral in Y. tauto.
  - intros [-> [->| ->]]; ring.
Qed.

(** ---- multi_cam_point_positions ---- *)
Lemma multi_last targets mm cals pts : targets <> [] -> Forall2 (fun t p => point_position t cals mm = Ok p) targets pts ->
  multi_cam_point_positions targets mm cals = Ok (One (snd (last pts (0, vzero))), map fst pts).
Proof.
  intros NE H. unfold multi_cam_point_positions.
  assert (G : forall targets pts, Forall2 (fun t p => point_position t cals mm = Ok p) targets pts -> forall st rcm,
     foldM (fun st t => let '(_, rcm) := st in do r <- point_position t cals mm; Ok (One (snd r), rcm ++ [fst r])) targets (st, rcm) =
     Ok (match pts with [] => st | _ => One (snd (last pts (0, vzero))) end, rcm ++ map fst pts)).
  { clear. induction 1 as [|t p l l' H F IH]; intros st rcm; [cbn; now rewrite app_nil_r|]. cbn [foldM]. rewrite H. cbn [bind]. rewrite IH.
    f_equal. f_equal; [destruct l' as [|q l'']; reflexivity|]. cbn [map]. now rewrite <- app_assoc. }
  rewrite (G _ _ H). destruct H; [contradiction|]. reflexivity.
Qed.

(** ---- angle_acc ---- *)
Lemma dot_bound a b : a <> vzero -> b <> vzero -> -1 <= dot a b / (vnorm a * vnorm b) <= 1.
Proof.
  intros A B. pose proof (norm_pos_ne a A). pose proof (norm_pos_ne b B). pose proof (cauchy_schwarz a b) as C. pose proof (cauchy_schwarz (vneg a) b) as C'.
  replace (vnorm (vneg a)) with (vnorm a) in C' by (rewrite !vnorm_dot; f_equal; vcomp; ring). replace (dot (vneg a) b) with (- dot a b) in C' by (vcomp; ring).
  assert (0 < vnorm a * vnorm b) by nra. split; (apply Rmult_le_reg_r with (vnorm a * vnorm b); [assumption|]); unfold Rdiv; rewrite Rmult_assoc, Rinv_l by lra; lra.
Qed.
Lemma angle_spec start pred cand : pred <> start -> cand <> start ->
  let v0 := vsub pred start in let v1 := vsub cand start in
  let '(ang, acc) := angle_acc start pred cand in
  0 <= ang <= 200 /\ acc = vec_diff_norm pred cand /\ cos (ang * PI / 200) = dot v0 v1 / (vnorm v0 * vnorm v1) /\ (pred = cand -> ang = 0).
Proof.
  intros NP NC. cbv zeta. unfold angle_acc. set (v0 := vsub pred start). set (v1 := vsub cand start).
  assert (Z0 : v0 <> vzero). { intros E. apply NP. rewrite <- (proj1 (proj2 (proj2 (diff_norm_metric pred start start)))). rewrite (proj1 (diff_norm_metric pred start start)). now apply vnorm_zero. }
  assert (Z1 : v1 <> vzero). { intros E. apply NC. rewrite <- (proj1 (proj2 (proj2 (diff_norm_metric cand start start)))). rewrite (proj1 (diff_norm_metric cand start start)). now apply vnorm_zero. }
  pose proof (norm_pos_ne v0 Z0) as P0. pose proof (norm_pos_ne v1 Z1) as P1.
  assert (ACC : vnorm (vsub v0 v1) = vec_diff_norm pred cand).
  { rewrite (proj1 (diff_norm_metric pred cand cand)). f_equal. unfold v0, v1. clear. vec_eq. }
  assert (PC : pred = cand -> v0 = v1) by (intros ->; reflexivity).
  assert (SW : forall a, vnorm (vsub start a) = vnorm (vsub a start)) by (intros; rewrite !vnorm_dot; f_equal; clear; vcomp; ring).
  pose proof PI_RGT_0 as PP.
  destruct (veq_dec v0 (vneg v1)) as [E|E].
  - split; [lra|]. split; [exact ACC|]. split.
    + replace (200 * PI / 200) with PI by field. rewrite cos_PI.
      assert (vnorm v0 = vnorm v1) as EN by (rewrite E; rewrite !vnorm_dot; f_equal; clear; generalize v1; clear; intros v; vcomp; ring).
      replace (dot v0 v1) with (- dot v1 v1) by (rewrite E; clear; generalize v1; clear; intros v; vcomp; ring). rewrite EN, <- vnorm_sq. field. lra.
    + intros X. apply PC in X. exfalso. apply Z1. rewrite X in E. clear - E. revert E. generalize v1. clear. intros [a b c] E. injection E. intros. apply vec_ext; cbn; lra.
  - destruct (veq_dec v0 v1) as [E2|E2].
    + split; [lra|]. split; [exact ACC|]. split; [|reflexivity]. replace (0 * PI / 200) with 0 by field. rewrite cos_0, E2, vnorm_sq. rewrite <- vnorm_sq. field. lra.
    + assert (B := dot_bound v0 v1 Z0 Z1). rewrite !SW. fold v0 v1. set (q := dot v0 v1 / (vnorm v0 * vnorm v1)) in *.
      pose proof (acos_bound q) as AB. assert (IP : 0 < / PI) by (now apply Rinv_0_lt_compat).
      split; [|split; [exact ACC|split; [|intros X; apply PC in X; contradiction]]].
      * split; [apply Rmult_le_pos; [apply Rmult_le_pos; lra|lra]|]. apply Rmult_le_reg_r with PI; [assumption|].
        replace (200 / PI * acos q * PI) with (200 * acos q) by (field; lra). lra.
      * replace (200 / PI * acos q * PI / 200) with (acos q) by (field; lra). now apply cos_acos.
Qed.
Lemma angle_stationary start : fst (angle_acc start start start) = 200.
Proof.
  unfold angle_acc. destruct (veq_dec _ _) as [E|E]; [reflexivity|]. exfalso. apply E. vec_eq.
Qed.

(** ---- searchquader ---- *)
Definition clampR (lo hi x : R) : R := Rmax lo (Rmin hi x).
