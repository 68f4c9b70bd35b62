(** skew_midpoint, point_position, epipolar segment, dumbbell precision *)
From Coq Require Import Permutation.
From Verif Require Import Base Model_geo Spec_geo Proof_geo Proof_geo4 Proof_geo5.
Local Open Scope R_scope.

Definition foot1 (v1 d1 v2 d2 : vec) : vec :=
  let p := cross d1 d2 in vadd v1 (vscale d1 (dot p (cross (vsub v2 v1) d2) / dot p p)).
Definition foot2 (v1 d1 v2 d2 : vec) : vec :=
  let p := cross d1 d2 in vadd v2 (vscale d2 (dot p (cross (vsub v2 v1) d1) / dot p p)).
Lemma skew_feet v1 d1 v2 d2 : skew_midpoint v1 d1 v2 d2 =
  (vec_diff_norm (foot1 v1 d1 v2 d2) (foot2 v1 d1 v2 d2), vscale (vadd (foot1 v1 d1 v2 d2) (foot2 v1 d1 v2 d2)) (/ 2)).
Proof.
  unfold skew_midpoint. assert (E : forall d q s, V (vx d * q / s) (vy d * q / s) (vz d * q / s) = vscale d (q / s)).
  { intros. apply vec_ext; cbn; unfold Rdiv; ring. }
  rewrite !E. fold (foot1 v1 d1 v2 d2). fold (foot2 v1 d1 v2 d2). f_equal. symmetry. apply (diff_norm_metric _ _ vzero).
Qed.
Lemma feet_perp v1 d1 v2 d2 : dot (cross d1 d2) (cross d1 d2) <> 0 ->
  dot (vsub (foot1 v1 d1 v2 d2) (foot2 v1 d1 v2 d2)) d1 = 0 /\ dot (vsub (foot1 v1 d1 v2 d2) (foot2 v1 d1 v2 d2)) d2 = 0.
Proof.
  intros H. unfold foot1, foot2. set (s := dot (cross d1 d2) (cross d1 d2)) in *.
  assert (S : s = dot (cross d1 d2) (cross d1 d2)) by reflexivity. clearbody s.
  destruct v1 as [a1 a2 a3], d1 as [b1 b2 b3], v2 as [c1 c2 c3], d2 as [e1 e2 e3].
  unfold vsub, vadd, vscale, dot, cross in *. cbn [vx vy vz] in *.
  split; field_simplify_eq; try assumption; rewrite S; ring.
Qed.
Lemma pythagoras u w : dot u w = 0 -> dot u u <= dot (vadd u w) (vadd u w).
Proof. intros H. replace (dot (vadd u w) (vadd u w)) with (dot u u + 2 * dot u w + dot w w) by (vcomp; ring). rewrite H. pose proof (dot_self_pos w). lra. Qed.
Lemma skew_min v1 d1 v2 d2 : cross d1 d2 <> vzero ->
  exists a b, on_line v1 d1 a /\ on_line v2 d2 b /\ dot (vsub a b) d1 = 0 /\ dot (vsub a b) d2 = 0 /\
    skew_midpoint v1 d1 v2 d2 = (vec_diff_norm a b, vscale (vadd a b) (/ 2)) /\
    forall a' b', on_line v1 d1 a' -> on_line v2 d2 b' -> vec_diff_norm a b <= vec_diff_norm a' b'.
Proof.
  intros H. assert (N : dot (cross d1 d2) (cross d1 d2) <> 0) by (intros E; apply H; now apply dot_zero).
  destruct (feet_perp v1 d1 v2 d2 N) as [P1 P2]. exists (foot1 v1 d1 v2 d2), (foot2 v1 d1 v2 d2).
  assert (L1 : on_line v1 d1 (foot1 v1 d1 v2 d2)) by (eexists; reflexivity). assert (L2 : on_line v2 d2 (foot2 v1 d1 v2 d2)) by (eexists; reflexivity).
  split; [exact L1|]. split; [exact L2|]. split; [exact P1|]. split; [exact P2|]. split; [apply skew_feet|].
  set (f := foot1 v1 d1 v2 d2) in *. set (h := foot2 v1 d1 v2 d2) in *. clearbody f h.
  intros a' b' A B. destruct (on_line_shift _ _ _ _ L1 A) as (s & ->). destruct (on_line_shift _ _ _ _ L2 B) as (t & ->).
  rewrite (proj1 (diff_norm_metric f h vzero)), (proj1 (diff_norm_metric (vadd f (vscale d1 s)) (vadd h (vscale d2 t)) vzero)). rewrite !vnorm_dot. apply sqrt_le_1_alt.
  replace (vsub (vadd f (vscale d1 s)) (vadd h (vscale d2 t))) with (vadd (vsub f h) (vsub (vscale d1 s) (vscale d2 t))).
  2:{ clear. vec_eq. }
  apply pythagoras. replace (dot (vsub f h) (vsub (vscale d1 s) (vscale d2 t))) with (s * dot (vsub f h) d1 - t * dot (vsub f h) d2).
  2:{ clear. vcomp; ring. }
  rewrite P1, P2. ring.
Qed.
Lemma skew_sym v1 d1 v2 d2 : skew_midpoint v1 d1 v2 d2 = skew_midpoint v2 d2 v1 d1.
Proof.
  assert (E : foot1 v2 d2 v1 d1 = foot2 v1 d1 v2 d2 /\ foot2 v2 d2 v1 d1 = foot1 v1 d1 v2 d2).
  { unfold foot1, foot2. assert (D : dot (cross d2 d1) (cross d2 d1) = dot (cross d1 d2) (cross d1 d2)) by (vcomp; ring). rewrite D.
    split; f_equal; f_equal; f_equal; vcomp; ring. }
  rewrite !skew_feet. destruct E as [-> ->]. rewrite (proj1 (proj2 (diff_norm_metric (foot1 v1 d1 v2 d2) (foot2 v1 d1 v2 d2) vzero))).
  f_equal. f_equal. vec_eq.
Qed.
Lemma skew_meet v1 d1 v2 d2 p : cross d1 d2 <> vzero -> on_line v1 d1 p -> on_line v2 d2 p -> skew_midpoint v1 d1 v2 d2 = (0, p).
Proof.
  intros H A B. destruct (skew_min v1 d1 v2 d2 H) as (a & b & LA & LB & P1 & P2 & E & M).
  pose proof (M p p A B) as M'. assert (Z : vec_diff_norm p p = 0) by (apply (diff_norm_metric p p p); reflexivity). rewrite Z in M'.
  assert (AB : vec_diff_norm a b = 0). { pose proof (proj1 (diff_norm_metric a b a)) as X. pose proof (vnorm_pos (vsub a b)). lra. }
  rewrite E, AB. apply (diff_norm_metric a b a) in AB. subst b. f_equal.
  (* a = p: both on both lines *)
  destruct (on_line_shift _ _ _ _ A LA) as (s & E1). destruct (on_line_shift _ _ _ _ B LB) as (t & E2).
  assert (a = p) as ->.
  { destruct (Req_dec s 0) as [->|S]; [rewrite E1; vec_eq|]. exfalso. apply H.
    assert (Q : vscale d1 s = vscale d2 t).
    { transitivity (vsub a p); [rewrite E1|rewrite E2]; vec_eq. }
    assert (d1 = vscale d2 (t / s)) as ->.
    { apply vec_ext; [apply (f_equal vx) in Q|apply (f_equal vy) in Q|apply (f_equal vz) in Q]; cbn [vx vy vz vscale] in *;
        (apply Rmult_eq_reg_r with s; [|assumption]); rewrite Q; field; assumption. }
    vec_eq. }
  apply vec_ext; cbn [vx vy vz vscale vadd]; field.
Qed.

Lemma pair_meet rays p : meet rays p -> non_parallel rays -> Forall (fun x => x = (0, p)) (pair_results rays).
Proof.
  induction rays as [|r t]; intros M N; [constructor|]. inversion M as [|? ? M1 M2]; inversion N as [|? ? N1 N2]; subst. cbn [pair_results]. apply Forall_app. split; [|now apply IHt].
  apply Forall_forall. intros x X. apply in_map_iff in X as (q & <- & Q).
  rewrite Forall_forall in N1. rewrite Forall_forall in M2. apply skew_meet; auto.
Qed.
Lemma pair_len rays : (2 <= length rays)%nat -> pair_results rays <> [].
Proof. destruct rays as [|a [|b t]]; cbn; try lia; discriminate. Qed.
Lemma sum_d l p : Forall (fun x => x = (0, p)) l -> forall s, fold_left (fun s (a : R * vec) => s + fst a) l s = s.
Proof. induction 1 as [|x l -> H IH]; intros s; [reflexivity|]. cbn [fold_left fst]. rewrite Rplus_0_r. apply IH. Qed.
Lemma sum_p l p : Forall (fun x : R * vec => x = (0, p)) l -> forall s, fold_left (fun s a => vadd s (snd a)) l s = vadd s (vscale p (INR (length l))).
Proof.
  induction 1 as [|x l -> H IH]; intros s; [cbn; vec_eq|]. cbn [fold_left snd length]. rewrite IH, S_INR. generalize (INR (length l)). intros n. vec_eq.
Qed.
Lemma mean_meet l p : l <> [] -> Forall (fun x => x = (0, p)) l -> mean_results l = Ok (0, p).
Proof.
  intros NE H. unfold mean_results. destruct l as [|x l]; [contradiction|]. set (l0 := x :: l) in *. cbv zeta.
  rewrite (sum_d l0 p H), (sum_p l0 p H). assert (N : INR (length l0) <> 0) by (unfold l0; cbn [length]; rewrite S_INR; pose proof (pos_INR (length l)); lra).
  f_equal. f_equal; [unfold Rdiv; ring|]. apply vec_ext; cbn [vx vy vz vadd vscale vzero]; field; assumption.
Qed.
Lemma position_meet targets cals mm p : let rays := rays_of targets cals mm in
  (2 <= length rays)%nat -> meet rays p -> non_parallel rays -> point_position targets cals mm = Ok (0, p).
Proof. intros rays L M N. apply mean_meet; [now apply pair_len|now apply pair_meet]. Qed.
Lemma position_few targets cals mm : (length (rays_of targets cals mm) < 2)%nat -> point_position targets cals mm = Exn ZeroDivisionError.
Proof. unfold point_position. destruct (rays_of _ _ _) as [|a [|b t]]; cbn; try reflexivity; lia. Qed.
Lemma pairs_perm l l' : Permutation l l' -> Permutation (pair_results l) (pair_results l').
Proof.
  induction 1.
  - constructor.
  - cbn [pair_results]. apply Permutation_app; [now apply Permutation_map|assumption].
  - cbn [pair_results map]. rewrite !app_assoc. rewrite (skew_sym (fst x) (snd x)). cbn [app]. apply Permutation_cons; [reflexivity|].
    apply Permutation_app_tail. apply Permutation_app_comm.
  - now transitivity (pair_results l').
Qed.
Lemma sum_d_perm l l' : Permutation l l' -> forall s, fold_left (fun s (a : R * vec) => s + fst a) l s = fold_left (fun s a => s + fst a) l' s.
Proof.
  induction 1; intros s; cbn [fold_left]; auto.
  - replace (s + fst y + fst x) with (s + fst x + fst y) by ring. reflexivity.
  - etransitivity; eauto.
Qed.
Lemma sum_p_perm l l' : Permutation l l' -> forall s, fold_left (fun s (a : R * vec) => vadd s (snd a)) l s = fold_left (fun s a => vadd s (snd a)) l' s.
Proof.
  induction 1; intros s; cbn [fold_left]; auto.
  - replace (vadd (vadd s (snd y)) (snd x)) with (vadd (vadd s (snd x)) (snd y)) by (destruct x, y; cbn; vec_eq). reflexivity.
  - etransitivity; eauto.
Qed.
Lemma mean_perm l l' : Permutation l l' -> mean_results l = mean_results l'.
Proof.
  intros P. pose proof (Permutation_length P) as L. unfold mean_results.
  destruct l as [|x l], l' as [|y l']; try discriminate; [reflexivity|]. cbv zeta. rewrite L. rewrite (sum_d_perm _ _ P), (sum_p_perm _ _ P). reflexivity.
Qed.
Lemma position_perm targets cals mm targets' cals' : Permutation (combine targets cals) (combine targets' cals') ->
  point_position targets cals mm = point_position targets' cals' mm.
Proof. intros P. unfold point_position, rays_of. apply mean_perm, pairs_perm. now apply Permutation_flat_map. Qed.
(** in general: the mean of the results of all pairs *)
Lemma mean_is l : l <> [] -> mean_results l = Ok (rsum (map fst l) / INR (length l),
   V (rsum (map (fun a => vx (snd a)) l) / INR (length l)) (rsum (map (fun a => vy (snd a)) l) / INR (length l)) (rsum (map (fun a => vz (snd a)) l) / INR (length l))).
Proof.
  intros NE. unfold mean_results. destruct l as [|x l]; [contradiction|]. set (l0 := x :: l). cbv zeta. clearbody l0. clear x l NE.
  assert (A : forall l s, fold_left (fun s (a : R * vec) => s + fst a) l s = s + rsum (map fst l)).
  { induction l; intros s; cbn [fold_left map rsum fold_right]; [cbn; ring|]. rewrite IHl. unfold rsum. cbn [fold_right]. ring. }
  assert (B : forall l s, fold_left (fun s (a : R * vec) => vadd s (snd a)) l s =
     V (vx s + rsum (map (fun a => vx (snd a)) l)) (vy s + rsum (map (fun a => vy (snd a)) l)) (vz s + rsum (map (fun a => vz (snd a)) l))).
  { induction l; intros s; cbn [fold_left map]; [apply vec_ext; cbn; ring|]. rewrite IHl. unfold rsum. apply vec_ext; cbn [vx vy vz vadd fold_right]; ring. }
  rewrite A, B. cbn [vx vy vz vzero]. rewrite !Rplus_0_l. reflexivity.
Qed.
