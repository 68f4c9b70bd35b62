(** Calibration: C52, C53, C61, C62, C63. *)
From Coq Require Import Sorted.
From Verif Require Import F64 Model_text Model_par Model_geo Spec_geo Proof_geo Model_orient Spec_orient Proof_orient Proof_orient2 Proof_orient3 Proof_orient4 Proof_orient5 Lib Base.
From Verif Require Proof_geo9 Spec_geo.
Local Open Scope R_scope.

(** ---------------- C53: numerical derivatives ---------------- *)
(** The six numbers are the forward differences of the image coordinates, each with only that
    parameter changed and the matching rotation matrix; afterwards the camera is the same again. *)
Theorem C53_differences : forall mm dpos dang pos c c' xd yd, num_deriv_exterior mm dpos dang pos c = (c', Ok (xd, yd)) ->
  length xd = 6%nat /\ length yd = 6%nat /\
  exists x y, img_coord pos (camera_at c (ext_params c)) mm = Ok (x, y) /\
  forall i, (i < 6)%nat -> let s := if (i <? 3)%nat then dpos else dang in
  exists xi yi, img_coord pos (moved c i s) mm = Ok (xi, yi) /\ nth i xd 0 = (xi - x) / s /\ nth i yd 0 = (yi - y) / s.
Proof.
  intros mm dpos dang pos c c' xd yd E. apply num_deriv_ok in E. destruct E as (_ & x & y & I & L & L' & F). split; [exact L|]. split; [exact L'|]. exists x, y. split.
  - rewrite <- I. f_equal. unfold camera_at, update_rot, with_ext, rotation_matrix, ext_params. cbn [nth]. rewrite <- rot_product. destruct (e_pos (c_ext c)). reflexivity.
  - intros i Hi. apply F. exact Hi.
Qed.
Print Assumptions C53_differences.
Theorem C53_restored : forall mm dpos dang pos c c' d, num_deriv_exterior mm dpos dang pos c = (c', Ok d) -> consistent (c_ext c) -> c' = c.
Proof.
  intros mm dpos dang pos c c' [xd yd] E C. apply num_deriv_ok in E. destruct E as (-> & _). unfold consistent in C. rewrite <- rot_product in C.
  destruct c as [[p o ph k m] i g a l]. unfold update_rot, with_ext, rotation_matrix. cbn in *. now rewrite C.
Qed.
Print Assumptions C53_restored.
(** as the step goes to zero the numbers tend to the partial derivatives *)
Theorem C53_limit : forall mm pos c i (X Y : R -> R) l l', (i < 6)%nat -> (forall s, img_coord pos (moved c i s) mm = Ok (X s, Y s)) ->
  derivable_pt_lim X 0 l -> derivable_pt_lim Y 0 l' ->
  forall eps, 0 < eps -> exists delta, 0 < delta /\ forall dpos dang c' xd yd, let s := if (i <? 3)%nat then dpos else dang in
  s <> 0 -> Rabs s < delta -> num_deriv_exterior mm dpos dang pos c = (c', Ok (xd, yd)) -> Rabs (nth i xd 0 - l) < eps /\ Rabs (nth i yd 0 - l') < eps.
Proof.
  intros mm pos c i X Y l l' Hi H DX DY eps He. destruct (DX eps He) as (d1 & P1). destruct (DY eps He) as (d2 & P2).
  exists (Rmin d1 d2). split; [apply Rmin_pos; [apply (cond_pos d1)|apply (cond_pos d2)]|]. intros dpos dang c' xd yd s Hs Ls E. apply num_deriv_ok in E.
  destruct E as (_ & x & y & I & _ & _ & F). destruct (F i Hi) as (xi & yi & E & -> & ->). change (step_of dpos dang i) with s in *. rewrite H in E. injection E as <- <-.
  rewrite <- (moved_0 c i Hi), H in I. injection I as <- <-. split.
  - rewrite <- (Rplus_0_l s) at 1. apply P1; [exact Hs|]. eapply Rlt_le_trans; [exact Ls|apply Rmin_l].
  - rewrite <- (Rplus_0_l s) at 1. apply P2; [exact Hs|]. eapply Rlt_le_trans; [exact Ls|apply Rmin_r].
Qed.
Print Assumptions C53_limit.
(** In binary64 "+ step" and "- step" do not cancel: an angle of 1e-9 is changed by one call with step 1e-6. *)
Theorem C53_float_refuted : let x := f_of_dec false 1 9 in let s := f_of_dec false 1 6 in fadd (fadd x s) (fneg s) <> x.
Proof. vm_compute. discriminate. Qed.
Print Assumptions C53_float_refuted.
(** a camera with a table of two cells, so that img_coord raises for radii below 1 *)
Definition edge_cal : calib := mk_calib (mk_ext (V (-1) 0 10) 0 0 0 identity3) (mk_int 0 0 1) (V 0 0 1) no_distortion (mk_lut vzero 2 1 1 [0; 0]).
Definition water_mm : mmpar := mk_mm 1 1 [1] [1] (133 / 100).
Lemma trunc_small x : 0 <= x < 1 -> trunc x = 0%Z.
Proof.
  intros H. unfold trunc. destruct (Rlt_dec x 0); [lra|]. pose proof (base_Int_part x) as (A & B). assert (IZR (Int_part x) < 1) as A1 by lra. assert (-1 < IZR (Int_part x)) as B1 by lra.
  apply lt_IZR in A1. apply lt_IZR in B1. lia.
Qed.
Lemma water_not_one : one_medium water_mm = false.
Proof. unfold one_medium, water_mm, n2_0. cbn. destruct (Req_EM_T 1 1); [|reflexivity]. destruct (Req_EM_T (133 / 100) 1); [lra|reflexivity]. Qed.
Lemma edge_norm x : 0 <= x -> vnorm (V x 0 0) = x.
Proof. intros H. unfold vnorm. cbn [vx vy vz]. replace (x * x + 0 * 0 + 0 * 0) with (x * x) by ring. apply sqrt_square. exact H. Qed.
Lemma unit_norm : vnorm (V 0 0 1) = 1.
Proof. unfold vnorm. cbn [vx vy vz]. replace (0 * 0 + 0 * 0 + 1 * 1) with 1 by ring. apply sqrt_1. Qed.
Lemma edge_trans px : px <= 0 -> trans_cam_point (V px 0 10) 1 (V 0 0 1) (V 0 0 1) = (V (- px) 0 0, V 0 0 1, V px 0 2, 9).
Proof.
  intros H. unfold trans_cam_point. rewrite unit_norm. destruct (Req_EM_T 1 0); [lra|]. unfold dot, vsub, vscale. cbn [vx vy vz].
  repeat match goal with |- (_, _) = (_, _) => apply f_equal2 | |- V _ _ _ = V _ _ _ => f_equal end; try (field; fail).
  match goal with |- vnorm ?v = _ => replace v with (V (- px) 0 0) by (f_equal; field) end. apply edge_norm. lra.
Qed.
Lemma edge_table r : 0 <= r -> get_mmf_from_mmlut (mk_lut vzero 2 1 1 (repeat 0 2)) (V r 0 0) = if Rlt_dec r 1 then Exn IndexError else get_mmf_from_mmlut (mk_lut vzero 2 1 1 (repeat 0 2)) (V r 0 0).
Proof.
  intros Hr. destruct (Rlt_dec r 1) as [L|]; [|reflexivity]. unfold get_mmf_from_mmlut. cbn [l_origin l_rw l_nr l_nz l_data vsub vzero vx vy vz].
  replace (r - 0) with r by ring. replace (0 - 0) with 0 by ring. rewrite edge_norm by exact Hr. replace (r / 1) with r by field. replace (0 / 1) with 0 by field.
  rewrite (trunc_small r) by lra. rewrite (trunc_small 0) by lra. reflexivity.
Qed.
Lemma edge_img x : x <= 0 -> -1 < x -> img_coord (V 0 0 1) (with_ext edge_cal (mk_ext (V x 0 10) 0 0 0 (rotation_of 0 0 0))) water_mm = Exn IndexError.
Proof.
  intros H L. unfold img_coord, flat_image_coord. cbn [with_ext c_ext e_pos c_glass c_lut edge_cal]. change (d_0 water_mm) with 1. rewrite edge_trans by exact H.
  unfold multimed_nlay, multimed_r_nlay. rewrite water_not_one. cbn [l_nr l_nz l_origin l_rw Z.eqb andb negb]. change (Z.to_nat (2 * 1)) with 2%nat.
  rewrite edge_table by lra. destruct (Rlt_dec (- x) 1); [reflexivity|lra].
Qed.
Lemma trunc_one : trunc 1 = 1%Z.
Proof.
  unfold trunc. destruct (Rlt_dec 1 0); [lra|]. pose proof (base_Int_part 1) as (A & B). assert (IZR (Int_part 1) < 2) as A1 by lra. assert (0 < IZR (Int_part 1)) as B1 by lra.
  apply lt_IZR in A1. apply lt_IZR in B1. lia.
Qed.
Lemma edge_start : exists xy, img_coord (V 0 0 1) (update_rot edge_cal) water_mm = Ok xy.
Proof.
  unfold img_coord, flat_image_coord. cbn [update_rot with_ext c_ext e_pos c_glass c_lut edge_cal rotation_matrix]. change (d_0 water_mm) with 1. rewrite edge_trans by lra.
  unfold multimed_nlay, multimed_r_nlay. rewrite water_not_one. cbn [l_nr l_nz l_origin l_rw Z.eqb andb negb]. change (Z.to_nat (2 * 1)) with 2%nat.
  unfold get_mmf_from_mmlut. cbn [l_origin l_rw l_nr l_nz l_data vsub vzero vx vy vz].
  replace (- -1 - 0) with 1 by ring. replace (0 - 0) with 0 by ring. rewrite edge_norm by lra. replace (1 / 1) with 1 by field. replace (0 / 1) with 0 by field.
  rewrite trunc_one. rewrite (trunc_small 0) by lra. cbn [Z.gtb Z.compare orb Z.ltb existsb Z.add Z.mul Pos.mul Pos.add Pos.compare Pos.compare_cont bind]. eexists. reflexivity.
Qed.
(** An exception in the middle leaves the camera displaced (for every small step). *)
Theorem C53_raise_refuted : forall dpos dang, 0 < dpos < 1 -> exists c', num_deriv_exterior water_mm dpos dang (V 0 0 1) edge_cal = (c', Exn IndexError) /\ vx (e_pos (c_ext edge_cal)) = -1 /\ vx (e_pos (c_ext c')) = -1 + dpos.
Proof.
  intros dpos dang H. unfold num_deriv_exterior. unfold sbind at 1, smod at 1. cbv beta iota. unfold sbind at 1, simg at 1. destruct edge_start as (xy & E0). rewrite E0. cbv beta iota.
  unfold sbind at 1. change (seq 0 6) with (0 :: seq 1 5)%nat. rewrite deriv_step. change (step_of dpos dang 0) with dpos.
  change (B 0 dpos (update_rot edge_cal)) with (with_ext edge_cal (mk_ext (V (-1 + dpos) 0 10) 0 0 0 (rotation_of 0 0 0))). rewrite edge_img by lra.
  eexists. split; [reflexivity|]. cbn. split; reflexivity.
Qed.
Print Assumptions C53_raise_refuted.
Example C53_example : forall dpos dang pos, exists d, num_deriv_exterior simple_mm dpos dang pos simple_cal = (simple_cal, Ok d).
Proof.
  intros dpos dang pos. assert (HM : one_medium simple_mm = true). { unfold one_medium, simple_mm, n2_0. cbn. destruct (Req_EM_T 1 1); [reflexivity|lra]. }
  destruct (nr_num_deriv simple_mm dpos dang HM pos simple_cal) as (c' & d & E). exists d. rewrite E. f_equal. eapply C53_restored; [exact E|].
  unfold consistent. cbn. now rewrite <- rot_product.
Qed.

(** ---------------- C52: orient ---------------- *)
(** For every solver: parameters whose flag is zero keep their value, the table is kept,
    and the glass is kept if it is not to be estimated.  Holds whether or not it converged. *)
Theorem C52_frozen : forall mm cp tol lstsq fix_ pix fl h drad c c' r, orient mm cp tol lstsq fix_ pix fl h drad c = (c', Ok r) ->
  (forall i, (i < 10)%nat -> nth i (inner_flags fl) 1%Z = 0%Z -> nth i (inner_params c') 0 = nth i (inner_params c) 0) /\
  c_lut c' = c_lut c /\ (op_interf fl = 0%Z -> c_glass c' = c_glass c).
Proof.
  intros mm cp tol lstsq fix_ pix fl h drad c c' r E. apply orient_ok in E. destruct E as (c1 & p & EP & D). apply passes_keep in EP. destruct EP as ((L & K) & G).
  destruct D as [(_ & -> & _)|(_ & -> & _)]; repeat split; auto; apply K.
Qed.
Print Assumptions C52_frozen.
(** On success the rotation matrix belongs to the angles, and the last corrections were small. *)
Theorem C52_success : forall mm cp tol lstsq fix_ pix fl h drad c c' resi, orient mm cp tol lstsq fix_ pix fl h drad c = (c', Ok (Some resi)) ->
  consistent (c_ext c') /\ length resi = (2 * length fix_ + 10)%nat /\
  exists X y beta, lstsq X y = Ok beta /\ (forall i, (i < if (op_interf fl =? 0)%Z then 16 else 18)%nat -> Rabs (beta i) <= 1 / 10000).
Proof.
  intros mm cp tol lstsq fix_ pix fl h drad c c' resi E. apply orient_ok in E. destruct E as (c1 & p & EP & [(S & -> & R)|(_ & _ & [=])]). split.
  { unfold consistent, update_rot, with_ext, rotation_matrix. cbn [c_ext dm omega phi kappa]. apply rot_product. }
  apply passes_last in EP. destruct EP as (c0 & EP). apply pass_ok in EP. destruct EP as (c3 & os & beta & EP & ES & _ & ->). split.
  - injection R as ->. unfold residuals, zip_with. rewrite map_length, combine_length. cbn [ps_obs ps_y]. unfold design_x, design_y, pad_to, maxsize. rewrite !app_length, !repeat_length.
    apply points_obs in EP. apply F2_length in EP. assert (LO : (length os <= length fix_)%nat).
    { rewrite <- EP. rewrite <- (seq_length (length fix_) 0) at 2. generalize (seq 0 (length fix_)) as q. induction q as [|x q IH]; cbn; [lia|]. destruct (part_b pix fl x); cbn; lia. }
    change (length ident_rows) with 10%nat. change (length (ident_y (c_added c) c3)) with 10%nat. rewrite !len_flat2. unfold obs in *. lia.
  - unfold solve in ES. eexists _, _, beta. split; [exact ES|]. intros i Hi. cbn [ps_stop] in S. replace (1 / 10000) with CONVERGENCE by (unfold CONVERGENCE; field). now apply (conv_bound fl beta i S).
Qed.
Print Assumptions C52_success.
(** "otherwise, returned untouched" is false: after 80 passes without convergence None is returned and
    the exterior parameters have been changed by all 80 corrections. *)
Theorem C52_failure_refuted : forall mm cp tol lstsq fix_ pix fl h drad c c', orient mm cp tol lstsq fix_ pix fl h drad c = (c', Ok None) ->
  exists betas, length betas = 80%nat /\
  Forall (fun b => (exists X y, lstsq X y = Ok b) /\ exists i, (i < if (op_interf fl =? 0)%Z then 16 else 18)%nat /\ 1 / 10000 < Rabs (b i)) betas /\
  forall i, (i < 6)%nat -> nth i (ext_params c') 0 = nth i (ext_params c) 0 + total i betas.
Proof.
  intros mm cp tol lstsq fix_ pix fl h drad c c' E. apply orient_ok in E. destruct E as (c1 & p & EP & [(_ & _ & [=])|(S & -> & _)]).
  apply passes_steps in EP; [|exact S]. destruct EP as (bs & L & F & A). exists bs. split; [exact L|]. split; [|exact A].
  eapply Forall_impl; [|exact F]. intros b (Q & i & Li & Lt). split; [exact Q|]. exists i. split; [exact Li|]. unfold CONVERGENCE in Lt. lra.
Qed.
Print Assumptions C52_failure_refuted.
Definition unit_step : list (list R) -> list R -> result (nat -> R) := fun _ _ => Ok (fun i => if (i =? 0)%nat then 1 else 0).
Lemma simple_one : one_medium simple_mm = true.
Proof. unfold one_medium, simple_mm, n2_0. cbn. destruct (Req_EM_T 1 1); [reflexivity|lra]. Qed.
Lemma total_repeat i (b : nat -> R) : forall bs, Forall (fun x => x i = b i) bs -> total i bs = INR (length bs) * b i.
Proof. induction 1; [unfold total; cbn; ring|]. unfold total in *. cbn [map fold_right length]. rewrite S_INR, IHForall, H. ring. Qed.
(** an instance: a solver that always proposes to move by 1 along x *)
Theorem C52_touched_refuted : forall fix_ pix fl h drad tol, (length fix_ <= length pix)%nat -> exists c', orient simple_mm simple_cpar tol unit_step fix_ pix fl h drad simple_cal = (c', Ok None) /\
  vx (e_pos (c_ext simple_cal)) = 0 /\ vx (e_pos (c_ext c')) = 80.
Proof.
  intros fix_ pix fl h drad tol HL. destruct (nr_orient simple_mm simple_cpar tol unit_step fix_ pix fl h drad simple_one) with (c := simple_cal) as (c' & r & E); [intros; eexists; reflexivity|exact HL|].
  destruct r as [resi|].
  - exfalso. apply C52_success in E. destruct E as (_ & _ & X & y & beta & S & F). injection S as <-. specialize (F 0%nat). cbn in F. rewrite Rabs_R1 in F.
    assert (Q : 1 <= 1 / 10000) by (apply F; destruct (_ =? 0)%Z; lia). lra.
  - exists c'. split; [exact E|]. split; [reflexivity|]. apply C52_failure_refuted in E. destruct E as (bs & L & F & A). specialize (A 0%nat ltac:(lia)). cbn [ext_params nth] in A. rewrite A.
    rewrite (total_repeat 0 (fun i => if (i =? 0)%nat then 1 else 0)).
    + rewrite L. cbn [simple_cal c_ext simple_ext set_angles rotation_matrix e_pos vx Nat.eqb]. rewrite INR_IZR_INZ. change (Z.of_nat 80) with 80%Z. ring.
    + eapply Forall_impl; [|exact F]. intros b ((X & y & S) & _). injection S as <-. reflexivity.
Qed.
Print Assumptions C52_touched_refuted.
(** With the interface flag the glass is to be estimated, but each point resets it to its start
    value: on success it differs from the start by at most 2e-4 of its length, however far off the start was. *)
Theorem C52_interface_refuted : forall mm cp tol lstsq fix_ pix fl h drad c c' r, orient mm cp tol lstsq fix_ pix fl h drad c = (c', Ok (Some r)) ->
  (exists i, (i < length fix_)%nat /\ takes_part fl pix i) ->
  Rabs (vx (c_glass c') - vx (c_glass c)) <= 2 / 10000 * vnorm (c_glass c) /\
  Rabs (vy (c_glass c') - vy (c_glass c)) <= 2 / 10000 * vnorm (c_glass c) /\
  Rabs (vz (c_glass c') - vz (c_glass c)) <= 2 / 10000 * vnorm (c_glass c).
Proof.
  intros mm cp tol lstsq fix_ pix fl h drad c c' r E X. pose proof (interface_bound _ _ _ _ _ _ _ _ _ _ _ _ E X) as (A & B & C). unfold CONVERGENCE in A, B, C.
  replace (2 / 10000 * vnorm (c_glass c)) with (2 * / 10000 * vnorm (c_glass c)) by field. auto.
Qed.
Print Assumptions C52_interface_refuted.
(** the two directions in which the glass is moved are not perpendicular to it *)
Theorem C52_directions_refuted : dot (glass_dir1 (V 0 1 1)) (V 0 1 1) < 0.
Proof.
  unfold glass_dir1, unit_vector. set (n := vnorm (V (2 * _ - _) _ _)). assert (N : 0 < n).
  { unfold n, vnorm. cbn [vx vy vz]. apply sqrt_lt_R0. lra. }
  assert (M : 0 < vnorm (V 0 1 1)) by (unfold vnorm; cbn [vx vy vz]; apply sqrt_lt_R0; lra). set (m := vnorm (V 0 1 1)) in *.
  destruct (Req_EM_T n 0); [lra|]. clearbody n m. unfold dot, vscale. cbn [vx vy vz].
  match goal with |- ?e < 0 => replace e with (- (2 / n * m)) by (field; lra) end. apply Ropp_lt_gt_0_contravar. apply Rmult_lt_0_compat; [|exact M]. apply Rdiv_lt_0_compat; lra.
Qed.
Print Assumptions C52_directions_refuted.
(** solver that proposes nothing: orient succeeds at once *)
Definition zero_step : list (list R) -> list R -> result (nat -> R) := fun _ _ => Ok (fun _ => 0).
Lemma zero_some fix_ pix fl h drad tol c : (length fix_ <= length pix)%nat -> exists c' resi, orient simple_mm simple_cpar tol zero_step fix_ pix fl h drad c = (c', Ok (Some resi)).
Proof.
  intros HL. destruct (nr_orient simple_mm simple_cpar tol zero_step fix_ pix fl h drad simple_one) with (c := c) as (c' & r & E); [intros; eexists; reflexivity|exact HL|].
  destruct r as [resi|]; [eauto|]. exfalso. apply C52_failure_refuted in E. destruct E as (bs & L & F & _). destruct bs; [discriminate|]. apply Forall_cons_iff in F.
  destruct F as (((X & y & S) & i & _ & Q) & _). injection S as <-. rewrite Rabs_R0 in Q. lra.
Qed.
Example C52_example : exists c' resi, orient simple_mm simple_cpar 0 zero_step [V 0 0 0; V 1 1 0] [(0%Z, (1, 1)); (1%Z, (2, 2))] orient_default 1 1 simple_cal = (c', Ok (Some resi)) /\
  length resi = 14%nat /\ takes_part orient_default [(0%Z, (1, 1)); (1%Z, (2, 2))] 1.
Proof.
  destruct (zero_some [V 0 0 0; V 1 1 0] [(0%Z, (1, 1)); (1%Z, (2, 2))] orient_default 1 1 0 simple_cal ltac:(cbn; lia)) as (c' & resi & E). exists c', resi. split; [exact E|]. split.
  - now apply C52_success in E.
  - exists (2, 2). split; [reflexivity|]. repeat split; discriminate.
Qed.

(** The systems: in every pass the solver gets the differences of the image coordinates, measured minus
    projected, and ten rows that hold the interior parameters (of these the first three pull towards the
    current value, not towards the initial one), for the camera with all corrections so far. *)
Theorem C52_systems : forall mm cp tol lstsq fix_ pix fl h drad c c' r, orient mm cp tol lstsq fix_ pix fl h drad c = (c', Ok r) ->
  exists us bs b g', let all := bs ++ [b] in
  StronglySorted lt us /\ (forall i, In i us <-> (i < length fix_)%nat /\ takes_part fl pix i) /\
  (length bs <= 79)%nat /\ Forall (fun b => exists i, (i < unknowns fl)%nat /\ 1 / 10000 < Rabs (b i)) bs /\
  (forall k x, nth_error all k = Some x -> exists X y g, lstsq X y = Ok x /\
     full_system mm cp tol fix_ pix fl h drad (glass_dir1 (c_glass c)) (glass_dir2 (c_glass c)) us c (calibrated c (map (applied fl) (firstn k all)) g) X y /\
     (us <> [] \/ op_interf fl = 0%Z -> g = glass_after fl c (firstn k all))) /\
  camera_at c' (ext_params c') = calibrated c (map (applied fl) all) g' /\ (us <> [] \/ op_interf fl = 0%Z -> g' = glass_after fl c all) /\
  (r <> None -> c' = calibrated c (map (applied fl) all) g') /\
  (r <> None <-> forall i, (i < unknowns fl)%nat -> Rabs (b i) <= 1 / 10000) /\ (r = None -> length bs = 79%nat).
Proof.
  intros mm cp tol lstsq fix_ pix fl h drad c c' r E. apply orient_sys in E. destruct E as (bs & b & g' & L & F & S & U & G & U' & ST & K & _). destruct (us_spec fix_ pix fl) as (U1 & U2 & U3).
  exists (filter (part_b pix fl) (seq 0 (length fix_))), bs, b, g'. cbv zeta in *. split; [exact U1|]. split; [exact U2|]. split; [exact L|].
  split. { eapply Forall_impl; [|exact F]. intros q N. assert (Q : ~ Forall (fun i => Rabs (q i) <= 1 / 10000) (seq 0 (unknowns fl))).
    { intros Z. apply N. intros i Hi. rewrite Forall_forall in Z. apply Z, in_seq. lia. }
    apply Exists_Forall_neg in Q; [|intros i; destruct (Rle_dec (Rabs (q i)) (1 / 10000)); tauto]. apply Exists_exists in Q. destruct Q as (i & Hi & W). apply in_seq in Hi. exists i. split; [lia|lra]. }
  split; [exact S|]. split; [exact U|]. split; [exact G|]. split; [exact U'|]. split; [exact ST|exact K].
Qed.
Print Assumptions C52_systems.

(** ---------------- C61: table of residuals ---------------- *)
(** Row k carries the label of target k and the residual of the k-th point that took part:
    the linear prediction from the last (small) correction minus (measured - projected). *)
Theorem C61_rows : forall mm cp tol lstsq fix_ pix fl h drad c c' rows, full_calibration mm cp tol lstsq fix_ pix fl h drad c = (c', Ok rows) ->
  exists us bs beta X y g, StronglySorted lt us /\ (forall i, In i us <-> (i < length fix_)%nat /\ takes_part fl pix i) /\
  ((forall i, (i < length fix_)%nat -> takes_part fl pix i) -> us = seq 0 (length fix_)) /\
  full_system mm cp tol fix_ pix fl h drad (glass_dir1 (c_glass c)) (glass_dir2 (c_glass c)) us c (calibrated c (map (applied fl) bs) g) X y /\
  (us <> [] \/ op_interf fl = 0%Z -> g = glass_after fl c bs) /\
  lstsq X y = Ok beta /\ (forall i, (i < unknowns fl)%nat -> Rabs (beta i) <= 1 / 10000) /\
  (exists g', c' = calibrated c (map (applied fl) (bs ++ [beta])) g') /\
  length rows = length pix /\
  forall k i t, nth_error us k = Some i -> nth_error pix k = Some t ->
    nth_error rows k = Some (row_sum (nth (2 * k) X []) (applied fl beta) - nth (2 * k) y 0, row_sum (nth (2 * k + 1) X []) (applied fl beta) - nth (2 * k + 1) y 0, fst t).
Proof.
  intros mm cp tol lstsq fix_ pix fl h drad c c' rows E. apply full_sys in E. destruct E as (bs & b & X & y & g & L & S & G & SM & C & LR & R). destruct (us_spec fix_ pix fl) as (U1 & U2 & U3).
  exists (filter (part_b pix fl) (seq 0 (length fix_))), bs, b, X, y, g. split; [exact U1|]. split; [exact U2|]. split; [exact U3|]. split; [exact S|]. split; [exact G|]. split; [exact L|]. split; [exact SM|]. split; [exact C|]. split; [exact LR|exact R].
Qed.
Print Assumptions C61_rows.
(** If only m of the points took part, row m, which carries the label of target m, holds no residual of any
    point: it is (0, 0) when the principal distance and point are frozen, however badly target m fits. *)
Theorem C61_unused_refuted : forall mm cp tol lstsq fix_ pix fl h drad c c' rows us t, full_calibration mm cp tol lstsq fix_ pix fl h drad c = (c', Ok rows) ->
  op_cc fl = 0%Z -> op_xh fl = 0%Z -> StronglySorted lt us -> (forall i, In i us <-> (i < length fix_)%nat /\ takes_part fl pix i) ->
  nth_error pix (length us) = Some t -> nth_error rows (length us) = Some (0, 0, fst t).
Proof.
  intros mm cp tol lstsq fix_ pix fl h drad c c' rows us t E FC FX S I T. apply full_rows in E. destruct E as (us' & beta & S' & I' & _ & _ & FR & _ & _ & R).
  assert (U : us = us').
  { assert (forall i, In i us <-> In i us') as Q by (intros i; rewrite I, I'; reflexivity). clear - S S' Q. revert us' S' Q. induction us as [|a l IH]; intros l' S' Q.
    - destruct l' as [|b l']; [reflexivity|]. exfalso. apply (Q b). now left.
    - destruct l' as [|b l']; [exfalso; apply (Q a); now left|]. apply StronglySorted_inv in S. apply StronglySorted_inv in S'. destruct S as (S1 & S2), S' as (S1' & S2').
      rewrite Forall_forall in S2, S2'. assert (a = b) as ->.
      { destruct (proj1 (Q a) (or_introl eq_refl)) as [->|A]; [reflexivity|]. destruct (proj2 (Q b) (or_introl eq_refl)) as [->|B']; [reflexivity|]. apply S2' in A. apply S2 in B'. lia. }
      f_equal. apply IH; auto. intros i. split; intros H.
      + destruct (proj1 (Q i) (or_intror H)) as [->|]; auto. apply S2 in H. lia.
      + destruct (proj2 (Q i) (or_intror H)) as [->|]; auto. apply S2' in H. lia. }
  subst us'. apply R in T. rewrite T. f_equal. f_equal. f_equal; [apply (FR 0%nat); [lia|exact FC]|apply (FR 1%nat); [lia|exact FX]].
Qed.
Print Assumptions C61_unused_refuted.
Lemma zero_full fix_ pix fl h drad tol c : (length fix_ <= length pix)%nat -> (length pix <= length fix_ + 5)%nat -> exists c' rows, full_calibration simple_mm simple_cpar tol zero_step fix_ pix fl h drad c = (c', Ok rows).
Proof.
  intros HL HU. destruct (zero_some fix_ pix fl h drad tol c HL) as (c' & resi & E). unfold full_calibration, sbind. rewrite E. unfold slift. exists c'.
  apply C52_success in E. destruct E as (_ & L & _). assert (Q : forall ts ix, (2 * (ix + length ts) <= length resi)%nat -> exists rows, table resi ix ts = Ok rows).
  { induction ts as [|t r IH]; intros ix H; cbn [table]; [eauto|]. cbn [length] in H. destruct (nth_error resi (2 * ix)) eqn:A; [|apply nth_error_None in A; lia].
    destruct (nth_error resi (2 * ix + 1)) eqn:B; [|apply nth_error_None in B; lia]. destruct (IH (S ix)) as (rows & ->); [lia|]. eexists. reflexivity. }
  destruct (Q pix 0%nat) as (rows & ->); [lia|]. eauto.
Qed.
(** two reference points, target 0 unmatched: the row labelled 1 is (0, 0) although target 1 is off *)
Example C61_example : exists c' rows, full_calibration simple_mm simple_cpar 0 zero_step [V 0 0 0; V 1 1 0] [((-999)%Z, (0, 0)); (1%Z, (2, 2))] orient_default 1 1 simple_cal = (c', Ok rows) /\
  nth_error rows 1 = Some (0, 0, 1%Z).
Proof.
  destruct (zero_full [V 0 0 0; V 1 1 0] [((-999)%Z, (0, 0)); (1%Z, (2, 2))] orient_default 1 1 0 simple_cal ltac:(cbn; lia) ltac:(cbn; lia)) as (c' & rows & E). exists c', rows. split; [exact E|].
  apply (C61_unused_refuted _ _ _ _ _ _ _ _ _ _ _ _ [1%nat] (1%Z, (2, 2)) E); try reflexivity; [repeat constructor|].
  intros i. split.
  - intros [<-|[]]. split; [cbn; lia|]. exists (2, 2). split; [reflexivity|]. repeat split; discriminate.
  - intros (L & xy & N & _). cbn in L. destruct i as [|[|i]]; [discriminate|now left|lia].
Qed.
(** more targets than reference points + 5: the calibration is changed, then IndexError is raised *)
Theorem C61_many_targets_refuted : forall mm cp tol lstsq fix_ pix fl h drad c c' r, full_calibration mm cp tol lstsq fix_ pix fl h drad c = (c', Ok r) -> (length pix <= length fix_ + 5)%nat.
Proof.
  intros mm cp tol lstsq fix_ pix fl h drad c c' rows E. unfold full_calibration, sbind in E. destruct (orient mm cp tol lstsq fix_ pix fl h drad c) as [c1 [[resi|]|]] eqn:EO; try discriminate.
  apply C52_success in EO. destruct EO as (_ & L & _). unfold slift in E. apply pair_equal_spec in E. destruct E as [_ ET]. apply table_ok in ET. destruct ET as (_ & T).
  destruct (Nat.le_gt_cases (length pix) (length fix_ + 5)) as [|G]; [assumption|exfalso]. destruct (nth_error pix (length fix_ + 5)) as [t|] eqn:N; [|apply nth_error_None in N; lia].
  destruct (T _ _ N) as (a & b & A & _). assert (nth_error resi (2 * (0 + (length fix_ + 5))) <> None) as Q by congruence. apply nth_error_Some in Q. lia.
Qed.
Print Assumptions C61_many_targets_refuted.

(** ---------------- C62: external calibration ---------------- *)
(** Whatever happens, also an exception: interior parameters, glass and table are kept. *)
Theorem C62_unchanged : forall mm cp lstsq fix_ pix h drad c c' r, raw_orient mm cp lstsq fix_ pix h drad c = (c', r) ->
  c_int c' = c_int c /\ c_glass c' = c_glass c /\ c_lut c' = c_lut c.
Proof. intros mm cp lstsq fix_ pix h drad c c' r E. pose proof (raw_orient_inside mm cp lstsq fix_ pix h drad c) as H. rewrite E in H. cbn [fst] in H. tauto. Qed.
Print Assumptions C62_unchanged.
(** ... but the distortion parameters of the camera are erased, even on failure. *)
Theorem C62_distortion_refuted : forall mm cp lstsq fix_ pix h drad c c' r, raw_orient mm cp lstsq fix_ pix h drad c = (c', r) -> c_added c' = no_distortion.
Proof. intros mm cp lstsq fix_ pix h drad c c' r E. pose proof (raw_orient_inside mm cp lstsq fix_ pix h drad c) as H. rewrite E in H. cbn [fst] in H. tauto. Qed.
Print Assumptions C62_distortion_refuted.
(** The exterior parameters change by the sum of at most 20 solutions; True means that the last
    one was at most 0.1 in each parameter and that the matrix belongs to the angles. *)
Theorem C62_result : forall mm cp lstsq fix_ pix h drad c c' s, raw_orient mm cp lstsq fix_ pix h drad c = (c', Ok s) ->
  exists bs b, let all := bs ++ [b] in (length bs <= 19)%nat /\
  (forall k x, nth_error all k = Some x -> exists X y, lstsq X y = Ok x /\ ext_system mm cp fix_ pix h drad (camera_at (with_added c no_distortion) (corrected c (firstn k all))) X y) /\
  Forall (fun b => exists i, (i < 6)%nat /\ 1 / 10 < Rabs (b i)) bs /\
  ext_params c' = corrected c all /\
  (s = true <-> forall i, (i < 6)%nat -> Rabs (b i) <= 1 / 10) /\
  (s = true -> consistent (c_ext c')) /\ (s = false -> length bs = 19%nat).
Proof.
  intros mm cp lstsq fix_ pix h drad c c' s E. apply raw_orient_sys in E. destruct E as (bs & b & L & CH & F & A & C & Z & K). exists bs, b. cbv zeta.
  assert (RC : forall b, raw_converged b = true <-> forall i, (i < 6)%nat -> Rabs (b i) <= 1 / 10).
  { intros q. unfold raw_converged. rewrite forallb_forall. replace (1 / 10) with (/ 10) by field. split.
    - intros H i Hi. specialize (H i ltac:(apply in_seq; lia)). unfold Rleb in H. now destruct (Rle_dec _ _).
    - intros H i Hi. apply in_seq in Hi. unfold Rleb. destruct (Rle_dec _ _) as [|N]; [reflexivity|]. exfalso. apply N, H. lia. }
  split; [exact L|]. split; [exact CH|]. split. { eapply Forall_impl; [|exact F]. cbv beta. intros q N. assert (Q : ~ Forall (fun i => Rabs (q i) <= 1 / 10) (seq 0 6)).
    { intros W. assert (raw_converged q = true); [|congruence]. apply RC. intros i Hi. rewrite Forall_forall in W. apply W, in_seq. lia. }
    apply Exists_Forall_neg in Q; [|intros i; destruct (Rle_dec (Rabs (q i)) (1 / 10)); tauto]. apply Exists_exists in Q. destruct Q as (i & Hi & W). apply in_seq in Hi. exists i. split; [lia|lra]. }
  split; [exact A|]. split; [rewrite <- C; apply RC|]. split; assumption.
Qed.
Print Assumptions C62_result.
Lemma nr_raw_points fix_ pix h drad : forall idx, Forall (fun i => (i < length pix)%nat) idx -> never_raises (raw_points simple_mm simple_cpar fix_ pix h drad idx).
Proof.
  induction idx as [|i r IH]; intros F; cbn [raw_points]; [apply nr_ret|]. apply Forall_cons_iff in F. destruct F as [F1 F2].
  destruct (nth_error pix i) as [[pnr [px py]]|] eqn:N; [|apply nth_error_None in N; lia]. destruct (pixel_to_metric _ _ _ _ _ _) as [xc yc].
  apply nr_bind; [apply nr_mod|intros _]. apply nr_bind; [apply nr_img, simple_one|intros p]. apply nr_bind; [apply nr_num_deriv, simple_one|intros der]. apply nr_bind; [now apply IH|intros rest]. apply nr_ret.
Qed.
(** an instance of failure: a camera moved by 20 although False is returned *)
Theorem C62_touched_refuted : forall fix_ pix h drad, (length fix_ <= length pix)%nat -> exists c', raw_orient simple_mm simple_cpar unit_step fix_ pix h drad simple_cal = (c', Ok false) /\
  vx (e_pos (c_ext simple_cal)) = 0 /\ vx (e_pos (c_ext c')) = 20.
Proof.
  intros fix_ pix h drad HL. assert (N : never_raises (raw_orient simple_mm simple_cpar unit_step fix_ pix h drad)).
  { unfold raw_orient. apply nr_bind; [apply nr_mod|intros _].
    assert (P : never_raises (raw_pass simple_mm simple_cpar unit_step fix_ pix h drad)).
    { unfold raw_pass. apply nr_bind. { apply nr_raw_points. apply Forall_forall. intros i Hi. apply in_seq in Hi. lia. } intros os. apply nr_bind; [apply nr_lift|intros b]. apply nr_bind; [apply nr_mod|intros _]. apply nr_ret. }
    apply nr_bind. { generalize 19%nat. induction n; cbn [raw_passes]; (apply nr_bind; [exact P|intros s]); destruct s; try apply nr_ret; assumption. }
    intros s. destruct s; [|apply nr_ret]. apply nr_bind; [apply nr_mod|intros _]. apply nr_ret. }
  destruct (N simple_cal) as (c' & s & E). exists c'. pose proof (C62_result _ _ _ _ _ _ _ _ _ _ E) as (bs & b & _ & F & _ & A & T & _ & Z).
  assert (G : Forall (fun x => x 0%nat = 1) (bs ++ [b])).
  { apply Forall_forall. intros q I. apply In_nth_error in I. destruct I as (k & K). destruct (F k q K) as (X & y & S & _). injection S as <-. reflexivity. }
  assert (s = false) as ->.
  { destruct s; [|reflexivity]. exfalso. pose proof (proj1 T eq_refl 0%nat ltac:(lia)) as Q. apply Forall_app in G. destruct G as [_ G]. apply Forall_cons_iff in G. destruct G as [G _]. rewrite G, Rabs_R1 in Q. lra. }
  split; [exact E|]. split; [reflexivity|]. apply (f_equal (fun l => nth 0 l 0)) in A. unfold corrected in A. cbn [ext_params nth map seq] in A. rewrite A. rewrite (total_repeat 0 (fun _ => 1)) by exact G.
  rewrite app_length, (Z eq_refl). cbn [simple_cal c_ext simple_ext set_angles rotation_matrix e_pos vx]. rewrite INR_IZR_INZ. change (Z.of_nat (19 + length [b])) with 20%Z. ring.
Qed.
Print Assumptions C62_touched_refuted.

(** ---------------- C63: positions from one camera ---------------- *)
Lemma all_ok_map {A B} (f : A -> result B) : forall l r, all_ok (map f l) = Ok r -> length r = length l /\ forall k a, nth_error l k = Some a -> exists b, f a = Ok b /\ nth_error r k = Some b.
Proof.
  induction l as [|a l IH]; intros r E; cbn in E; [injection E as <-; split; [reflexivity|]; intros k a H; destruct k; discriminate|].
  destruct (f a) as [b|] eqn:F; [|discriminate]. cbn in E. destruct (all_ok (map f l)) as [r'|]; [|discriminate]. cbn in E. injection E as <-. destruct (IH r' eq_refl) as (L & H). split; [cbn; now rewrite L|].
  intros k x K. destruct k; [cbn in K; injection K as <-; exists b; split; [exact F|reflexivity]|]. apply H. exact K.
Qed.
(** One position per row, in order, on the camera's ray at the middle of the volume; the convergence measure is 0. *)
Theorem C63_single : forall targets seen mm c v res rcm, point_positions targets seen mm [c] v = SingleCamera (Ok (res, rcm)) ->
  length res = length seen /\ rcm = repeat 0 (length seen) /\
  forall k t, nth_error seen k = Some t -> exists x y more p, t = (x, y) :: more /\ nth_error res k = Some p /\
    let '(start, dir) := ray_tracing x y c mm in
    vz p = (Spec_geo.lower_z v (vx start) + Spec_geo.upper_z v (vx start)) / 2 /\ (vz dir <> 0 -> on_line start dir p).
Proof.
  intros targets seen mm c v res rcm E. cbn [point_positions] in E. injection E as E. unfold single_cam_point_positions in E.
  destruct (all_ok _) as [r|] eqn:EA; [|discriminate]. cbn in E. injection E as -> <-. apply all_ok_map in EA. destruct EA as (L & H). split; [exact L|]. split; [reflexivity|].
  intros k t T. destruct (H k t T) as (p & F & N). destruct t as [|[x y] more]; [discriminate|]. exists x, y, more, p. split; [reflexivity|]. split; [exact N|]. injection F as <-. unfold epi_mm_2D.
  destruct (ray_tracing x y c mm) as [start dir]. rewrite Proof_geo9.z_limits_spec. set (z0 := Spec_geo.lower_z v (vx start)). set (z1 := Spec_geo.upper_z v (vx start)). unfold move_along_ray. cbn [vz]. split; [field|]. intros D. destruct (Req_EM_T (vz dir) 0); [contradiction|].
  exists ((/ 2 * (z0 + z1) - vz start) / vz dir). unfold vadd, vscale. cbn [vx vy vz]. f_equal; field; exact D.
Qed.
Print Assumptions C63_single.
(** it always returns; a row without an entry for the camera raises IndexError *)
Theorem C63_total : forall targets seen mm c v,
  (Forall (fun t => t <> []) seen -> exists res, point_positions targets seen mm [c] v = SingleCamera (Ok (res, repeat 0 (length seen)))) /\
  (In [] seen -> point_positions targets seen mm [c] v = SingleCamera (Exn IndexError)).
Proof.
  intros targets seen mm c v. cbn [point_positions single_cam_point_positions]. set (f := fun t : list (R * R) => match t with (x, y) :: _ => Ok (epi_mm_2D x y c mm v) | [] => Exn IndexError end). split.
  - intros H. assert (A : exists res, all_ok (map f seen) = Ok res).
    { induction H as [|t l T H IH]; [exists []; reflexivity|]. destruct IH as (r & E). destruct t as [|[x y] more]; [contradiction|]. cbn. rewrite E. cbn. eauto. }
    destruct A as (res & ->). exists res. reflexivity.
  - intros H. assert (A : all_ok (map f seen) = Exn IndexError).
    { induction seen as [|t l IH]; [destruct H|]. destruct t as [|[x y] more]; [reflexivity|]. destruct H as [H|H]; [discriminate|]. cbn. now rewrite (IH H). }
    rewrite A. reflexivity.
Qed.
Print Assumptions C63_total.
(** no camera: ValueError; several cameras: multi_cam_point_positions *)
Theorem C63_select : forall targets seen mm cals v,
  (cals = [] -> point_positions targets seen mm cals v = NoCamera ValueError) /\
  ((2 <= length cals)%nat -> point_positions targets seen mm cals v = MultiCamera (multi_cam_point_positions targets mm cals)).
Proof. intros targets seen mm cals v. split; [intros ->; reflexivity|]. destruct cals as [|a [|b r]]; cbn; [lia|lia|reflexivity]. Qed.
Print Assumptions C63_select.
Example C63_example : exists p, point_positions [] [[(3, 4)]; [(0, 0)]] simple_mm [simple_cal] deep_vol = SingleCamera (Ok (p, [0; 0])) /\ length p = 2%nat.
Proof. eexists. split; reflexivity. Qed.
