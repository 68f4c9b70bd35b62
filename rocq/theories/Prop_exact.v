(** Property C80: a calibration that fits the observations exactly is kept. *)
From Coq Require Import Sorted.
From Verif Require Import F64 Model_text Model_par Model_geo Spec_geo Proof_geo Proof_geo2 Proof_geo8 Proof_geo9 Proof_geo13 Prop_geo Prop_geo2
  Model_orient Spec_orient Proof_orient Proof_orient2 Proof_orient3 Proof_orient4 Proof_orient5 Prop_orient Lib Base.
Local Open Scope R_scope.

(** the pixels are exactly the images of the reference points in the camera c *)
Definition exact_pixels (mm : mmpar) (cp : cpar) (c : calib) (fix_ : list vec) (pix : list pixel) : Prop :=
  forall i P, nth_error fix_ i = Some P -> exists pnr px py x y,
    nth_error pix i = Some (pnr, (px, py)) /\ img_coord P c mm = Ok (x, y) /\
    (px, py) = metric_to_pixel x y (imx_ cp) (imy_ cp) (pix_x_ cp) (pix_y_ cp).
(** a solver that proposes no correction when nothing is to be explained (the solution of minimal norm) *)
Definition keeps_zero (lstsq : list (list R) -> list R -> result (nat -> R)) : Prop :=
  forall X y, Forall (fun v => v = 0) y -> exists b, lstsq X y = Ok b /\ forall i, b i = 0.
(** b is a solution in the sense of least squares: the normal equations, for every unknown k *)
Definition least_squares (X : list (list R)) (y : list R) (b : nat -> R) (n : nat) : Prop :=
  forall k, (k < n)%nat -> fold_right Rplus 0 (map (fun r => nth k (nth r X []) 0 * (row_sum (nth r X []) b - nth r y 0)) (seq 0 (length y))) = 0.

Lemma metric_back x y ix iy px py u v : px <> 0 -> py <> 0 -> (u, v) = metric_to_pixel x y ix iy px py ->
  (u - IZR ix / 2) * px = x /\ (IZR iy / 2 - v) * py = y.
Proof. intros A B [= -> ->]. split; field; auto. Qed.
Lemma calib_self c : consistent (c_ext c) -> update_rot c = c.
Proof.
  intros H. destruct c as [e i g a l]. unfold update_rot, with_ext, rotation_matrix. cbn [c_ext c_int c_glass c_added c_lut] in *. unfold consistent in H.
  destruct e as [p o f k d]. cbn [e_pos omega phi kappa dm] in *. f_equal. f_equal. rewrite H. apply rot_product.
Qed.
Lemma calibrated_zero c bs g : (forall i, total i bs = 0) -> g = c_glass c -> calibrated c bs g = update_rot c.
Proof.
  intros H ->. rewrite <- calibrated_nil. unfold calibrated, corrected. rewrite !H. replace (map (fun i => nth i (ext_params c) 0 + total i bs) (seq 0 6)) with (map (fun i => nth i (ext_params c) 0 + total i []) (seq 0 6)).
  - unfold total. cbn [map fold_right]. reflexivity.
  - apply map_ext. intros i. now rewrite H.
Qed.

Lemma nth_firstn' {A} (d : A) : forall n i l, (i < n)%nat -> nth i (firstn n l) d = nth i l d.
Proof. induction n; intros [|i] [|x l] H; cbn; try lia; auto. apply IHn. lia. Qed.
Lemma nth_skipn' {A} (d : A) : forall m i l, nth i (skipn m l) d = nth (m + i) l d.
Proof. induction m; intros i [|x l]; cbn; auto. now destruct i. Qed.

(** the right-hand side of the first system, in terms of the distortion alone *)
Lemma first_rhs mm cp tol fix_ pix fl h drad d1 d2 us c X y : pix_x_ cp <> 0 -> pix_y_ cp <> 0 -> exact_pixels mm cp c fix_ pix ->
  full_system mm cp tol fix_ pix fl h drad d1 d2 us c c X y ->
  forall j i, nth_error us j = Some i -> exists P x0 y0, nth_error fix_ i = Some P /\ img_coord P c mm = Ok (x0, y0) /\
    nth (2 * j) y 0 = fst (correct_brown_affine x0 y0 (c_added c) tol) - x0 /\ nth (2 * j + 1) y 0 = snd (correct_brown_affine x0 y0 (c_added c) tol) - y0 /\
    (let a := c_added c in let q := x0 * x0 + y0 * y0 in
     nth 14 (nth (2 * j) X []) 0 = x0 * (1 + k1 a * q + k2 a * q ^ 2 + k3 a * q ^ 3) + p1 a * (q + 2 * x0 ^ 2) + 2 * p2 a * x0 * y0) /\
    nth 14 (nth (2 * j + 1) X []) 0 = 0.
Proof.
  intros A B EX (_ & _ & FS & _) j i Hj. destruct (FS j i Hj) as (P & px & py & rx & ry & ex & ey & HP & Hp & PR & X1 & X2 & Y1 & Y2).
  destruct PR as (x0 & y0 & HI & (E1 & E2) & _ & _ & (R1 & R2) & _).
  assert (CG : (if (j =? 0)%nat then c else glass_at c (c_glass c)) = c) by (destruct (j =? 0)%nat; [reflexivity|destruct c; reflexivity]). rewrite CG in *.
  destruct (EX i P HP) as (pnr & qx & qy & x & y' & Hq & HI' & M). rewrite Hp in Hq. injection Hq as <- <- <-. rewrite HI in HI'. injection HI' as <- <-.
  destruct (metric_back _ _ _ _ _ _ _ _ A B M) as (M1 & M2). rewrite M1, M2 in *. exists P, x0, y0. split; auto. split; auto. split; [congruence|]. split; [congruence|].
  assert (N14 : forall r l, firstn 9 (skipn 7 r) = l -> nth 14 (firstn (unknowns fl) r) 0 = nth 7 l 0).
  { intros r l <-. rewrite (nth_firstn' 0 9) by lia. rewrite nth_firstn' by (unfold unknowns; destruct (_ =? _)%Z; lia). now rewrite nth_skipn'. }
  rewrite X1, X2, (N14 _ _ R1), (N14 _ _ R2). cbn [nth]. auto.
Qed.
Lemma sorted_unique : forall us us', StronglySorted lt us -> StronglySorted lt us' -> (forall i, In i us <-> In i us') -> us = us'.
Proof.
  induction us as [|a l IH]; intros l' S S' Q.
  - destruct l' as [|b l']; [reflexivity|]. exfalso. apply (Q b). now left.
  - destruct l' as [|b l']; [exfalso; apply (Q a); now left|]. apply StronglySorted_inv in S. apply StronglySorted_inv in S'. destruct S as (S1 & S2), S' as (S1' & S2').
    rewrite Forall_forall in S2, S2'. assert (a = b) as ->.
    { destruct (proj1 (Q a) (or_introl eq_refl)) as [->|A]; [reflexivity|]. destruct (proj2 (Q b) (or_introl eq_refl)) as [->|B']; [reflexivity|]. apply S2' in A. apply S2 in B'. lia. }
    f_equal. apply IH; auto. intros i. split; intros H.
    + destruct (proj1 (Q i) (or_intror H)) as [->|]; auto. apply S2 in H. lia.
    + destruct (proj2 (Q i) (or_intror H)) as [->|]; auto. apply S2' in H. lia.
Qed.
Lemma all_zero (y : list R) : (forall r, nth r y 0 = 0) -> Forall (fun v => v = 0) y.
Proof. intros H. apply Forall_forall. intros v Hv. apply (In_nth _ _ 0) in Hv. destruct Hv as (n & _ & <-). apply H. Qed.
Lemma first_zero mm cp tol fix_ pix fl h drad d1 d2 us c X y : pix_x_ cp <> 0 -> pix_y_ cp <> 0 -> exact_pixels mm cp c fix_ pix -> c_added c = no_distortion ->
  full_system mm cp tol fix_ pix fl h drad d1 d2 us c c X y -> Forall (fun v => v = 0) y.
Proof.
  intros A B EX ND FS. pose proof (first_rhs _ _ _ _ _ _ _ _ _ _ _ _ _ _ A B EX FS) as F. destruct FS as (_ & _ & _ & F2 & F3). apply all_zero. intros r.
  destruct (Nat.lt_ge_cases r (2 * length us)) as [Hr|Hr].
  - destruct (nth_error us (r / 2)) as [i|] eqn:Ei.
    + destruct (F _ _ Ei) as (P & x0 & y0 & _ & _ & Y1 & Y2 & _). rewrite ND in Y1, Y2. rewrite (proj2 (no_distortion_id x0 y0 tol)) in Y1, Y2. cbn [fst snd] in *.
      pose proof (Nat.div_mod_eq r 2) as Q. pose proof (Nat.mod_upper_bound r 2 ltac:(lia)) as U. assert (r mod 2 = 0 \/ r mod 2 = 1)%nat as [Z|Z] by lia; rewrite Z in Q.
      * rewrite Nat.add_0_r in Q. rewrite Q, Y1. ring.
      * rewrite Q, Y2. ring.
    + apply nth_error_None in Ei. pose proof (Nat.div_mod_eq r 2) as Q. pose proof (Nat.mod_upper_bound r 2 ltac:(lia)) as U. lia.
  - destruct (Nat.lt_ge_cases r (2 * length us + 10)) as [Hr2|Hr2].
    + destruct (F2 (r - 2 * length us)%nat ltac:(lia)) as (_ & _ & Q). replace (2 * length us + (r - 2 * length us))%nat with r in Q by lia. rewrite Q. destruct (_ <? 3)%nat; [reflexivity|ring].
    + apply (F3 r). lia.
Qed.

(** ===== C80 =====
    Observations that fit the camera exactly (no distortion): orient returns at once, with the camera unchanged, and all
    residuals of points are zero.  The solver may be any that proposes nothing when there is nothing to explain. *)
Theorem C80_orient : forall mm cp tol lstsq fix_ pix fl h drad c c' r, keeps_zero lstsq -> pix_x_ cp <> 0 -> pix_y_ cp <> 0 ->
  consistent (c_ext c) -> c_added c = no_distortion -> exact_pixels mm cp c fix_ pix ->
  (exists i, (i < length fix_)%nat /\ takes_part fl pix i) ->
  orient mm cp tol lstsq fix_ pix fl h drad c = (c', Ok r) ->
  c' = c /\ exists resi, r = Some resi /\ forall us, StronglySorted lt us -> (forall i, In i us <-> (i < length fix_)%nat /\ takes_part fl pix i) ->
    forall k, (k < 2 * length us)%nat -> nth_error resi k = Some 0.
Proof.
  intros mm cp tol lstsq fix_ pix fl h drad c c' r KZ A B HC ND EX (i0 & I0) E.
  destruct (us_spec fix_ pix fl) as (U1 & U2 & U3). apply orient_sys in E. destruct E as (bs & b & g' & L & F & S & U & G & U' & ST & K & RS).
  assert (NE : filter (part_b pix fl) (seq 0 (length fix_)) <> []). { apply U2 in I0. intros Z. rewrite Z in I0. destruct I0. }
  assert (BZ : forall x, nth_error (bs ++ [b]) 0 = Some x -> forall i, x i = 0).
  { intros x Hx. destruct (S 0%nat x Hx) as (X & y & g & S1 & S2 & S3). cbn [firstn map] in S2, S3.
    assert (g = c_glass c) as -> by (apply S3; now left). rewrite calibrated_nil, calib_self in S2 by exact HC.
    destruct (KZ X y (first_zero _ _ _ _ _ _ _ _ _ _ _ _ _ _ A B EX ND S2)) as (b0 & E0 & Z0). rewrite E0 in S1. injection S1 as <-. exact Z0. }
  assert (SM : forall x, (forall i, x i = 0) -> small fl x). { intros x Z i Hi. rewrite Z, Rabs_R0. lra. }
  destruct bs as [|b1 bs].
  - specialize (BZ b eq_refl). assert (RN : r <> None) by (apply ST, SM, BZ). cbn [app map] in *.
    assert (AZ : forall i, applied fl b i = 0) by (intros i; unfold applied; rewrite BZ; now destruct (_ && _)).
    assert (TZ : forall i, total i [applied fl b] = 0) by (intros i; unfold total; cbn [map fold_right]; rewrite AZ; ring).
    assert (GZ : g' = c_glass c).
    { rewrite (G (or_introl NE)). unfold glass_after. cbn [rev app]. rewrite !BZ. destruct (_ =? _)%Z; [reflexivity|]. unfold vadd, vscale. destruct (c_glass c) as [ga gb gc]. cbn. f_equal; ring. }
    split. { rewrite (U' RN). rewrite calibrated_zero by auto. now apply calib_self. }
    destruct r as [resi|]; [|congruence]. exists resi. split; [reflexivity|]. intros us W1 W2 k Hk.
    assert (us = filter (part_b pix fl) (seq 0 (length fix_))) as -> by (apply sorted_unique; auto; intros i; rewrite W2, U2; reflexivity).
    destruct RS as (X & y & g & S1 & S2 & S3 & S4). cbn [map] in S2. assert (g = c_glass c) as -> by (apply S3; now left). rewrite calibrated_nil, calib_self in S2 by exact HC.
    pose proof (first_zero _ _ _ _ _ _ _ _ _ _ _ _ _ _ A B EX ND S2) as YZ. rewrite Forall_forall in YZ.
    assert (YZ' : forall n, nth n y 0 = 0). { intros n. destruct (Nat.lt_ge_cases n (length y)) as [Hn|Hn]; [apply YZ, nth_In, Hn|now apply nth_overflow]. }
    assert (RZ : forall row, row_sum row (applied fl b) = 0). { intros row. unfold row_sum. generalize (seq 0 (length row)). induction l as [|a l IH]; [reflexivity|]. cbn [map fold_right]. rewrite IH, AZ. ring. }
    pose proof (Nat.div_mod_eq k 2) as Q. pose proof (Nat.mod_upper_bound k 2 ltac:(lia)) as UB.
    destruct (nth_error (filter (part_b pix fl) (seq 0 (length fix_))) (k / 2)) as [i|] eqn:Ei; [|apply nth_error_None in Ei; lia].
    destruct (S4 resi eq_refl _ _ Ei) as (R1 & R2). rewrite RZ, YZ' in R1, R2. assert (k mod 2 = 0 \/ k mod 2 = 1)%nat as [Z|Z] by lia; rewrite Z in Q.
    + rewrite Nat.add_0_r in Q. rewrite Q, R1. f_equal. ring.
    + rewrite Q, R2. f_equal. ring.
  - exfalso. apply Forall_cons_iff in F. destruct F as [F _]. apply F, SM, BZ. reflexivity.
Qed.
Print Assumptions C80_orient.

(** The coarse calibration keeps it as well and reports success. *)
Theorem C80_raw : forall mm cp lstsq fix_ pix h drad c c' s, keeps_zero lstsq -> pix_x_ cp <> 0 -> pix_y_ cp <> 0 ->
  consistent (c_ext c) -> c_added c = no_distortion -> exact_pixels mm cp c fix_ pix ->
  raw_orient mm cp lstsq fix_ pix h drad c = (c', Ok s) -> c' = c /\ s = true.
Proof.
  intros mm cp lstsq fix_ pix h drad c c' s KZ A B HC ND EX E.
  pose proof (C62_distortion_refuted _ _ _ _ _ _ _ _ _ _ E) as D. pose proof (C62_unchanged _ _ _ _ _ _ _ _ _ _ E) as (N1 & N2 & N3).
  apply C62_result in E. destruct E as (bs & b & L & SY & F & EP & ST & CN & _).
  assert (BZ : forall x, nth_error (bs ++ [b]) 0 = Some x -> forall i, x i = 0).
  { intros x Hx. destruct (SY 0%nat x Hx) as (X & y & S1 & S2). cbn [firstn] in S2. rewrite corrected_nil in S2.
    assert (CC : camera_at (with_added c no_distortion) (ext_params c) = c).
    { rewrite <- ND. transitivity (update_rot c); [|now apply calib_self]. rewrite <- cam_self. destruct c; reflexivity. }
    rewrite CC in S2. destruct S2 as (_ & LY & S3).
    assert (YZ : Forall (fun v => v = 0) y).
    { apply all_zero. intros r. destruct (Nat.lt_ge_cases r (2 * length fix_)) as [Hr|Hr]; [|apply nth_overflow; lia].
      pose proof (Nat.div_mod_eq r 2) as Q. pose proof (Nat.mod_upper_bound r 2 ltac:(lia)) as U.
      destruct (nth_error fix_ (r / 2)) as [P|] eqn:EPt; [|apply nth_error_None in EPt; lia].
      destruct (S3 _ _ EPt) as (pnr & px & py & x0 & y0 & Hp & HI & Y1 & Y2 & _).
      destruct (EX _ _ EPt) as (pnr' & px' & py' & x1 & y1 & Hp' & HI' & M). rewrite Hp in Hp'. injection Hp' as <- <- <-. rewrite HI in HI'. injection HI' as <- <-.
      destruct (metric_back _ _ _ _ _ _ _ _ A B M) as (M1 & M2). rewrite M1 in Y1. rewrite M2 in Y2.
      assert (r mod 2 = 0 \/ r mod 2 = 1)%nat as [Z|Z] by lia; rewrite Z in Q.
      - rewrite Nat.add_0_r in Q. rewrite Q, Y1. ring.
      - rewrite Q, Y2. ring. }
    destruct (KZ X y YZ) as (b0 & E0 & Z0). rewrite E0 in S1. injection S1 as <-. exact Z0. }
  destruct bs as [|b1 bs].
  - specialize (BZ b eq_refl). assert (s = true) as -> by (apply ST; intros i _; rewrite BZ, Rabs_R0; lra). split; [|reflexivity].
    cbn [app] in EP. assert (EP' : ext_params c' = ext_params c).
    { rewrite EP, <- (corrected_nil c). unfold corrected. apply map_ext. intros i. unfold total. cbn [map fold_right]. now rewrite BZ, Rplus_0_r. }
    specialize (CN eq_refl). unfold consistent in CN, HC. destruct c as [[[e1 e2 e3] o f k d] i g a l], c' as [[[e1' e2' e3'] o' f' k' d'] i' g' a' l'].
    cbn in *. injection EP' as -> -> -> -> -> ->. rewrite CN, <- HC. congruence.
  - exfalso. apply Forall_cons_iff in F. destruct F as [(i & _ & Q) _]. rewrite (BZ b1 eq_refl), Rabs_R0 in Q. lra.
Qed.
Print Assumptions C80_raw.

(** the table of a full calibration: a row of zeros for every point *)
Theorem C80_table : forall mm cp tol lstsq fix_ pix fl h drad c c' rows, keeps_zero lstsq -> pix_x_ cp <> 0 -> pix_y_ cp <> 0 ->
  consistent (c_ext c) -> c_added c = no_distortion -> exact_pixels mm cp c fix_ pix -> fix_ <> [] ->
  (forall i, (i < length fix_)%nat -> takes_part fl pix i) ->
  full_calibration mm cp tol lstsq fix_ pix fl h drad c = (c', Ok rows) ->
  c' = c /\ forall i, (i < length fix_)%nat -> exists t, nth_error pix i = Some t /\ nth_error rows i = Some (0, 0, fst t).
Proof.
  intros mm cp tol lstsq fix_ pix fl h drad c c' rows KZ A B HC ND EX NF TP E. unfold full_calibration, sbind in E.
  destruct (orient mm cp tol lstsq fix_ pix fl h drad c) as [c1 [[resi|]|]] eqn:EO; try discriminate. unfold slift in E. apply pair_equal_spec in E. destruct E as [-> ET].
  assert (I0 : exists i, (i < length fix_)%nat /\ takes_part fl pix i).
  { exists 0%nat. assert (0 < length fix_)%nat by (destruct fix_; cbn; [congruence|lia]). auto. }
  destruct (C80_orient _ _ _ _ _ _ _ _ _ _ _ _ KZ A B HC ND EX I0 EO) as (-> & resi' & [= <-] & Z). split; [reflexivity|].
  apply table_ok in ET. destruct ET as (L & T). intros i Hi.
  assert (SS : forall n m, StronglySorted lt (seq m n)). { induction n; intros m; cbn; constructor; auto. apply Forall_forall. intros x Hx. apply in_seq in Hx. lia. }
  assert (Z' : forall k, (k < 2 * length fix_)%nat -> nth_error resi k = Some 0).
  { intros k Hk. apply (Z (seq 0 (length fix_))); [apply SS| |rewrite seq_length; exact Hk]. intros j. rewrite in_seq. split; [intros (_ & Hj); split; [lia|apply TP; lia]|intros (Hj & _); lia]. }
  destruct (TP i Hi) as (xy & Ht & _). exists (Z.of_nat i, xy). split; [exact Ht|].
  destruct (T i _ Ht) as (a & b & Ha & Hb & Hr). cbn [plus] in Ha, Hb. rewrite Z' in Ha, Hb by lia. injection Ha as <-. injection Hb as <-. exact Hr.
Qed.
Print Assumptions C80_table.

(** With distortion this is false: measured coordinates are freed of the distortion, projected ones are not, and the
    difference is taken for an error.  Already for a pure scale factor s (neither 0 nor 1), exact pixels give a first
    system with non-zero right-hand side, and every solver in the sense of least squares proposes a non-zero correction
    of the correct camera. *)
Definition scale_only (s : R) : addp := mk_addp 0 0 0 0 0 s 0.
Lemma scale_back s x y tol : s <> 0 -> correct_brown_affine x y (scale_only s) tol = (x / s, y).
Proof.
  intros S. destruct (affine_inverse (x / s) y (scale_only s) tol) as [H _]; [repeat split|exact S|cbn; rewrite cos_0; lra|].
  assert (D : distort_brown_affine (x / s) y (scale_only s) = (x, y)).
  { unfold distort_brown_affine. destruct (at_origin (x / s) y) eqn:O.
    - unfold at_origin in O. destruct (Req_EM_T (x / s) 0) as [Z|]; [|discriminate]. destruct (Req_EM_T y 0) as [->|]; [|discriminate]. f_equal.
      replace x with (x / s * s) by (field; exact S). rewrite Z. ring.
    - cbn [scale_only k1 k2 k3 p1 p2 scx she]. rewrite sin_0, cos_0. f_equal; field; exact S. }
  rewrite D in H. exact H.
Qed.
Lemma sum_split (f : nat -> R) : forall n m, fold_right Rplus 0 (map f (seq m n)) = 0 -> (forall i, (m <= i < m + n)%nat -> f i <= 0) -> forall i, (m <= i < m + n)%nat -> f i = 0.
Proof.
  induction n as [|n IH]; intros m H N i Hi; [lia|]. cbn [seq map fold_right] in H.
  assert (T : forall k q, (forall i, (q <= i < q + k)%nat -> f i <= 0) -> fold_right Rplus 0 (map f (seq q k)) <= 0).
  { induction k as [|k IHk]; intros q Hq; cbn [seq map fold_right]; [lra|]. pose proof (Hq q ltac:(lia)). pose proof (IHk (S q) ltac:(intros; apply Hq; lia)). lra. }
  pose proof (T n (S m) ltac:(intros; apply N; lia)) as T1. pose proof (N m ltac:(lia)) as T2.
  destruct (Nat.eq_dec i m) as [->|Ni]; [lra|]. apply (IH (S m)); [lra|intros; apply N; lia|lia].
Qed.
Theorem C80_distortion_refuted : forall mm cp tol lstsq fix_ pix fl h drad c c' r s, pix_x_ cp <> 0 -> pix_y_ cp <> 0 ->
  consistent (c_ext c) -> c_added c = scale_only s -> s <> 0 -> s <> 1 -> exact_pixels mm cp c fix_ pix ->
  (exists i P x y, takes_part fl pix i /\ nth_error fix_ i = Some P /\ img_coord P c mm = Ok (x, y) /\ x <> 0) ->
  orient mm cp tol lstsq fix_ pix fl h drad c = (c', Ok r) ->
  exists us X y b, full_system mm cp tol fix_ pix fl h drad (glass_dir1 (c_glass c)) (glass_dir2 (c_glass c)) us c c X y /\ lstsq X y = Ok b /\
    (least_squares X y b (unknowns fl) -> exists k, b k <> 0).
Proof.
  intros mm cp tol lstsq fix_ pix fl h drad c c' r s A B HC HS S0 S1 EX (i & P & x & y & TP & HP & HI & NX) E.
  destruct (us_spec fix_ pix fl) as (U1 & U2 & U3). apply orient_sys in E. destruct E as (bs & b & g' & L & F & S & _).
  set (us := filter (part_b pix fl) (seq 0 (length fix_))) in *.
  assert (LU : (length us <= length fix_)%nat). { unfold us. rewrite <- (seq_length (length fix_) 0) at 2. generalize (seq 0 (length fix_)). induction l as [|a l IH]; cbn; [lia|]. destruct (part_b pix fl a); cbn; lia. }
  assert (Iu : In i us). { apply U2. split; [|exact TP]. apply nth_error_Some. congruence. }
  assert (EB : exists b0, nth_error (bs ++ [b]) 0 = Some b0) by (destruct bs; cbn; eauto). destruct EB as (b0 & Hb0).
  destruct (S 0%nat b0 Hb0) as (X & yy & g & S2 & S3 & S4). cbn [firstn map] in S3, S4.
  assert (g = c_glass c) as -> by (apply S4; left; intros Z; unfold us in Iu; rewrite Z in Iu; destruct Iu). rewrite calibrated_nil, calib_self in S3 by exact HC.
  fold us in S3. clearbody us. exists us, X, yy, b0. split; [exact S3|]. split; [exact S2|].
  pose proof (first_rhs _ _ _ _ _ _ _ _ _ _ _ _ _ _ A B EX S3) as FR. intros LS.
  assert (DEC : (exists k, (k < unknowns fl)%nat /\ b0 k <> 0) \/ forall k, (k < unknowns fl)%nat -> b0 k = 0).
  { generalize (unknowns fl). induction n as [|n [(k & Hk & N)|IH]]; [right; lia|left; exists k; split; [lia|exact N]|].
    destruct (Req_EM_T (b0 n) 0) as [Z|Z]; [right; intros k Hk; destruct (Nat.eq_dec k n) as [->|]; [exact Z|apply IH; lia]|left; exists n; split; [lia|exact Z]]. }
  destruct DEC as [(k & _ & N)|Z]; [eauto|]. exfalso.
  pose proof S3 as (_ & LY & F1 & F2 & F3).
  assert (RZ : forall q, row_sum (nth q X []) b0 = 0).
  { intros q. unfold row_sum. assert (G : forall l, (forall k, In k l -> nth k (nth q X []) 0 * b0 k = 0) -> fold_right Rplus 0 (map (fun k => nth k (nth q X []) 0 * b0 k) l) = 0).
    { induction l as [|a l IH]; intros H; [reflexivity|]. cbn [map fold_right]. rewrite IH by (intros; apply H; now right). rewrite H by now left. ring. }
    apply G. intros k Hk. apply in_seq in Hk. destruct (Nat.lt_ge_cases k (unknowns fl)) as [Lk|Lk]; [rewrite Z by exact Lk; ring|].
    destruct (Nat.lt_ge_cases q (2 * length us)) as [Hq|Hq].
    - exfalso. pose proof (Nat.div_mod_eq q 2) as Q. pose proof (Nat.mod_upper_bound q 2 ltac:(lia)) as UB.
      destruct (nth_error us (q / 2)) as [i'|] eqn:Ei; [|apply nth_error_None in Ei; lia]. destruct (F1 _ _ Ei) as (P' & px & py & rx & ry & ex & ey & _ & _ & _ & X1 & X2 & _).
      assert (q mod 2 = 0 \/ q mod 2 = 1)%nat as [M|M] by lia; rewrite M in Q; [rewrite Nat.add_0_r in Q|]; rewrite Q in Hk; rewrite ?X1, ?X2 in Hk; rewrite firstn_length in Hk; lia.
    - destruct (Nat.lt_ge_cases q (2 * length us + 10)) as [Hq2|Hq2].
      + exfalso. destruct (F2 (q - 2 * length us)%nat ltac:(lia)) as (Q & _). match type of Q with length (nth ?a X []) = _ => replace a with q in Q by lia end. rewrite Q in Hk. lia.
      + rewrite (proj2 (F3 q ltac:(lia))). ring. }
  specialize (LS 14%nat ltac:(unfold unknowns; destruct (_ =? _)%Z; lia)).
  set (t := fun q => nth 14 (nth q X []) 0 * (row_sum (nth q X []) b0 - nth q yy 0)) in LS.
  assert (PT : forall j i', nth_error us j = Some i' -> exists P' x0 y0, nth_error fix_ i' = Some P' /\ img_coord P' c mm = Ok (x0, y0) /\ t (2 * j)%nat = - (1 / s - 1) * (x0 * x0) /\ t (2 * j + 1)%nat = 0).
  { intros j i' Hj. destruct (FR j i' Hj) as (P' & x0 & y0 & HP' & HI' & Y1 & _ & X1 & X2). exists P', x0, y0. split; auto. split; auto. unfold t. rewrite !RZ, X2. split; [|ring].
    rewrite X1, Y1, HS, scale_back by exact S0. cbn [fst scale_only k1 k2 k3 p1 p2]. field. exact S0. }
  assert (OT : forall q, (2 * length us <= q)%nat -> t q = 0).
  { intros q Hq. unfold t. rewrite RZ. destruct (Nat.lt_ge_cases q (2 * length us + 10)) as [Hq2|Hq2].
    - destruct (F2 (q - 2 * length us)%nat ltac:(lia)) as (_ & _ & Q). replace (2 * length us + (q - 2 * length us))%nat with q in Q by lia. rewrite Q. destruct (_ <? 3)%nat; ring.
    - rewrite (proj1 (F3 q ltac:(lia))). ring. }
  assert (SC : forall l, fold_right Rplus 0 (map (fun q => (1 / s - 1) * t q) l) = (1 / s - 1) * fold_right Rplus 0 (map t l)).
  { induction l as [|a l IH]; cbn [map fold_right]; [ring|]. rewrite IH. ring. }
  assert (NP : forall q, (1 / s - 1) * t q <= 0).
  { intros q. destruct (Nat.lt_ge_cases q (2 * length us)) as [Hq|Hq]; [|rewrite OT by exact Hq; lra].
    pose proof (Nat.div_mod_eq q 2) as Q. pose proof (Nat.mod_upper_bound q 2 ltac:(lia)) as UB.
    destruct (nth_error us (q / 2)) as [i'|] eqn:Ei; [|apply nth_error_None in Ei; lia]. destruct (PT _ _ Ei) as (P' & x0 & y0 & _ & _ & T1 & T2).
    assert (q mod 2 = 0 \/ q mod 2 = 1)%nat as [M|M] by lia; rewrite M in Q; [rewrite Nat.add_0_r in Q|]; rewrite Q; [rewrite T1|rewrite T2; lra].
    replace ((1 / s - 1) * (- (1 / s - 1) * (x0 * x0))) with (- (((1 / s - 1) * x0) * ((1 / s - 1) * x0))) by ring. pose proof (Rle_0_sqr ((1 / s - 1) * x0)) as W. unfold Rsqr in W. lra. }
  apply In_nth_error in Iu. destruct Iu as (j & Hj). destruct (PT j i Hj) as (P' & x0 & y0 & HP' & HI' & T1 & _). rewrite HP in HP'. injection HP' as <-. rewrite HI in HI'. injection HI' as <- <-.
  assert (Lj : (j < length us)%nat) by (apply nth_error_Some; congruence).
  assert (T0 : (1 / s - 1) * t (2 * j)%nat = 0).
  { apply (sum_split (fun q => (1 / s - 1) * t q) (length yy) 0); [rewrite SC, LS; ring|intros; apply NP|lia]. }
  rewrite T1 in T0. assert (1 / s - 1 <> 0). { intros W. apply S1. apply (Rmult_eq_compat_r s) in W. rewrite Rmult_0_l in W. replace ((1 / s - 1) * s) with (1 - s) in W by (field; exact S0). lra. }
  replace ((1 / s - 1) * (- (1 / s - 1) * (x * x))) with (- (((1 / s - 1) * x) * ((1 / s - 1) * x))) in T0 by ring.
  assert (((1 / s - 1) * x) * ((1 / s - 1) * x) = 0) as T0' by lra. apply Rmult_integral in T0'. destruct T0' as [T|T]; apply Rmult_integral in T; tauto.
Qed.
Print Assumptions C80_distortion_refuted.

(** What it means: one reference point, exact pixels, scale factor 2, a solver whose answers solve the systems exactly (it
    divides by the first coefficient).  The correct camera, at x0 = 0, is moved to x0 = 1/2 and success is reported. *)
Definition scam (a : R) : calib := with_added (cam a) (scale_only 2).
Definition divide : list (list R) -> list R -> result (nat -> R) :=
  fun X y => Ok (fun i => if (i =? 0)%nat then nth 0 y 0 / nth 0 (nth 0 X []) 0 else 0).
Lemma scam_at a l : l = [a; 0; 10; 0; 0; 0] -> forall c, c_int c = mk_int 0 0 1 -> c_glass c = V 0 0 1 -> c_added c = scale_only 2 -> c_lut c = empty_lut -> camera_at c l = scam a.
Proof. intros -> c E1 E2 E3 E4. unfold camera_at. rewrite E1, E2, E3, E4. cbn [nth]. unfold scam, with_added. f_equal. cbn [cam c_ext]. pose proof (cam_consistent a) as H. unfold consistent in H. cbn [cam c_ext set_pos simple_ext] in *.
  unfold set_pos, simple_ext, set_angles in *. cbn [e_pos omega phi kappa dm] in *. f_equal. symmetry. exact H. Qed.
Lemma scam_img a : img_coord (V 1 1 0) (scam a) simple_mm = Ok ((1 - a) / 5, 1 / 10).
Proof.
  unfold img_coord. rewrite C46_pinhole; [|apply cam_glass|apply C46_example|change (depth (cam a) (V 1 1 0) <> 0); rewrite cam_depth; lra].
  change (pinhole (scam a) (V 1 1 0)) with (pinhole (cam a) (V 1 1 0)). rewrite cam_pinhole by lra. cbn [bind fst snd]. f_equal. unfold flat_to_dist, distort_brown_affine.
  cbn [scam with_added cam c_int c_added xh yh]. unfold at_origin. destruct (Req_EM_T (1 / (10 - 0) + 0) 0) as [Z|Z]; [lra|].
  destruct (Req_EM_T ((1 - a) / (10 - 0) + 0) 0) as [W|W]; cbn [scale_only k1 k2 k3 p1 p2 scx she]; rewrite sin_0, cos_0; f_equal; field.
Qed.
Lemma row_first row b x : (forall i, (0 < i)%nat -> b i = 0) -> b 0%nat = x -> row_sum row b = nth 0 row 0 * x.
Proof.
  intros H H0. unfold row_sum. destruct row as [|r row]; [cbn; ring|]. cbn [length seq map fold_right nth]. rewrite H0.
  assert (G : forall l, (forall i, In i l -> (0 < i)%nat) -> fold_right Rplus 0 (map (fun k => match k with O => r | S m => nth m row 0 end * b k) l) = 0).
  { induction l as [|a l IH]; intros Hl; [reflexivity|]. cbn [map fold_right]. rewrite IH by (intros; apply Hl; now right). rewrite H by (apply Hl; now left). ring. }
  rewrite G; [ring|]. intros i Hi. apply in_seq in Hi. lia.
Qed.
Lemma scam_system tol h drad px py d1 d2 a X y : h <> 0 -> (px - IZR 2 / 2) * 1 = 1 / 5 -> (IZR 2 / 2 - py) * 1 = 1 / 10 ->
  full_system simple_mm simple_cpar tol [V 1 1 0] [(0%Z, (px, py))] orient_default h drad d1 d2 [0%nat] (scam 0) (scam a) X y ->
  nth 0 (nth 0 X []) 0 = - (1 / 5) /\ nth 0 y 0 = 1 / 10 - (1 - a) / 5 /\ nth 1 y 0 = 0 /\
  (forall r, (1 <= r)%nat -> nth 0 (nth r X []) 0 = 0) /\ (forall r, (2 <= r)%nat -> nth r y 0 = 0).
Proof.
  intros Hh Px Py (_ & _ & F1 & F2 & F3). cbn [length] in *. destruct (F1 0%nat 0%nat eq_refl) as (P & qx & qy & rx & ry & ex & ey & HP & HQ & PR & X1 & X2 & Y1 & Y2).
  injection HP as <-. injection HQ as <- <-. destruct PR as (x0 & y0 & HI & (E1 & E2) & DX & _). cbn [Nat.eqb Nat.mul Nat.add] in *.
  rewrite scam_img in HI. injection HI as <- <-. change (c_added (scam a)) with (scale_only 2) in E1, E2.
  change (imx_ simple_cpar) with 2%Z in *. change (imy_ simple_cpar) with 2%Z in *. change (pix_x_ simple_cpar) with 1 in *. change (pix_y_ simple_cpar) with 1 in *.
  rewrite Px, Py, scale_back in E1, E2 by lra. cbn [fst snd] in E1, E2.
  destruct (DX 0%nat ltac:(lia)) as (x1 & y1 & HI1 & D1 & D2). cbn [Nat.ltb Nat.leb] in HI1, D1, D2.
  assert (MV : moved (scam a) 0 h = scam (a + h)). { unfold moved. apply scam_at; reflexivity. }
  rewrite MV, scam_img in HI1. injection HI1 as <- <-.
  assert (N0 : forall r : list R, nth 0 (firstn (unknowns orient_default) r) 0 = nth 0 r 0) by (intros r; apply nth_firstn'; unfold unknowns; cbn; lia).
  split. { rewrite X1, N0, D1. field. exact Hh. } split. { rewrite Y1, E1. field. } split. { rewrite Y2, E2. field. }
  assert (X1z : nth 0 (nth 1 X []) 0 = 0). { rewrite X2, N0, D2. field. exact Hh. }
  split.
  - intros r Hr. destruct (Nat.eq_dec r 1) as [->|]; [exact X1z|]. destruct (Nat.lt_ge_cases r 12) as [Hr2|Hr2]; [|apply (F3 r); lia].
    destruct (F2 (r - 2)%nat ltac:(lia)) as (_ & Q & _). replace (S (S (r - 2))) with r in Q by lia. rewrite Q by (unfold unknowns; cbn; lia). now destruct (0 =? 6 + (r - 2))%nat eqn:W; [apply Nat.eqb_eq in W; lia|].
  - intros r Hr. destruct (Nat.lt_ge_cases r 12) as [Hr2|Hr2]; [|apply (F3 r); lia].
    destruct (F2 (r - 2)%nat ltac:(lia)) as (_ & _ & Q). replace (S (S (r - 2))) with r in Q by lia. rewrite Q. destruct (_ <? 3)%nat; [reflexivity|].
    change (inner_params (scam a)) with (inner_params (scam 0)). ring.
Qed.
Theorem C80_moved_refuted : forall tol h drad, h <> 0 -> exists px py resi c' X y b,
  exact_pixels simple_mm simple_cpar (scam 0) [V 1 1 0] [(0%Z, (px, py))] /\
  orient simple_mm simple_cpar tol divide [V 1 1 0] [(0%Z, (px, py))] orient_default h drad (scam 0) = (c', Ok (Some resi)) /\
  vx (e_pos (c_ext (scam 0))) = 0 /\ vx (e_pos (c_ext c')) = 1 / 2 /\
  (* the first system and its solution *)
  full_system simple_mm simple_cpar tol [V 1 1 0] [(0%Z, (px, py))] orient_default h drad (glass_dir1 (V 0 0 1)) (glass_dir2 (V 0 0 1)) [0%nat] (scam 0) (scam 0) X y /\
  divide X y = Ok b /\ forall r, row_sum (nth r X []) b = nth r y 0.
Proof.
  intros tol h drad Hh. set (px := (1 - 0) / 5 / 1 + IZR 2 / 2). set (py := IZR 2 / 2 - 1 / 10 / 1).
  assert (EX : exact_pixels simple_mm simple_cpar (scam 0) [V 1 1 0] [(0%Z, (px, py))]).
  { intros [|i] P HP; [|destruct i; discriminate]. injection HP as <-. exists 0%Z, px, py, ((1 - 0) / 5), (1 / 10). split; [reflexivity|]. split; [apply scam_img|reflexivity]. }
  destruct (nr_orient simple_mm simple_cpar tol divide [V 1 1 0] [(0%Z, (px, py))] orient_default h drad simple_one) with (c := scam 0) as (c' & r & E); [intros; eexists; reflexivity|cbn; lia|].
  pose proof E as E0. apply orient_sys in E0. destruct E0 as (bs & b & g' & L & F & S & U & G & U' & ST & K & _).
  assert (UE : filter (part_b [(0%Z, (px, py))] orient_default) (seq 0 (length [V 1 1 0])) = [0%nat]) by reflexivity.
  assert (Px : (px - IZR 2 / 2) * 1 = 1 / 5) by (unfold px; field). assert (Py : (IZR 2 / 2 - py) * 1 = 1 / 10) by (unfold py; field). clearbody px py.
  assert (AP : forall b : nat -> R, (forall i, (0 < i)%nat -> b i = 0) -> forall i, applied orient_default b i = b i).
  { intros q Hq i. unfold applied. destruct (Nat.leb_spec 6 i); cbn [andb]; [|reflexivity]. rewrite (Hq i) by lia. now destruct (_ && _). }
  assert (DV : forall X y q, divide X y = Ok q -> (forall i, (0 < i)%nat -> q i = 0) /\ q 0%nat = nth 0 y 0 / nth 0 (nth 0 X []) 0).
  { intros X y q [= <-]. split; [intros i Hi; destruct (Nat.eqb_spec i 0); [lia|reflexivity]|reflexivity]. }
  assert (GLA : forall pre g, gl [V 1 1 0] [(0%Z, (px, py))] orient_default (scam 0) pre g -> g = V 0 0 1).
  { intros pre g H. unfold gl in H. rewrite H by (right; reflexivity). unfold glass_after. now destruct (rev pre). }
  destruct bs as [|b1 bs].
  { (* the first correction is not small *)
    exfalso. destruct (S 0%nat b eq_refl) as (X & y & g & S1 & S2 & S3). apply GLA in S3. subst g. cbn [firstn map] in S2. change (V 0 0 1) with (c_glass (scam 0)) in S2. rewrite calibrated_nil, calib_self in S2 by apply cam_consistent.
    rewrite UE in S2. destruct (scam_system _ _ _ _ _ _ _ _ _ _ Hh Px Py S2) as (A1 & A2 & _). destruct (DV _ _ _ S1) as (_ & B0). rewrite A1, A2 in B0.
    replace ((1 / 10 - (1 - 0) / 5) / - (1 / 5)) with (1 / 2) in B0 by field.
    destruct r as [resi|]; [|specialize (K eq_refl); cbn in K; lia]. assert (SM : small orient_default b) by (apply ST; discriminate).
    specialize (SM 0%nat ltac:(unfold unknowns; cbn; lia)). rewrite B0 in SM. rewrite Rabs_pos_eq in SM by lra. lra. }
  destruct (S 0%nat b1 eq_refl) as (X & y & g & S1 & S2 & S3). apply GLA in S3. subst g. cbn [firstn map] in S2. change (V 0 0 1) with (c_glass (scam 0)) in S2 at 1. rewrite calibrated_nil, calib_self in S2 by apply cam_consistent.
  rewrite UE in S2. destruct (scam_system _ _ _ _ _ _ _ _ _ _ Hh Px Py S2) as (A1 & A2 & A3 & A4 & A5). destruct (DV _ _ _ S1) as (B1 & B0). rewrite A1, A2 in B0.
  replace ((1 / 10 - (1 - 0) / 5) / - (1 / 5)) with (1 / 2) in B0 by field.
  assert (SOLVED : forall q, row_sum (nth q X []) b1 = nth q y 0).
  { intros q. rewrite (row_first _ b1 (1 / 2) B1 B0). destruct q as [|[|q]]; [rewrite A1, A2; field|rewrite A3, A4 by lia; ring|rewrite A4, A5 by lia; ring]. }
  assert (CAL : forall l, (forall i, total i (map (applied orient_default) l) = if (i =? 0)%nat then 1 / 2 else 0) -> calibrated (scam 0) (map (applied orient_default) l) (V 0 0 1) = scam (1 / 2)).
  { intros l H. transitivity (camera_at (scam 0) [1 / 2; 0; 10; 0; 0; 0]); [|now apply scam_at].
    unfold calibrated, corrected. rewrite !H. cbn [Nat.eqb Nat.add nth inner_params scam with_added cam c_int c_added scale_only cc xh yh k1 k2 k3 p1 p2 scx she].
    cbn [seq map]. rewrite !H. cbn [Nat.eqb Nat.add nth ext_params scam with_added cam c_ext set_pos simple_ext set_angles rotation_matrix e_pos vx vy vz omega phi kappa].
    rewrite !Rplus_0_l, !Rplus_0_r. reflexivity. }
  assert (T1 : forall i, total i (map (applied orient_default) [b1]) = if (i =? 0)%nat then 1 / 2 else 0).
  { intros i. unfold total. cbn [map fold_right]. rewrite AP by exact B1. destruct (Nat.eqb_spec i 0) as [->|]; [rewrite B0; ring|rewrite B1 by lia; ring]. }
  assert (SECOND : forall b2, nth_error (b1 :: bs ++ [b]) 1 = Some b2 -> forall i, b2 i = 0).
  { intros b2 H2. destruct (S 1%nat b2 H2) as (X2 & y2 & g & Q1 & Q2 & Q3). apply GLA in Q3. subst g. cbn [app firstn] in Q2. rewrite (CAL _ T1) in Q2. rewrite UE in Q2.
    destruct (scam_system _ _ _ _ _ _ _ _ _ _ Hh Px Py Q2) as (C1 & C2 & _). destruct (DV _ _ _ Q1) as (D1 & D0). intros i. destruct i as [|i]; [|apply D1; lia]. rewrite D0, C1, C2. field. }
  assert (bs = []) as ->.
  { destruct bs as [|b2 bs]; [reflexivity|]. exfalso. apply Forall_cons_iff in F. destruct F as [_ F]. apply Forall_cons_iff in F. destruct F as [F _]. apply F. intros i _. rewrite (SECOND b2 eq_refl), Rabs_R0. lra. }
  specialize (SECOND b eq_refl). cbn [app] in *.
  assert (RN : r <> None) by (apply ST; intros i _; rewrite SECOND, Rabs_R0; lra). destruct r as [resi|]; [|congruence].
  exists px, py, resi, c', X, y, b1. split; [exact EX|]. split; [exact E|]. split; [reflexivity|]. split.
  - rewrite (U' RN). apply GLA in G. subst g'. rewrite CAL; [reflexivity|]. intros i. specialize (T1 i). unfold total in *. cbn [map fold_right] in *. rewrite (AP b) by (intros; apply SECOND). rewrite SECOND. rewrite Rplus_0_l. exact T1.
  - split; [exact S2|]. split; [exact S1|exact SOLVED].
Qed.
Print Assumptions C80_moved_refuted.

(** ---- the hypotheses of C80_orient, C80_raw and C80_table together: two points, the same solver ---- *)
Definition two_pts : list vec := [V 1 1 0; V 2 (-3) 4].
Definition two_pix : list pixel := [(0%Z, (11 / 10, 9 / 10)); (1%Z, (4 / 3, 3 / 2))].
Lemma divide_zero : keeps_zero divide.
Proof.
  intros X y H. eexists. split; [reflexivity|]. intros i. cbn beta. destruct (i =? 0)%nat; [|reflexivity]. assert (nth 0 y 0 = 0) as ->; [|unfold Rdiv; ring].
  destruct y as [|v y]; [reflexivity|]. apply Forall_cons_iff in H. apply H.
Qed.
Lemma cam_img x y z : z - 10 <> 0 -> img_coord (V x y z) (cam 0) simple_mm = Ok ((x - 0) / (10 - z), y / (10 - z)).
Proof.
  intros Hz. unfold img_coord. rewrite C46_pinhole; [|apply cam_glass|apply C46_example|rewrite cam_depth; exact Hz]. rewrite cam_pinhole by exact Hz. cbn [bind fst snd].
  unfold flat_to_dist. cbn [cam c_int xh yh c_added]. rewrite !Rplus_0_r. now rewrite (proj1 (no_distortion_id _ _ 0)).
Qed.
Example C80_case : forall h drad, exists resi rows,
  keeps_zero divide /\ consistent (c_ext (cam 0)) /\ c_added (cam 0) = no_distortion /\
  exact_pixels simple_mm simple_cpar (cam 0) two_pts two_pix /\ (forall i, (i < length two_pts)%nat -> takes_part orient_default two_pix i) /\
  orient simple_mm simple_cpar 0 divide two_pts two_pix orient_default h drad (cam 0) = (cam 0, Ok (Some resi)) /\ firstn 4 resi = [0; 0; 0; 0] /\
  full_calibration simple_mm simple_cpar 0 divide two_pts two_pix orient_default h drad (cam 0) = (cam 0, Ok rows) /\ rows = [(0, 0, 0%Z); (0, 0, 1%Z)].
Proof.
  intros h drad.
  assert (EX : exact_pixels simple_mm simple_cpar (cam 0) two_pts two_pix).
  { intros [|[|i]] P HP; cbn in HP; [injection HP as <-|injection HP as <-|destruct i; discriminate]; (eexists _, _, _, _, _; split; [reflexivity|]; split; [apply cam_img; lra|]).
    all: unfold metric_to_pixel; cbn [simple_cpar imx_ imy_ pix_x_ pix_y_]; f_equal; field. }
  assert (TP : forall i, (i < length two_pts)%nat -> takes_part orient_default two_pix i).
  { intros [|[|i]] Hi; [| |cbn in Hi; lia]; (eexists; split; [reflexivity|]; repeat split; discriminate). }
  assert (SS : StronglySorted lt [0%nat; 1%nat]) by (repeat constructor).
  assert (IU : forall i, In i [0%nat; 1%nat] <-> (i < length two_pts)%nat /\ takes_part orient_default two_pix i).
  { intros i. split; [intros [<-|[<-|[]]]; (split; [cbn; lia|apply TP; cbn; lia])|]. intros (Hi & _). cbn in Hi. destruct i as [|[|i]]; cbn; auto; lia. }
  destruct (nr_orient simple_mm simple_cpar 0 divide two_pts two_pix orient_default h drad simple_one) with (c := cam 0) as (c' & r & E); [intros; eexists; reflexivity|cbn; lia|].
  assert (NZ1 : pix_x_ simple_cpar <> 0) by (cbn; lra). assert (NZ2 : pix_y_ simple_cpar <> 0) by (cbn; lra).
  assert (I0 : exists i, (i < length two_pts)%nat /\ takes_part orient_default two_pix i) by (exists 0%nat; split; [cbn; lia|apply TP; cbn; lia]).
  destruct (C80_orient _ _ _ _ _ _ _ _ _ _ _ _ divide_zero NZ1 NZ2 (cam_consistent 0) eq_refl EX I0 E) as (-> & resi & -> & Z). specialize (Z _ SS IU). cbn [length] in Z.
  assert (R4 : firstn 4 resi = [0; 0; 0; 0]).
  { destruct resi as [|a [|b [|c [|d resi]]]]; try (specialize (Z 3%nat ltac:(lia)); cbn in Z; discriminate).
    pose proof (Z 0%nat ltac:(lia)) as Z0. pose proof (Z 1%nat ltac:(lia)) as Z1. pose proof (Z 2%nat ltac:(lia)) as Z2. pose proof (Z 3%nat ltac:(lia)) as Z3. cbn in *. congruence. }
  exists resi, [(0, 0, 0%Z); (0, 0, 1%Z)]. split; [exact divide_zero|]. split; [apply cam_consistent|]. split; [reflexivity|]. split; [exact EX|]. split; [exact TP|]. split; [exact E|]. split; [exact R4|]. split; [|reflexivity].
  unfold full_calibration, sbind. rewrite E. unfold slift. destruct resi as [|a [|b [|c [|d resi]]]]; try discriminate R4. injection R4 as -> -> -> ->. reflexivity.
Qed.
