(** Property C88: from detections to a calibration. *)
From Coq Require Import Sorted.
From Verif Require Import F64 F64R Model_corr Spec_corr Model_misc Spec_misc Proof_misc Prop_misc Model_text Model_par Model_geo Spec_geo Proof_geo Proof_geo2 Prop_geo Prop_geo2
  Model_orient Spec_orient Proof_orient Proof_orient2 Proof_orient3 Proof_orient4 Proof_orient5 Prop_orient Prop_exact Model_wrap Spec_wrap Lib Base.
Local Open Scope R_scope.

(** ---- the matching ---- *)
Lemma owns_fun_i project eps imx imy n img i i' j : owns project eps imx imy n img i j -> owns project eps imx imy n img i' j -> i = i'.
Proof.
  intros (A & B & C) (A' & B' & C'). destruct (Nat.lt_trichotomy i i') as [H|[H|H]]; [exfalso|exact H|exfalso].
  - apply (C (Z.of_nat i')); [lia|exact B'].
  - apply (C' (Z.of_nat i)); [lia|exact B].
Qed.
Lemma assigned_fun project eps imx imy img i j j' : assigned project eps imx imy img i j -> assigned project eps imx imy img i j' -> j = j'.
Proof. intros (p & P & _ & N) (p' & P' & _ & N'). rewrite P in P'. injection P' as <-. eapply C50_nearest_unique; eauto. Qed.

(** ===== C88 =====
    match_detection_to_ref succeeds whenever the reference points can be projected, and in its result reference point i
    takes part in a full calibration exactly if it is admitted by the use flag and owns a detection; then its observation
    is the position of that detection.  A detection that is nearest to several reference points serves only the last. *)
Theorem C88_matched : forall project eps imx imy (ref : list vec) img fl,
  (forall i, (i < length ref)%nat -> exists p, project (Z.of_nat i) = Ok p) ->
  exists sorted img', match_detection_to_ref project eps imx imy ref img = Ok (sorted, img') /\ length sorted = length ref /\ length img' = length img /\
  forall i, (i < length ref)%nat ->
    (takes_part fl (map as_pixel sorted) i <-> admitted fl i /\ exists j, owns project eps imx imy (length ref) img i j) /\
    forall j t, owns project eps imx imy (length ref) img i j -> nth_error img j = Some t ->
      nth_error (map as_pixel sorted) i = Some (Z.of_nat i, seen_at t).
Proof.
  intros project eps imx imy ref img fl HP.
  destruct (C50_sortgrid project eps imx imy img (Z.of_nat (length ref))) as (sorted & img' & E & L & L' & S & I).
  { lia. } { intros i Hi. rewrite <- (Z2Nat.id i) by lia. apply HP. lia. }
  exists sorted, img'. split; [exact E|]. rewrite Nat2Z.id in L. split; [exact L|]. split; [exact L'|]. intros i Hi.
  assert (OWN : forall j t, owns project eps imx imy (length ref) img i j -> nth_error img j = Some t -> nth_error (map as_pixel sorted) i = Some (Z.of_nat i, seen_at t)).
  { intros j t O Hj. pose proof O as (R & AS & LA). destruct (S (Z.of_nat i) R) as [(j' & t' & A & B & C)|(N & _)]; [|now destruct (N j)].
    assert (j' = j) as -> by (eapply assigned_fun; eauto). destruct (I j t Hj) as [(i' & O' & C')|(N & _)]; [|now destruct (N (Z.of_nat i) R)].
    rewrite C' in B. injection B as <-. assert (i' = Z.of_nat i) as ->.
    { destruct O' as (R' & AS' & LA'). destruct (Z.lt_trichotomy i' (Z.of_nat i)) as [H|[H|H]]; [exfalso|exact H|exfalso].
      - apply (LA' (Z.of_nat i)); [lia|exact AS].
      - apply (LA i'); [lia|exact AS']. }
    rewrite Nat2Z.id in C. rewrite nth_error_map, C. reflexivity. }
  split; [|exact OWN]. split.
  - intros (xy & Hxy & U). split; [exact U|].
    rewrite nth_error_map in Hxy. destruct (nth_error sorted i) as [t|] eqn:Et; [|discriminate]. injection Hxy as Hn _.
    destruct (S (Z.of_nat i) ltac:(lia)) as [(j & t' & A & B & C)|(_ & C)]; rewrite Nat2Z.id, Et in C; injection C as C; subst t.
    + exists j. pose proof A as (p & _ & _ & t0 & Hj & _). destruct (I j t0 Hj) as [(i' & O' & C')|(N & _)]; [|exfalso; apply (N (Z.of_nat i)); [lia|exact A]].
      rewrite C' in B. injection B as <-. cbn [t_pnr numbered] in Hn. subst i'. exact O'.
    + exfalso. cbn in Hn. lia.
  - intros (U & j & O). pose proof O as (_ & (p & _ & _ & t0 & Hj & _) & _). exists (seen_at t0). split; [now apply (OWN j)|exact U].
Qed.
Print Assumptions C88_matched.

(** Hence no detection is used for two reference points, and no reference point uses two detections. *)
Theorem C88_once : forall project eps imx imy n img i i' j j', owns project eps imx imy n img i j -> owns project eps imx imy n img i' j' -> (i = i' <-> j = j').
Proof.
  intros project eps imx imy n img i i' j j' O O'. split; intros <-.
  - destruct O as (_ & A & _), O' as (_ & A' & _). eapply assigned_fun; eauto.
  - eapply owns_fun_i; eauto.
Qed.
Print Assumptions C88_once.

(** Matching followed by a full calibration: the system that is solved has two rows for every admitted reference point
    that owns a detection, in increasing order, and nothing else but the ten rows of the interior parameters. *)
Theorem C88_calibrated : forall mm cp tol lstsq h drad project eps imx imy ref img fl sorted img' c c' rows,
  (forall i, (i < length ref)%nat -> exists p, project (Z.of_nat i) = Ok p) ->
  match_detection_to_ref project eps imx imy ref img = Ok (sorted, img') ->
  full_calibration_targets mm cp tol lstsq h drad ref sorted fl c = (c', Ok rows) ->
  exists us bs beta X y g, StronglySorted lt us /\
  (forall i, In i us <-> (i < length ref)%nat /\ admitted fl i /\ exists j, owns project eps imx imy (length ref) img i j) /\
  full_system mm cp tol ref (map as_pixel sorted) fl h drad (glass_dir1 (c_glass c)) (glass_dir2 (c_glass c)) us c (calibrated c (map (applied fl) bs) g) X y /\
  lstsq X y = Ok beta /\ (forall i, (i < unknowns fl)%nat -> Rabs (beta i) <= 1 / 10000) /\
  (exists g', c' = calibrated c (map (applied fl) (bs ++ [beta])) g') /\ length rows = length ref.
Proof.
  intros mm cp tol lstsq h drad project eps imx imy ref img fl sorted img' c c' rows HP M F.
  destruct (C88_matched project eps imx imy ref img fl HP) as (s & i' & E & L & _ & T). rewrite M in E. injection E as <- <-.
  apply C61_rows in F. destruct F as (us & bs & beta & X & y & g & S & U & _ & FS & _ & LS & SM & CC & LR & _).
  exists us, bs, beta, X, y, g. split; [exact S|]. split.
  { intros i. rewrite U. split; intros (Hi & Q); split; try exact Hi; now apply (proj1 (T i Hi)). }
  split; [exact FS|]. split; [exact LS|]. split; [exact SM|]. split; [exact CC|]. rewrite LR, map_length. exact L.
Qed.
Print Assumptions C88_calibrated.

(** If every reference point owns a detection and all are admitted, row k of the result holds the residuals of
    reference point k in that system, and is labelled k. *)
Theorem C88_complete : forall mm cp tol lstsq h drad project eps imx imy ref img fl sorted img' c c' rows,
  (forall i, (i < length ref)%nat -> exists p, project (Z.of_nat i) = Ok p) ->
  (forall i, (i < length ref)%nat -> admitted fl i /\ exists j, owns project eps imx imy (length ref) img i j) ->
  match_detection_to_ref project eps imx imy ref img = Ok (sorted, img') ->
  full_calibration_targets mm cp tol lstsq h drad ref sorted fl c = (c', Ok rows) ->
  exists bs beta X y g,
  full_system mm cp tol ref (map as_pixel sorted) fl h drad (glass_dir1 (c_glass c)) (glass_dir2 (c_glass c)) (seq 0 (length ref)) c (calibrated c (map (applied fl) bs) g) X y /\
  lstsq X y = Ok beta /\ length rows = length ref /\
  forall k, (k < length ref)%nat -> nth_error rows k =
    Some (row_sum (nth (2 * k) X []) (applied fl beta) - nth (2 * k) y 0, row_sum (nth (2 * k + 1) X []) (applied fl beta) - nth (2 * k + 1) y 0, Z.of_nat k).
Proof.
  intros mm cp tol lstsq h drad project eps imx imy ref img fl sorted img' c c' rows HP HA M F.
  destruct (C88_matched project eps imx imy ref img fl HP) as (s & i' & E & L & _ & T). rewrite M in E. injection E as <- <-.
  apply C61_rows in F. destruct F as (us & bs & beta & X & y & g & S & U & UA & FS & _ & LS & _ & _ & LR & RW).
  assert (us = seq 0 (length ref)) as ->. { apply UA. intros i Hi. apply (T i Hi), HA, Hi. }
  exists bs, beta, X, y, g. split; [exact FS|]. split; [exact LS|]. split; [rewrite LR, map_length; exact L|].
  intros k Hk. destruct (HA k Hk) as (_ & j & O). pose proof O as (_ & (p & _ & _ & t0 & Hj & _) & _).
  pose proof (proj2 (T k Hk) j t0 O Hj) as N. rewrite (RW k k (Z.of_nat k, seen_at t0)); [reflexivity|now apply seq_nth_error|exact N].
Qed.
Print Assumptions C88_complete.

(** ---- nothing matched ---- *)
Lemma points_none mm cp tol fix_ pix fl h drad g0 c : (length fix_ <= length pix)%nat -> (forall i, (i < length fix_)%nat -> ~ takes_part fl pix i) ->
  points mm cp tol fix_ pix fl h drad g0 (seq 0 (length fix_)) c = (c, Ok []).
Proof.
  intros L N. assert (Q : forall idx, Forall (fun i => (i < length fix_)%nat) idx -> points mm cp tol fix_ pix fl h drad g0 idx c = (c, Ok [])).
  { induction idx as [|i r IH]; intros F; [reflexivity|]. apply Forall_cons_iff in F. destruct F as (Hi & F). cbn [points].
    destruct (nth_error pix i) as [[pnr [px py]]|] eqn:E; [|apply nth_error_None in E; lia].
    destruct (usable (op_use fl) i pnr) eqn:U; [|now apply IH]. exfalso. apply (N i Hi). eapply usable_iff; eauto. }
  apply Q, Forall_forall. intros i Hi. apply in_seq in Hi. lia.
Qed.
Lemma rowdot_zero b x : (forall i, b i = 0) -> rowdot b x = 0.
Proof. intros Z. unfold rowdot. generalize (combine x (seq 0 (length x))). induction l as [|a l IH]; [reflexivity|]. cbn [map fold_right]. rewrite IH, Z. ring. Qed.
Lemma table_zero resi : forall ts ix, (2 * (ix + length ts) <= length resi)%nat -> Forall (fun v => v = 0) resi -> table resi ix ts = Ok (map (fun t => (0, 0, fst t)) ts).
Proof.
  induction ts as [|t ts IH]; intros ix L Z; [reflexivity|]. cbn [table length] in *. rewrite Forall_forall in Z.
  destruct (nth_error resi (2 * ix)) as [a|] eqn:A; [|apply nth_error_None in A; lia]. destruct (nth_error resi (2 * ix + 1)) as [b|] eqn:B; [|apply nth_error_None in B; lia].
  rewrite IH; [|lia|now apply Forall_forall]. cbn [bind map]. apply nth_error_In in A, B. now rewrite (Z a A), (Z b B).
Qed.
Lemma zip_zero {A} (f : A -> R -> R) l m : (forall x y, y = 0 -> f x y = 0) -> Forall (fun v => v = 0) m -> Forall (fun v => v = 0) (zip_with f l m).
Proof.
  intros H. revert l. induction m as [|b m IH]; intros [|a l] F; try constructor.
  - apply H. now apply Forall_cons_iff in F.
  - apply IH. now apply Forall_cons_iff in F.
Qed.
Lemma design_y_zero fix_ a0 c : c_added c = a0 -> Forall (fun v => v = 0) (design_y fix_ [] a0 c).
Proof.
  intros <-. unfold design_y, pad_to. cbn [flat_map app]. apply Forall_app. split.
  - unfold ident_y. repeat constructor; ring.
  - apply Forall_forall. intros v Hv. now apply repeat_spec in Hv.
Qed.

(** If nothing at all was matched (or the use flag excludes what was), the full calibration reports success nevertheless:
    residual 0 for every target, the camera unchanged except that its rotation matrix is made consistent. *)
Theorem C88_nothing_refuted : forall mm cp tol lstsq h drad ref (img : list target) fl c, keeps_zero lstsq ->
  (length ref <= length img <= length ref + 5)%nat -> (forall i, (i < length ref)%nat -> ~ takes_part fl (map as_pixel img) i) ->
  full_calibration_targets mm cp tol lstsq h drad ref img fl c = (update_rot c, Ok (map (fun t => (0, 0, t_pnr t)) img)).
Proof.
  intros mm cp tol lstsq h drad ref img fl c KZ L N. set (pix := map as_pixel img) in *. assert (LP : length pix = length img) by apply map_length.
  assert (YZ : Forall (fun v => v = 0) (design_y ref [] (c_added c) c)) by now apply design_y_zero.
  destruct (KZ (zip_with (fun w x => map (Rmult (sqrt w)) (firstn (numbers fl) x)) (weights ref fl []) (design_x ref [])) (zip_with (fun w y => sqrt w * y) (weights ref fl []) (design_y ref [] (c_added c) c))) as (b & EB & BZ).
  { apply zip_zero; [|exact YZ]. intros x y ->. ring. }
  assert (FZ : forall i, freeze fl b i = 0) by (intros i; unfold freeze; rewrite BZ; destruct (_ && _); [destruct (nth _ _ _)|]; reflexivity).
  assert (CV : converged fl b = true). { unfold converged. apply forallb_forall. intros i _. unfold Rleb. destruct (Rle_dec _ _) as [|n]; [reflexivity|]. exfalso. apply n. rewrite BZ, Rabs_R0. unfold CONVERGENCE. lra. }
  assert (AB : apply_beta fl (c_glass c) (freeze fl b) c = c).
  { unfold apply_beta. rewrite !FZ. destruct c as [[[x y z] o f k d] [i1 i2 i3] [g1 g2 g3] [a1 a2 a3 a4 a5 a6 a7] l]. cbn.
    rewrite !Rplus_0_r. destruct (on (op_interf fl)); [|reflexivity]. unfold vadd, vscale. cbn [vx vy vz]. f_equal. f_equal; ring. }
  assert (P : pass mm cp tol lstsq ref pix fl h drad (c_glass c) (c_added c) c = (c, Ok (mk_pass true [] (design_y ref [] (c_added c) c) (freeze fl b)))).
  { unfold pass, sbind, sget, slift, smod, sret. rewrite points_none by (auto; lia). unfold solve. rewrite EB, CV, AB. reflexivity. }
  unfold full_calibration_targets, full_calibration. fold pix. unfold orient. unfold sbind at 1 2 3. unfold sget. rewrite passes_eq, P. cbn [ps_stop].
  unfold sbind, smod, sret, slift. rewrite table_zero.
  - f_equal. f_equal. unfold pix. rewrite map_map. reflexivity.
  - unfold residuals. cbn [ps_y ps_obs ps_beta]. rewrite zip_len, len_dx, len_dy by (cbn; lia). cbn [Nat.add]. lia.
  - unfold residuals. cbn [ps_y ps_obs ps_beta]. apply zip_zero; [|exact YZ]. intros x y ->. rewrite rowdot_zero by exact FZ. ring.
Qed.
Print Assumptions C88_nothing_refuted.

(** ---- arrays ---- *)
Lemma array_nth arr i p : nth_error arr i = Some p -> nth_error (map as_pixel (array_targets arr)) i = Some (Z.of_nat i, (val (fst p), val (snd p))).
Proof. intros H. unfold array_targets. rewrite !nth_error_map, nth_enumerate, H. reflexivity. Qed.
Lemma array_length arr : length (map as_pixel (array_targets arr)) = length arr.
Proof. unfold array_targets, enumerate. rewrite !map_length, combine_length, zrange_length. lia. Qed.
Lemma array_part fl arr i : (i < length arr)%nat -> (takes_part fl (map as_pixel (array_targets arr)) i <-> admitted fl i).
Proof.
  intros Hi. split.
  - now intros (xy & _ & U).
  - intros U. destruct (nth_error arr i) as [p|] eqn:E; [|apply nth_error_None in E; lia]. eexists. split; [apply array_nth, E|exact U].
Qed.
Lemma points_enough mm cp tol fix_ pix fl h drad g0 : forall idx c c' os, points mm cp tol fix_ pix fl h drad g0 idx c = (c', Ok os) -> Forall (fun i => (i < length pix)%nat) idx.
Proof.
  induction idx as [|i r IH]; intros c c' os E; [constructor|]. cbn [points] in E.
  destruct (nth_error pix i) as [[pnr [px py]]|] eqn:N; [|discriminate]. constructor. { apply nth_error_Some. congruence. }
  destruct (usable _ _ _); [|eapply IH, E]. unfold sbind in E. destruct (orient_point _ _ _ _ _ _ _ _ _ c) as [c1 [o|]]; [|discriminate].
  destruct (points _ _ _ _ _ _ _ _ _ r c1) as [c2 [os2|]] eqn:E2; [|discriminate]. eapply IH, E2.
Qed.
Lemma full_enough mm cp tol lstsq fix_ pix fl h drad c c' rows : full_calibration mm cp tol lstsq fix_ pix fl h drad c = (c', Ok rows) -> (length fix_ <= length pix)%nat.
Proof.
  intros E. unfold full_calibration, orient in E. unfold sbind at 1 2 3 in E. unfold sget in E. rewrite passes_eq in E. unfold pass in E. unfold sbind at 1 in E.
  destruct (points _ _ _ _ _ _ _ _ _ _ c) as [c1 [os|]] eqn:P; [|discriminate]. apply points_enough in P. rewrite Forall_forall in P.
  destruct (Nat.eq_dec (length fix_) 0) as [->|N]; [lia|]. specialize (P (length fix_ - 1)%nat). rewrite in_seq in P. lia.
Qed.

(** An array of positions: reference point i is observed at row i, all admitted points take part, row k of the result is
    labelled k.  Fewer positions than reference points, or over five more, never succeed. *)
Theorem C88_array : forall mm cp tol lstsq h drad ref arr fl c c' rows, full_calibration_array mm cp tol lstsq h drad ref arr fl c = (c', Ok rows) ->
  (length ref <= length arr <= length ref + 5)%nat /\ length rows = length arr /\
  (forall k row, nth_error rows k = Some row -> snd row = Z.of_nat k) /\
  exists us bs beta X y g, StronglySorted lt us /\ (forall i, In i us <-> (i < length ref)%nat /\ admitted fl i) /\
  full_system mm cp tol ref (map as_pixel (array_targets arr)) fl h drad (glass_dir1 (c_glass c)) (glass_dir2 (c_glass c)) us c (calibrated c (map (applied fl) bs) g) X y /\
  lstsq X y = Ok beta /\
  (forall i p, nth_error arr i = Some p -> nth_error (map as_pixel (array_targets arr)) i = Some (Z.of_nat i, (val (fst p), val (snd p)))) /\
  ((forall i, (i < length ref)%nat -> admitted fl i) -> forall k, (k < length ref)%nat -> nth_error rows k =
    Some (row_sum (nth (2 * k) X []) (applied fl beta) - nth (2 * k) y 0, row_sum (nth (2 * k + 1) X []) (applied fl beta) - nth (2 * k + 1) y 0, Z.of_nat k)).
Proof.
  intros mm cp tol lstsq h drad ref arr fl c c' rows F. unfold full_calibration_array, full_calibration_targets in F.
  pose proof (full_enough _ _ _ _ _ _ _ _ _ _ _ _ F) as L1. pose proof (C61_many_targets_refuted _ _ _ _ _ _ _ _ _ _ _ _ F) as L2. rewrite array_length in L1, L2.
  pose proof F as F0. apply C61_rows in F. destruct F as (us & bs & beta & X & y & g & S & U & UA & FS & _ & LS & _ & _ & LR & RW).
  rewrite array_length in LR. split; [lia|]. split; [exact LR|]. split.
  { intros k row Hk. unfold full_calibration in F0. unfold sbind in F0. destruct (orient _ _ _ _ _ _ _ _ _ c) as [c1 [[resi|]|]]; try discriminate. unfold slift in F0. injection F0 as _ T.
    assert (K : (k < length arr)%nat) by (rewrite <- LR; apply nth_error_Some; congruence). destruct (nth_error arr k) as [p|] eqn:Ep; [|apply nth_error_None in Ep; lia].
    assert (G : forall ts ix rows, table resi ix ts = Ok rows -> map snd rows = map fst ts).
    { induction ts as [|t ts IH]; intros ix rs H; cbn [table] in H; [now injection H as <-|]. destruct (nth_error resi (2 * ix)); [|discriminate]. destruct (nth_error resi (2 * ix + 1)); [|discriminate].
      apply bind_ok in H. destruct H as (q & H & E). injection E as <-. cbn [map]. f_equal. eapply IH, H. }
    apply G in T. assert (Q : nth_error (map snd rows) k = Some (snd row)) by (rewrite nth_error_map, Hk; reflexivity). rewrite T, (map_nth_error fst k _ (array_nth _ _ _ Ep)) in Q. cbn in Q. congruence. }
  exists us, bs, beta, X, y, g. split; [exact S|]. split. { intros i. rewrite U. split; intros (Hi & Q); split; try exact Hi; apply (array_part fl arr i); auto; lia. }
  split; [exact FS|]. split; [exact LS|]. split; [intros; now apply array_nth|]. intros A k Hk.
  assert (us = seq 0 (length ref)) as -> by (apply UA; intros i Hi; apply array_part; [lia|auto]).
  destruct (nth_error arr k) as [p|] eqn:Ep; [|apply nth_error_None in Ep; lia]. rewrite (RW k k (Z.of_nat k, (val (fst p), val (snd p)))); [reflexivity|now apply seq_nth_error|now apply array_nth].
Qed.
Print Assumptions C88_array.

(** ---- external_calibration ---- *)
Section Raw.
Variable mm : mmpar.
Variable cp : cpar.
Variable lstsq : list (list R) -> list R -> result (nat -> R).
Variable fix_ : list vec.
Variables pix pix' : list pixel.
Variables h drad : R.
Hypothesis SAME : forall i, (i < length fix_)%nat -> option_map snd (nth_error pix i) = option_map snd (nth_error pix' i).
Lemma raw_points_same : forall idx, Forall (fun i => (i < length fix_)%nat) idx -> forall c, raw_points mm cp fix_ pix h drad idx c = raw_points mm cp fix_ pix' h drad idx c.
Proof.
  induction idx as [|i r IH]; intros F c; [reflexivity|]. apply Forall_cons_iff in F. destruct F as (Hi & F). pose proof (SAME i Hi) as E. cbn [raw_points].
  destruct (nth_error pix i) as [[n [px py]]|], (nth_error pix' i) as [[n' [px' py']]|]; cbn [option_map snd] in E; try discriminate; [|reflexivity].
  injection E as -> ->. destruct (pixel_to_metric px' py' _ _ _ _) as [xc yc]. unfold sbind, smod, simg.
  destruct (img_coord _ _ mm) as [[xp yp]|]; [|reflexivity]. destruct (num_deriv_exterior _ _ _ _ _) as [c2 [der|]]; [|reflexivity]. now rewrite IH.
Qed.
Lemma raw_pass_same c : raw_pass mm cp lstsq fix_ pix h drad c = raw_pass mm cp lstsq fix_ pix' h drad c.
Proof. unfold raw_pass. unfold sbind at 1 4. rewrite raw_points_same; [reflexivity|]. apply Forall_forall. intros i Hi. apply in_seq in Hi. lia. Qed.
Lemma raw_passes_same : forall k c, raw_passes mm cp lstsq fix_ pix h drad k c = raw_passes mm cp lstsq fix_ pix' h drad k c.
Proof.
  induction k; intros c; cbn [raw_passes]; unfold sbind; rewrite raw_pass_same; destruct (raw_pass _ _ _ _ pix' _ _ c) as [c1 [[|]|]]; auto.
Qed.
Lemma raw_orient_same c : raw_orient mm cp lstsq fix_ pix h drad c = raw_orient mm cp lstsq fix_ pix' h drad c.
Proof. unfold raw_orient, sbind, smod. rewrite raw_passes_same. reflexivity. Qed.
End Raw.

(** external_calibration is raw_orient with reference point i observed at row i, whatever number the targets carry, and
    positions beyond the reference points are ignored. *)
Theorem C88_external : forall mm cp lstsq h drad ref arr pix c,
  (forall i, (i < length ref)%nat -> option_map snd (nth_error pix i) = option_map (fun p => (val (fst p), val (snd p))) (nth_error arr i)) ->
  external_calibration mm cp lstsq h drad ref arr c = raw_orient mm cp lstsq ref pix h drad c.
Proof.
  intros mm cp lstsq h drad ref arr pix c H. unfold external_calibration, sbind, sret.
  rewrite (raw_orient_same mm cp lstsq ref (map as_pixel (bare_targets arr)) pix h drad).
  - destruct (raw_orient _ _ _ _ pix _ _ c) as [c' [[|]|]]; reflexivity.
  - intros i Hi. rewrite H by exact Hi. unfold bare_targets. rewrite !nth_error_map. destruct (nth_error arr i); reflexivity.
Qed.
Print Assumptions C88_external.

(** Unlike full_calibration, the coarse calibration does not look whether a point was matched: given the matched targets,
    every reference point without detection is fitted to the corner pixel (0, 0). *)
Theorem C88_unmatched_refuted : forall mm cp lstsq h drad project eps imx imy ref img sorted img' c c' s i P,
  (forall i, (i < length ref)%nat -> exists p, project (Z.of_nat i) = Ok p) ->
  match_detection_to_ref project eps imx imy ref img = Ok (sorted, img') ->
  nth_error ref i = Some P -> (forall j, ~ assigned project eps imx imy img (Z.of_nat i) j) ->
  raw_orient mm cp lstsq ref (map as_pixel sorted) h drad c = (c', Ok s) ->
  exists X y b x0 y0, lstsq X y = Ok b /\ img_coord P (camera_at (with_added c no_distortion) (ext_params c)) mm = Ok (x0, y0) /\
    nth (2 * i) y 0 = (0 - IZR (imx_ cp) / 2) * pix_x_ cp - x0 /\ nth (2 * i + 1) y 0 = (IZR (imy_ cp) / 2 - 0) * pix_y_ cp - y0.
Proof.
  intros mm cp lstsq h drad project eps imx imy ref img sorted img' c c' s i P HP M HR NA F.
  assert (Hi : (i < length ref)%nat) by (apply nth_error_Some; congruence).
  destruct (C50_sortgrid project eps imx imy img (Z.of_nat (length ref))) as (s1 & i1 & E & L & L' & S & I).
  { lia. } { intros k Hk. rewrite <- (Z2Nat.id k) by lia. apply HP. lia. }
  unfold match_detection_to_ref in M. rewrite M in E. injection E as <- <-.
  destruct (S (Z.of_nat i) ltac:(lia)) as [(j & t & A & _)|(_ & C)]; [now destruct (NA j)|]. rewrite Nat2Z.id in C.
  apply C62_result in F. destruct F as (bs & b & _ & SY & _). assert (exists x, nth_error (bs ++ [b]) 0 = Some x) as (x & Hx) by (destruct bs; cbn; eauto).
  destruct (SY 0%nat x Hx) as (X & y & E1 & _ & _ & ES). cbn [firstn] in ES. rewrite corrected_nil in ES.
  destruct (ES i P HR) as (pnr & px & py & x0 & y0 & N & IM & Y1 & Y2 & _). rewrite nth_error_map, C in N. cbn in N. injection N as <- <- <-.
  exists X, y, x, x0, y0. split; [exact E1|]. split; [exact IM|]. split; [exact Y1|exact Y2].
Qed.
Print Assumptions C88_unmatched_refuted.

(** Three reference points, two detections: points 0 and 1 own one each, point 2 none; the calibration succeeds. *)
Definition three_refs : list vec := [V 0 0 0; V 1 1 0; V 2 1 0].
Lemma three_matched : exists a b img', match_detection_to_ref ex_proj2 (f_of_Z 25) (f_of_Z 640) (f_of_Z 480) three_refs ex_pix = Ok ([a; b; Spec_misc.no_target], img') /\
  t_pnr a = 0%Z /\ t_pnr b = 1%Z.
Proof. destruct C50_example as (a & b & pix & E & A & _ & B & _). exists a, b, pix. split; [exact E|]. now split. Qed.
Example C88_case : exists sorted img' c' rows,
  (forall i, (i < 3)%nat -> exists p, ex_proj2 (Z.of_nat i) = Ok p) /\
  match_detection_to_ref ex_proj2 (f_of_Z 25) (f_of_Z 640) (f_of_Z 480) three_refs ex_pix = Ok (sorted, img') /\
  (exists j, owns ex_proj2 (f_of_Z 25) (f_of_Z 640) (f_of_Z 480) 3 ex_pix 0 j) /\ (exists j, owns ex_proj2 (f_of_Z 25) (f_of_Z 640) (f_of_Z 480) 3 ex_pix 1 j) /\
  (~ exists j, owns ex_proj2 (f_of_Z 25) (f_of_Z 640) (f_of_Z 480) 3 ex_pix 2 j) /\
  full_calibration_targets simple_mm simple_cpar 0 zero_step 1 1 three_refs sorted orient_default simple_cal = (c', Ok rows) /\ length rows = 3%nat.
Proof.
  destruct three_matched as (a & b & img' & E & A & B).
  destruct (C88_matched ex_proj2 (f_of_Z 25) (f_of_Z 640) (f_of_Z 480) three_refs ex_pix orient_default) as (s & i' & E' & L & _ & T). { intros; eexists; reflexivity. }
  rewrite E in E'. injection E' as <- <-. assert (AD : forall i, admitted orient_default i) by (intros i; repeat split; discriminate).
  destruct (zero_full three_refs (map as_pixel [a; b; Spec_misc.no_target]) orient_default 1 1 0 simple_cal ltac:(cbn; lia) ltac:(cbn; lia)) as (c' & rows & F).
  exists [a; b; Spec_misc.no_target], img', c', rows. split; [intros; eexists; reflexivity|]. split; [exact E|].
  split. { apply (proj1 (T 0%nat ltac:(cbn; lia))). eexists. split; [cbn; unfold as_pixel; rewrite A; reflexivity|apply AD]. }
  split. { apply (proj1 (T 1%nat ltac:(cbn; lia))). eexists. split; [cbn; unfold as_pixel; rewrite B; reflexivity|apply AD]. }
  split. { intros O. assert (W : takes_part orient_default (map as_pixel [a; b; Spec_misc.no_target]) 2) by (apply (proj1 (T 2%nat ltac:(cbn; lia))); split; [apply AD|exact O]). destruct W as (xy & N & _). cbn in N. discriminate. }
  split; [exact F|]. apply C61_rows in F. destruct F as (us & bs & beta & X & y & g & _ & _ & _ & _ & _ & _ & _ & _ & LR & _). exact LR.
Qed.
(** Two reference points share their nearest detection: only the second owns it. *)
Example C88_shared_case : let P := owns ex_proj (f_of_Z 25) (f_of_Z 640) (f_of_Z 480) 2 ex_pix in (~ exists j, P 0%nat j) /\ exists j, P 1%nat j.
Proof.
  destruct C50_shared_refuted as (t & img' & E & Ht).
  destruct (C88_matched ex_proj (f_of_Z 25) (f_of_Z 640) (f_of_Z 480) [V 0 0 0; V 1 1 0] ex_pix orient_default) as (s & i' & E' & L & _ & T). { intros; eexists; reflexivity. }
  change (match_detection_to_ref ex_proj (f_of_Z 25) (f_of_Z 640) (f_of_Z 480) [V 0 0 0; V 1 1 0] ex_pix) with (sortgrid ex_proj (f_of_Z 25) (f_of_Z 640) (f_of_Z 480) 2 ex_pix) in E'. rewrite E in E'. injection E' as <- <-. assert (AD : forall i, admitted orient_default i) by (intros i; repeat split; discriminate).
  cbv zeta. split.
  - intros O. assert (W : takes_part orient_default (map as_pixel [t; t]) 0) by (apply (proj1 (T 0%nat ltac:(cbn; lia))); split; [apply AD|exact O]). destruct W as (xy & N & _). cbn in N. unfold as_pixel in N. rewrite Ht in N. discriminate.
  - apply (proj1 (T 1%nat ltac:(cbn; lia))). eexists. split; [cbn; unfold as_pixel; rewrite Ht; reflexivity|apply AD].
Qed.
(** no detection at all: the calibration of three reference points "succeeds" *)
Example C88_nothing_case : forall c, keeps_zero zero_step /\ full_calibration_targets simple_mm simple_cpar 0 zero_step 1 1 three_refs (repeat Spec_misc.no_target 3) orient_default c =
  (update_rot c, Ok (repeat (0, 0, (-999)%Z) 3)).
Proof.
  intros c. assert (KZ : keeps_zero zero_step) by (intros X y _; exists (fun _ => 0); now split). split; [exact KZ|].
  rewrite C88_nothing_refuted; [reflexivity|exact KZ|cbn; lia|]. intros [|[|[|i]]] Hi (xy & N & _); cbn in N; try discriminate; cbn in Hi; lia.
Qed.
Example C88_array_case : exists c' rows, full_calibration_array simple_mm simple_cpar 0 zero_step 1 1 three_refs [(f_of_Z 1, f_of_Z 2); (f_of_Z 3, f_of_Z 4); (f_of_Z 5, f_of_Z 6)] orient_default simple_cal = (c', Ok rows) /\
  map snd rows = [0; 1; 2]%Z.
Proof.
  set (arr := [(f_of_Z 1, f_of_Z 2); (f_of_Z 3, f_of_Z 4); (f_of_Z 5, f_of_Z 6)]).
  destruct (zero_full three_refs (map as_pixel (array_targets arr)) orient_default 1 1 0 simple_cal) as (c' & rows & F). { rewrite array_length. cbn. lia. } { rewrite array_length. cbn. lia. }
  exists c', rows. split; [exact F|]. apply C88_array in F. destruct F as (_ & L & T & _).
  destruct rows as [|a [|b [|d [|]]]]; try (cbn in L; discriminate L). cbn [map]. now rewrite (T 0%nat a eq_refl), (T 1%nat b eq_refl), (T 2%nat d eq_refl).
Qed.
