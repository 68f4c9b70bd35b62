(** Property C89: the motion limits of tracking hold for the exact positions. *)
From Coq Require Import ZArith Reals Psatz Permutation.
From Flocq Require Import Core.Core.
From Verif Require Import F64 F64R F64E Model_corr Model_cand Spec_cand Lib Model_track Spec_track Proof_track_ex Prop_track Prop_track2 Model_f64 Spec_f64 Proof_f64 Proof_f642 Proof_f643 Prop_f64 Spec_limits Proof_limits Base.
Local Open Scope R_scope.

Section Double.
Variable B : R.
Hypothesis BLO : / 2 ^ 100 <= B.
Hypothesis BHI : B <= 2 ^ 170.
Variable tp : tpar.
Variable vl : vol.
Variable point : list (f64 * f64) -> vec.
Variable acos : f64 -> f64.
Variable gon : f64.
Variables sight2 sight3 : vec -> Z -> list (f64 * f64) -> Prop.
Hypothesis TL : limits_fin tp.
Hypothesis DA : fin (dacc tp) /\ 0 <= val (dacc tp) <= 2 ^ 190.
Hypothesis PB : forall flats, inside_volume vl (point flats) -> vec_bounded (point flats) B.

Lemma justified_plausible later hp x0 x1 x2 x3 :
  vec_bounded x1 B -> vec_bounded x3 B -> (forall x4, In x4 later -> vec_bounded x4 B) ->
  (hp = true -> vec_bounded x0 B /\ x2 = fmoving x0 x1) ->
  justified fvec_subt (fangle_acc acos gon) point tp vl sight2 sight3 later hp x1 x2 x3 (if hp then fextrap x0 x1 x3 else fmoving x1 x3) ->
  plausible point tp vl sight2 sight3 later (B / 2 ^ 40) (if hp then Some x0 else None) x1 x3.
Proof.
  intros B1 B3 B4 PP J. pose proof (Bpos B BLO) as BP. destruct DA as (DF & DL).
  assert (E8 : forall v c, c <= 8 * B -> vec_bounded v c -> vec_bounded v (8 * B)) by (intros v c L; now apply vb_mono).
  assert (E198 : forall v c, c <= 8 * B -> vec_bounded v c -> vec_bounded v (2 ^ 198)) by (intros v c L V; now apply (b200 B BHI v c)).
  (* the position expected two frames ahead *)
  set (x5 := if hp then fextrap x0 x1 x3 else fmoving x1 x3) in *. set (o := if hp then Some x0 else None).
  assert (X5 : vec_bounded x5 (8 * B) /\ close_to x5 (ahead o x1 x3) (B / 2 ^ 46)).
  { unfold x5, o. destruct hp.
    - destruct (PP eq_refl) as (H0 & _). now apply extrap_close.
    - destruct (moving_close B BLO BHI x1 x3 B1 B3) as (V & C). split; [now apply (E8 _ (4 * B)); [lra|]|]. unfold close_to in *. cbn [ahead]. unfold Rdiv in *. lra. }
  destruct X5 as (V5 & C5).
  assert (MISS : forall v, rlength (rminus (exact v) (ahead o x1 x3)) <= rlength (rminus (exact v) (exact x5)) + B / 2 ^ 46) by (intros v; apply shift_r, C5).
  (* the position expected in the next frame *)
  assert (X2 : hp = true -> vec_bounded x2 (8 * B) /\ close_to x2 (expected x0 x1) (B / 2 ^ 50)).
  { intros H. destruct (PP H) as (H0 & ->). destruct (moving_close B BLO BHI x0 x1 H0 B1) as (V & C). split; [now apply (E8 _ (4 * B)); [lra|]|exact C]. }
  assert (ACC : hp = true -> acceleration x0 x1 x3 <= rlength (rminus (exact x2) (exact x3)) + B / 2 ^ 50) by (intros H; apply shift_l, X2, H).
  assert (V1 : vec_bounded x1 (8 * B)) by (apply (E8 _ B); [lra|exact B1]). assert (V3 : vec_bounded x3 (8 * B)) by (apply (E8 _ B); [lra|exact B3]).
  destruct J as [x4 I4 W S|n flats SG N IV W S|H W S|n flats AD H SG N -> IV W S].
  - assert (V4 : vec_bounded x4 (8 * B)) by (apply (E8 _ B); [lra|now apply B4]).
    apply p_continued with x4; [exact I4| |].
    { apply limits_step; [exact TL|apply (E198 _ B); [lra|now apply B4]|apply (E198 _ B); [lra|exact B3]|exact W]. }
    destruct (acc_range B BLO BHI x3 x4 x5 V3 V4 V5 acos gon) as (F4 & R4 & Q4). pose proof (MISS x4) as M4. fold (miss o x1 x3 x4) in M4.
    unfold mean_of in S. destruct hp.
    + destruct (X2 eq_refl) as (V2 & _). destruct (acc_range B BLO BHI x1 x2 x3 V1 V2 V3 acos gon) as (F2 & R2 & Q2).
      destruct (mean_err B BLO BHI _ _ F2 F4 R2 R4) as (FM & EM). cbn [snd] in S. apply smooth_below in S; cbn [snd]; auto. cbn [snd] in S. pose proof (ACC eq_refl) as A. cbn [o]. unfold o in *.
      unfold Rdiv in *. lra.
    + destruct (mean_err B BLO BHI _ _ F4 F4 R4 R4) as (FM & EM). apply smooth_below in S; cbn [snd]; auto. cbn [snd] in S. unfold o in *. unfold Rdiv in *. lra.
  - pose proof (PB flats IV) as BPt. assert (VP : vec_bounded (point flats) (8 * B)) by (apply (E8 _ B); [lra|exact BPt]).
    apply p_reappears with x5 n flats; auto.
    { unfold close_to in *. unfold Rdiv in *. lra. }
    { apply limits_step; [exact TL|apply (E198 _ B); [lra|exact B3]|apply (E198 _ B); [lra|exact BPt]|exact W]. }
    destruct (acc_range B BLO BHI x3 (point flats) x5 V3 VP V5 acos gon) as (F4 & R4 & Q4). apply smooth_below in S; auto. pose proof (MISS (point flats)) as M4. unfold miss. unfold Rdiv in *. lra.
  - subst hp. destruct (X2 eq_refl) as (V2 & _). destruct (acc_range B BLO BHI x1 x2 x3 V1 V2 V3 acos gon) as (F2 & R2 & Q2). apply smooth_below in S; auto. pose proof (ACC eq_refl) as A.
    apply p_direct with x0; [reflexivity| |unfold Rdiv in *; lra]. apply limits_step; [exact TL|apply (E198 _ B); [lra|exact B3]|apply (E198 _ B); [lra|exact B1]|exact W].
  - subst hp. destruct (X2 eq_refl) as (V2 & C2). destruct (acc_range B BLO BHI x1 x2 _ V1 V2 V3 acos gon) as (F2 & R2 & Q2). apply smooth_below in S; auto. pose proof (ACC eq_refl) as A.
    apply p_filled_in with x0 x2 n flats; auto; [unfold close_to in *; unfold Rdiv in *; lra| |unfold Rdiv in *; lra].
    apply limits_step; [exact TL|apply (E198 _ (8 * B)); [lra|exact V2]|apply (E198 _ B); [lra|exact B3]|exact W].
Qed.
End Double.

(** ===== C89 =====
    A tracking step whose kinematics are computed in double precision: every link it makes is plausible for the exact positions,
    i.e. the exact displacement lies strictly between the velocity limits and the exact acceleration exceeds dacc by at most
    B / 2^40, where B bounds all coordinates. *)
Theorem C89_links : forall psort, (forall l, Permutation l (psort l)) ->
  forall pixdist ncam imx imy ptp quader norm flat point acos gon tp vl B, (1 <= ncam <= 4)%nat -> / 2 ^ 100 <= B <= 2 ^ 170 ->
  limits_fin tp -> fin (dacc tp) -> 0 <= val (dacc tp) <= 2 ^ 190 ->
  (forall flats, inside_volume vl (point flats) -> vec_bounded (point flats) B) ->
  forall buf0 b1 b2 b3 c1 c2 c3 cnt,
  frame_ok b1 -> frame_ok b2 -> frame_ok b3 ->
  (forall p, In p (fr_path b1) -> p_next p = NEXT_NONE) ->
  (forall p, In p (fr_path b2) -> fresh_particle p) ->
  trackcorr_step psort pixdist (Z.of_nat ncam) imx imy ptp quader fmoving (fun x3 x1 x0 => fextrap x0 x1 x3) fvec_subt norm (fangle_acc acos gon) flat point tp vl buf0 b1 b2 b3
    = Ok (c1, c2, c3, cnt) ->
  (forall f p, In f [buf0; b1; c2; c3] -> In p (fr_path f) -> vec_bounded (p_x p) B) ->
  let sight f := sighting pixdist ncam imx imy ptp flat (fr_targ f) in
  forall h k, next_of (fr_path c1) h = Z.of_nat k ->
    exists p q x0, nth_error (fr_path b1) h = Some p /\ nth_error (fr_path c2) k = Some q /\ predecessor buf0 p x0 /\
      plausible point tp vl (sight b2) (sight b3) (map p_x (fr_path c3)) (B / 2 ^ 40) x0 (p_x p) (p_x q).
Proof.
  intros psort PS pixdist ncam imx imy ptp quader norm flat point acos gon tp vl B NC (BLO & BHI) TL DF DL PB buf0 b1 b2 b3 c1 c2 c3 cnt O1 O2 O3 N1 N2 E BD sight h k L.
  destruct (C65_links_justified psort PS _ _ _ _ _ _ _ _ _ _ _ _ _ _ _ NC _ _ _ _ _ _ _ _ O1 O2 O3 N1 N2 E h k L) as (p & q & hp & x0 & x2 & Hp & Hq & PO & J).
  exists p, q, (if hp then Some x0 else None). split; [exact Hp|]. split; [exact Hq|]. destruct PO as (P1 & P2 & P3). split.
  - destruct hp; cbn [predecessor].
    + symmetry in P1. apply Z.leb_le in P1. split; [exact P1|]. destruct (P2 eq_refl) as (q0 & Q1 & Q2 & _). eauto.
    + symmetry in P1. apply Z.leb_gt in P1. exact P1.
  - eapply (justified_plausible B BLO BHI tp vl point acos gon); eauto.
    + apply (BD b1); [cbn; tauto|]. now apply nth_error_In in Hp.
    + apply (BD c2); [cbn; tauto|]. now apply nth_error_In in Hq.
    + intros x4 I. apply in_map_iff in I. destruct I as (r & <- & I). apply (BD c3); [cbn; tauto|exact I].
    + intros H. destruct (P2 H) as (q0 & Q1 & -> & ->). split; [|reflexivity]. apply (BD buf0); [cbn; tauto|]. now apply nth_error_In in Q1.
Qed.
Print Assumptions C89_links.

(** ---- a step to which the theorem applies: two particles move by (3, 1, 0); both are linked ---- *)
Definition step89 acos gon := trackcorr_step isort toy_dist 2 1000 1000 toy_pixel toy_quader fmoving (fun x3 x1 x0 => fextrap x0 x1 x3) fvec_subt toy_norm (fangle_acc acos gon) toy_flat (fun _ => at3 5).
Lemma z_bounded z : (Z.abs z <= 1000)%Z -> bounded (f_of_Z z) (2 ^ 10).
Proof. intros H. destruct (f_of_Z_exact z) as (F & V); [lia|]. split; [exact F|]. rewrite V, <- abs_IZR. apply Rle_trans with (IZR 1000); [now apply IZR_le|lra]. Qed.
Lemma z_fin z : (Z.abs z <= 1000)%Z -> fin (f_of_Z z).
Proof. intros H. apply z_bounded, H. Qed.
Lemma tp_limits add : limits_fin (toy_tp add) /\ fin (dacc (toy_tp add)) /\ 0 <= val (dacc (toy_tp add)) <= 2 ^ 190.
Proof.
  split; [repeat split; apply z_fin; lia|]. split; [apply z_fin; lia|]. cbn [dacc toy_tp]. unfold fz. destruct (f_of_Z_exact 50) as (_ & ->); [lia|].
  split; [lra|]. apply Rle_trans with (2 ^ 6); [lra|apply p2_le; lia].
Qed.
Example C89_case :
  limits_fin (toy_tp false) /\ fin (dacc (toy_tp false)) /\ 0 <= val (dacc (toy_tp false)) <= 2 ^ 190 /\ / 2 ^ 100 <= 2 ^ 10 <= 2 ^ 170 /\ vec_bounded (at3 5) (2 ^ 10) /\
  frame_ok (two 1) /\ frame_ok (two 2) /\ frame_ok (two 3) /\ (forall p, In p (fr_path (two 1)) -> p_next p = NEXT_NONE) /\ (forall p, In p (fr_path (two 2)) -> fresh_particle p) /\
  match step89 acos87 (f_of_Z 63) (toy_tp false) toy_vl nofrm (two 1) (two 2) (two 3) with
  | Ok (c1, c2, c3, cnt) => map p_next (fr_path c1) = [0; 1]%Z /\ (forall f p, In f [nofrm; two 1; c2; c3] -> In p (fr_path f) -> vec_bounded (p_x p) (2 ^ 10))
  | Exn _ => False end.
Proof.
  destruct (tp_limits false) as (T1 & T2 & T3). split; [exact T1|]. split; [exact T2|]. split; [exact T3|].
  split. { split; [|apply p2_le; lia]. apply Rle_trans with (/ 2 ^ 0); [apply inv_le; lia|lra]. }
  split; [repeat split; apply z_bounded; lia|]. split; [apply two_ok|]. split; [apply two_ok|]. split; [apply two_ok|].
  split; [intros p Hp; apply (two_fresh 1 p Hp)|]. split; [apply two_fresh|].
  assert (V : match step89 acos87 (f_of_Z 63) (toy_tp false) toy_vl nofrm (two 1) (two 2) (two 3) with
    | Ok (c1, c2, c3, cnt) => map p_next (fr_path c1) = [0; 1]%Z /\ map p_x (fr_path c2) = map p_x (fr_path (two 2)) /\ map p_x (fr_path c3) = map p_x (fr_path (two 3))
    | Exn _ => False end) by (vm_compute; auto).
  destruct (step89 _ _ _ _ _ _ _ _) as [[[[c1 c2] c3] cnt]|]; [|destruct V]. destruct V as (V1 & V2 & V3). split; [exact V1|].
  assert (T : forall k p, (0 <= k <= 5)%Z -> In p (map p_x (fr_path (two k))) -> vec_bounded p (2 ^ 10)).
  { intros k p K I. cbn [two frm fr_path map pt80 part p_x In] in I. destruct I as [<-|[<-|[]]]; repeat split; apply z_bounded; lia. }
  intros f p F I. apply (in_map p_x) in I. destruct F as [<-|[<-|[<-|[<-|[]]]]]; [destruct I|apply (T 1%Z); [lia|exact I]|rewrite V2 in I; apply (T 2%Z); [lia|exact I]|rewrite V3 in I; apply (T 3%Z); [lia|exact I]].
Qed.

(** ---- the converse fails: a particle that speeds up on a straight line ----
    It was at (9, 9, 9), is at (10, 10, 10) and is next at (12, 12, 12): exactly the expected direction, an acceleration of sqrt 3
    with a limit of 10, a step inside the limits; the only particle of the next frame.  In double precision the cosine of the
    angle between equal directions exceeds 1, its arc cosine is not a number, and the particle is not linked.
    The same motion parallel to an axis is linked. *)
Definition tp89 : tpar := mk_tpar (fz (-20)) (fz 20) (fz (-20)) (fz 20) (fz (-20)) (fz 20) (fz 100) (fz 10) false.
Definition one (v : vec) (prev : Z) : frame := let '(x, y, _) := v in
  frm [mk_pinfo v prev NEXT_NONE 4 (repeat fzero 80) (fz 1000000) (repeat (-999)%Z 80) 0] [row 0 0] [[mk_target 0 x y 10 3 3 100 0]; [mk_target 0 x y 10 3 3 100 0]].
Definition along (z : Z) : vec := (fz z, fz 1, fzero).
Theorem C89_straight_refuted : forall acos gon, (forall x, flt (f_of_Z 1) x = true -> acos x = SpecFloat.S754_nan) ->
  (exact (at3 9) = (9, 9, 9) /\ exact (at3 10) = (10, 10, 10) /\ exact (at3 12) = (12, 12, 12) /\
   acceleration (at3 9) (at3 10) (at3 12) = sqrt 3 /\ val (dacc tp89) = 10 /\ step_inside tp89 (rminus (exact (at3 12)) (exact (at3 10)))) /\
  (let buf0 := one (at3 9) (-1) in let now := one (at3 10) 0 in let next := one (at3 12) (-1) in let later := one (at3 500) (-1) in
   frame_ok now /\ frame_ok next /\ frame_ok later /\ show (step89 acos gon tp89 toy_vl buf0 now next later) = Some ([-2], [-1], 0, 1)%Z).
Proof.
  intros acos gon NAN. split.
  - assert (V : forall z, (Z.abs z <= 2 ^ 53)%Z -> exact (at3 z) = (IZR z, IZR z, IZR z)). { intros z Hz. unfold at3, exact. destruct (f_of_Z_exact z Hz) as (_ & ->). reflexivity. }
    assert (W : forall z, (Z.abs z <= 2 ^ 53)%Z -> val (fz z) = IZR z). { intros z Hz. unfold fz. now destruct (f_of_Z_exact z Hz) as (_ & ->). }
    unfold acceleration, expected, step_inside, tp89. cbn [dvxmin dvxmax dvymin dvymax dvzmin dvzmax dacc]. rewrite !V, !W by lia. split; [reflexivity|]. split; [reflexivity|]. split; [reflexivity|]. cbn [rtimes rminus].
    split; [|split; [reflexivity|lra]]. unfold rlength, rdot. f_equal. lra.
  - cbv zeta. assert (FO : forall v pr, frame_ok (one v pr)).
    { intros [[x y] z] pr. split; [reflexivity|]. intros tl t Htl Ht. cbn in Htl. destruct Htl as [<-|[<-|[]]]; destruct Ht as [<-|[]]; cbn; lia. }
    split; [apply FO|]. split; [apply FO|]. split; [apply FO|].
    assert (E : acos = fun x => if flt (f_of_Z 1) x then SpecFloat.S754_nan else acos x). { apply FunctionalExtensionality.functional_extensionality. intros x. destruct (flt (f_of_Z 1) x) eqn:F; auto. }
    rewrite E. clear. destruct gon; vm_compute; reflexivity.
Qed.
Print Assumptions C89_straight_refuted.
Example C89_straight_case : (forall x, flt (f_of_Z 1) x = true -> acos87 x = SpecFloat.S754_nan) /\
  show (step89 acos87 (f_of_Z 63) tp89 toy_vl (one (along 9) (-1)) (one (along 10) 0) (one (along 12) (-1)) (one (at3 500) (-1))) = Some ([0], [0], 1, 1)%Z.
Proof. split; [apply C87_angle_case|vm_compute; reflexivity]. Qed.
