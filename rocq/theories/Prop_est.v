(** Property C86: the error estimates of the full calibration. *)
From Coq Require Import Sorted.
From Verif Require Import Lib Model_par Model_geo Spec_geo Proof_geo Model_orient Spec_orient Proof_orient Proof_orient2 Proof_orient3 Proof_orient4 Proof_orient5 Proof_geo8 Proof_geo9 Proof_geo2 Prop_geo Prop_geo2 Prop_orient Prop_exact Model_est Spec_est Proof_est Base.
Local Open Scope R_scope.

(** The estimates: entry 19 is the standard deviation of unit weight of the last linear system, entry i below the
    number of unknowns this deviation times the root of a diagonal entry of the inverse of the normal matrix. *)
Theorem C86_estimates : forall mm cp tol lstsq rank inv pinv fix_ pix fl h drad est c c' r est',
  orient_est mm cp tol lstsq rank inv pinv fix_ pix fl h drad est c = (c', Ok (r, est')) ->
  exists us bs beta X y g W, StronglySorted lt us /\ (forall i, In i us <-> (i < length fix_)%nat /\ takes_part fl pix i) /\
  full_system mm cp tol fix_ pix fl h drad (glass_dir1 (c_glass c)) (glass_dir2 (c_glass c)) us c (calibrated c (map (applied fl) bs) g) X y /\
  lstsq X y = Ok beta /\
  let n := unknowns fl in let N := normal_matrix X (2 * length us) n in
  let s0 := unit_deviation (unexplained X y (applied fl beta)) (2 * length us + 10) n in
  (if (rank N <? n)%nat then pinv N else inv N) = Ok W /\ length est' = length est /\
  forall i, (i < length est)%nat -> nth_error est' i = Some
    (if (i <? n)%nat then match s0 with Some s => if Rle_dec 0 (W i i) then Some (s * sqrt (W i i)) else None | None => None end
     else if (i =? 19)%nat then s0 else nth i est None).
Proof.
  intros mm cp tol lstsq rank inv pinv fix_ pix fl h drad est c c' r est' E. apply estimates_ok in E. destruct E as (bs & b & X & y & g & p & W & _ & _ & L & S & _ & T & EW & ES & _).
  destruct (us_spec fix_ pix fl) as (U1 & U2 & _). exists (filter (part_b pix fl) (seq 0 (length fix_))), bs, b, X, y, g, W. split; [exact U1|]. split; [exact U2|]. split; [exact S|]. split; [exact L|].
  cbv zeta. unfold xpx, is_singular in EW. rewrite (xtx_eq _ _ _ _ _ _ _ _ T) in EW. unfold normal_matrix at 2 in EW. rewrite map_length, seq_length in EW. split; [exact EW|].
  split. { rewrite ES. unfold write_estimates. now rewrite map_length, seq_length. }
  intros i Hi. rewrite ES, nth_estimates by exact Hi. f_equal. rewrite (sigma0_eq _ _ _ _ _ _ _ _ T). change (unknowns fl) with (numbers fl). destruct (i <? numbers fl)%nat; [|reflexivity].
  unfold np_mul, np_sqrt. destruct (unit_deviation _ _ _); [|reflexivity]. destruct (Rle_dec 0 (W i i)); reflexivity.
Qed.
Print Assumptions C86_estimates.

(** The estimates do not influence anything else: if the inversion does not raise, the call returns and leaves
    behind exactly what it does without them (C52, C61). *)
Theorem C86_same : forall mm cp tol lstsq rank inv pinv fix_ pix fl h drad est c, (forall N, exists W, inv N = Ok W) -> (forall N, exists W, pinv N = Ok W) ->
  (let '(c', r) := orient_est mm cp tol lstsq rank inv pinv fix_ pix fl h drad est c in (c', match r with Ok p => Ok (fst p) | Exn e => Exn e end)) =
    orient mm cp tol lstsq fix_ pix fl h drad c /\
  (let '(c', r) := full_calibration_est mm cp tol lstsq rank inv pinv fix_ pix fl h drad est c in (c', match r with Ok p => Ok (fst p) | Exn e => Exn e end)) =
    full_calibration mm cp tol lstsq fix_ pix fl h drad c.
Proof.
  intros mm cp tol lstsq rank inv pinv fix_ pix fl h drad est c IV PV.
  assert (O : (let '(c', r) := orient_est mm cp tol lstsq rank inv pinv fix_ pix fl h drad est c in (c', match r with Ok p => Ok (fst p) | Exn e => Exn e end)) = orient mm cp tol lstsq fix_ pix fl h drad c).
  { unfold orient_est, orient, sbind, sget, slift, smod, sret. destruct (passes _ _ _ _ _ _ _ _ _ (c_glass c) (c_added c) 79 c) as [c1 [p|e]]; [|reflexivity].
    unfold xpx. assert (exists W, (if is_singular rank (xtx fix_ fl p) then pinv (xtx fix_ fl p) else inv (xtx fix_ fl p)) = Ok W) as (W & ->) by (destruct (is_singular _ _); auto).
    destruct (ps_stop p); reflexivity. }
  split; [exact O|]. unfold full_calibration_est, full_calibration, sbind, slift, sret, sraise. rewrite <- O.
  destruct (orient_est _ _ _ _ _ _ _ _ _ _ _ _ _ c) as [c1 [[[resi|] e']|e]]; cbn [fst snd]; try reflexivity. destruct (table resi 0 pix); reflexivity.
Qed.
Print Assumptions C86_same.
(** Otherwise the camera has been changed already when the exception leaves the function. *)
Theorem C86_raise : forall mm cp tol lstsq rank inv pinv fix_ pix fl h drad est c c' r ex, orient mm cp tol lstsq fix_ pix fl h drad c = (c', Ok r) ->
  (forall N, inv N = Exn ex) -> (forall N, pinv N = Exn ex) ->
  exists c1, orient_est mm cp tol lstsq rank inv pinv fix_ pix fl h drad est c = (c1, Exn ex) /\ camera_at c1 (ext_params c1) = camera_at c' (ext_params c') /\
  full_calibration_est mm cp tol lstsq rank inv pinv fix_ pix fl h drad est c = (c1, Exn ex).
Proof.
  intros mm cp tol lstsq rank inv pinv fix_ pix fl h drad est c c' r ex E IV PV. apply orient_ok in E. destruct E as (c1 & p & EP & D). exists c1.
  assert (Q : orient_est mm cp tol lstsq rank inv pinv fix_ pix fl h drad est c = (c1, Exn ex)).
  { unfold orient_est, sbind, sget, slift. rewrite EP. unfold xpx. rewrite IV, PV. now destruct (is_singular _ _). }
  split; [exact Q|]. split. { rewrite !cam_self. destruct D as [(_ & -> & _)|(_ & -> & _)]; reflexivity. }
  unfold full_calibration_est, sbind. now rewrite Q.
Qed.
Print Assumptions C86_raise.

(** Not all entries are estimates.  Entries 16 and 17 (without interfflag) and 18 keep what the memory held. *)
Theorem C86_memory_refuted : forall mm cp tol lstsq rank inv pinv fix_ pix fl h drad memory c c' rows est, length memory = 20%nat ->
  full_calibration_est mm cp tol lstsq rank inv pinv fix_ pix fl h drad memory c = (c', Ok (rows, est)) ->
  forall i, (unknowns fl <= i < 19)%nat -> nth_error est i = nth_error memory i.
Proof.
  intros mm cp tol lstsq rank inv pinv fix_ pix fl h drad memory c c' rows est L E i Hi. unfold full_calibration_est, sbind, slift, sret, sraise in E.
  destruct (orient_est _ _ _ _ _ _ _ _ _ _ _ _ _ c) as [c1 [[[resi|] e']|e]] eqn:EO; cbn [fst snd] in E; try discriminate. destruct (table resi 0 pix); [|discriminate].
  assert (e' = est) as -> by (now injection E). apply C86_estimates in EO. destruct EO as (us & bs & b & X & y & g & W & _ & _ & _ & _ & EO). cbv zeta in EO. destruct EO as (_ & _ & EO).
  rewrite EO by lia. assert (i <? unknowns fl = false)%nat as -> by (apply Nat.ltb_ge; lia). assert (i =? 19 = false)%nat as -> by (apply Nat.eqb_neq; lia).
  symmetry. apply nth_error_nth'. lia.
Qed.
Print Assumptions C86_memory_refuted.
(** With three points (four if the glass is estimated) there is no estimate at all, though the call succeeds. *)
Theorem C86_few_refuted : forall mm cp tol lstsq rank inv pinv fix_ pix fl h drad memory c c' rows est us, length memory = 20%nat ->
  full_calibration_est mm cp tol lstsq rank inv pinv fix_ pix fl h drad memory c = (c', Ok (rows, est)) ->
  StronglySorted lt us -> (forall i, In i us <-> (i < length fix_)%nat /\ takes_part fl pix i) -> (2 * length us + 10 <= unknowns fl)%nat ->
  forall i, (i < unknowns fl \/ i = 19)%nat -> nth_error est i = Some None.
Proof.
  intros mm cp tol lstsq rank inv pinv fix_ pix fl h drad memory c c' rows est us0 L E S0 I0 LE i Hi. unfold full_calibration_est, sbind, slift, sret, sraise in E.
  destruct (orient_est _ _ _ _ _ _ _ _ _ _ _ _ _ c) as [c1 [[[resi|] e']|e]] eqn:EO; cbn [fst snd] in E; try discriminate. destruct (table resi 0 pix); [|discriminate].
  assert (e' = est) as -> by (now injection E). apply C86_estimates in EO. destruct EO as (us & bs & b & X & y & g & W & S1 & I1 & _ & _ & EO). cbv zeta in EO. destruct EO as (_ & _ & EO).
  assert (us0 = us) as -> by (apply sorted_unique; auto; intros k; rewrite I0, I1; reflexivity).
  assert (UN : (unknowns fl <= 18)%nat) by (unfold unknowns; destruct (_ =? 0)%Z; lia).
  rewrite EO by lia. f_equal. unfold unit_deviation. assert (unknowns fl <? 2 * length us + 10 = false)%nat as -> by (apply Nat.ltb_ge; lia).
  destruct Hi as [Hi | ->]; [apply Nat.ltb_lt in Hi; now rewrite Hi|]. assert (19 <? unknowns fl = false)%nat as -> by (apply Nat.ltb_ge; lia). reflexivity.
Qed.
Print Assumptions C86_few_refuted.
(** The diagonal of any inverse of such a normal matrix is positive, so that the roots exist. *)
Theorem C86_diagonal : forall X m n W i, (n <= 18)%nat -> inverts n (normal_matrix X m n) W -> (i < n)%nat -> 0 < W i i.
Proof. exact diag_pos. Qed.
Print Assumptions C86_diagonal.
(** Parameters that are held fixed are reported with a positive error whenever the fit is not perfect: the normal
    matrix is built without the weights. *)
Theorem C86_frozen_refuted : forall mm cp tol lstsq rank inv pinv fix_ pix fl h drad est c c' r est' s, length est = 20%nat ->
  (forall N W, inv N = Ok W \/ pinv N = Ok W -> forall i, (i < 18)%nat -> 0 < W i i) ->
  orient_est mm cp tol lstsq rank inv pinv fix_ pix fl h drad est c = (c', Ok (r, est')) -> nth_error est' 19 = Some (Some s) -> 0 < s ->
  forall i, (i < 10)%nat -> nth i (inner_flags fl) 1%Z = 0%Z -> nth i (inner_params c') 0 = nth i (inner_params c) 0 /\
  exists e, nth_error est' (6 + i) = Some (Some e) /\ 0 < e.
Proof.
  intros mm cp tol lstsq rank inv pinv fix_ pix fl h drad est c c' r est' s LE IV E ES S0 i Hi FR.
  split. { apply orient_est_ok in E. destruct E as (_ & _ & _ & _ & _ & _ & E). apply C52_frozen in E. destruct E as (E & _). apply E; assumption. }
  apply estimates_ok in E. destruct E as (bs & b & X & y & g & p & W & _ & _ & L & S & _ & T & EW & EE & _).
  assert (UN : (16 <= numbers fl <= 18)%nat) by (unfold numbers; destruct (_ =? 0)%Z; lia).
  rewrite EE, nth_estimates in ES by lia. assert (19 <? numbers fl = false)%nat as Q by (apply Nat.ltb_ge; lia). rewrite Q in ES. cbn [Nat.eqb] in ES. injection ES as ES.
  rewrite EE, nth_estimates by lia. assert (6 + i <? numbers fl = true)%nat as -> by (apply Nat.ltb_lt; lia). rewrite ES.
  assert (P : 0 < W (6 + i)%nat (6 + i)%nat). { unfold xpx in EW. apply (IV (xtx fix_ fl p) W); [|lia]. destruct (is_singular _ _); [right|left]; exact EW. }
  unfold np_mul, np_sqrt. destruct (Rle_dec 0 _) as [_|N]; [|lra]. eexists. split; [reflexivity|]. apply Rmult_lt_0_compat; [exact S0|]. now apply sqrt_lt_R0.
Qed.
Print Assumptions C86_frozen_refuted.
(** Exact observations (C80): all estimates are zero. *)
Theorem C86_exact : forall mm cp tol lstsq rank inv pinv fix_ pix fl h drad est c c' r est' us, keeps_zero lstsq -> pix_x_ cp <> 0 -> pix_y_ cp <> 0 ->
  consistent (c_ext c) -> c_added c = no_distortion -> exact_pixels mm cp c fix_ pix -> length est = 20%nat ->
  StronglySorted lt us -> (forall i, In i us <-> (i < length fix_)%nat /\ takes_part fl pix i) -> (unknowns fl < 2 * length us + 10)%nat ->
  (forall N W, inv N = Ok W \/ pinv N = Ok W -> forall i, (i < 18)%nat -> 0 < W i i) ->
  orient_est mm cp tol lstsq rank inv pinv fix_ pix fl h drad est c = (c', Ok (r, est')) ->
  forall i, (i < unknowns fl \/ i = 19)%nat -> nth_error est' i = Some (Some 0).
Proof.
  intros mm cp tol lstsq rank inv pinv fix_ pix fl h drad est c c' r est' us KZ A B HC ND EX LE US UI UN IV E i Hi.
  destruct (us_spec fix_ pix fl) as (U1 & U2 & _). assert (us = filter (part_b pix fl) (seq 0 (length fix_))) as -> by (apply sorted_unique; auto; intros q; rewrite UI, U2; reflexivity).
  assert (NE : filter (part_b pix fl) (seq 0 (length fix_)) <> []). { intros Z. rewrite Z in UN. cbn in UN. unfold unknowns in UN. destruct (_ =? 0)%Z; lia. }
  apply estimates_ok in E. destruct E as (bs & b & X & y & g & p & W & _ & SM & L & S & G & T & EW & EE & SV).
  assert (BZ : forall x, nth_error (bs ++ [b]) 0 = Some x -> forall i, x i = 0).
  { intros x Hx. destruct (SV x Hx) as (X' & y' & g' & S1 & S2 & S3). cbn [firstn map] in S2, S3.
    assert (g' = c_glass c) as -> by (apply S3; now left). rewrite calibrated_nil, calib_self in S2 by exact HC.
    destruct (KZ X' y' (first_zero _ _ _ _ _ _ _ _ _ _ _ _ _ _ A B EX ND S2)) as (b0 & E0 & Z0). rewrite E0 in S1. injection S1 as <-. exact Z0. }
  destruct bs as [|b1 bs]. 2:{ exfalso. apply (SM b1 eq_refl). intros q Hq. rewrite (BZ b1 eq_refl), Rabs_R0. lra. }
  specialize (BZ b eq_refl). cbn [map] in S. assert (g = c_glass c) as -> by (apply G; now left). rewrite calibrated_nil, calib_self in S by exact HC.
  pose proof (first_zero _ _ _ _ _ _ _ _ _ _ _ _ _ _ A B EX ND S) as YZ. rewrite Forall_forall in YZ.
  assert (Z : unexplained X y (applied fl b) = 0).
  { unfold unexplained. rewrite (sum_to_ext _ _ (fun _ => 0)); [apply sumR_zero|]. intros q Hq. rewrite (YZ (nth q y 0)) by (apply nth_In; exact Hq).
    rewrite (row_sum_ext _ _ (fun _ => 0)) by (intros k; unfold applied; rewrite BZ; now destruct (_ && _)). unfold row_sum.
    rewrite (map_ext _ (fun _ => 0)) by (intros; ring). fold (sumR (map (fun _ : nat => 0) (seq 0 (length (nth q X []))))). rewrite sumR_zero. ring. }
  assert (NN : (numbers fl <= 18)%nat) by apply numbers_le.
  assert (Hi' : (i < 20)%nat) by (destruct Hi as [Hi | ->]; [change (unknowns fl) with (numbers fl) in Hi; lia|lia]).
  rewrite EE, nth_estimates by lia. f_equal. rewrite (sigma0_eq _ _ _ _ _ _ _ _ T). unfold unit_deviation. apply Nat.ltb_lt in UN. rewrite UN, Z. unfold Rdiv. rewrite Rmult_0_l, sqrt_0.
  destruct Hi as [Hi | ->].
  - change (unknowns fl) with (numbers fl) in Hi. pose proof Hi as Hi2. apply Nat.ltb_lt in Hi. rewrite Hi.
    assert (P : 0 < W i i). { unfold xpx in EW. apply (IV (xtx fix_ fl p) W); [|lia]. destruct (is_singular _ _); [right|left]; exact EW. }
    unfold np_mul, np_sqrt. destruct (Rle_dec 0 _); [|lra]. f_equal. ring.
  - assert (19 <? numbers fl = false)%nat as -> by (apply Nat.ltb_ge; lia). reflexivity.
Qed.
Print Assumptions C86_exact.

(** ---- cases: four points, exact and with one displaced target; a solver that proposes nothing and an inversion that
    returns the unit matrix ---- *)
Definition four_pts : list vec := [V 1 1 0; V 2 (-3) 4; V 0 0 0; V 1 0 5].
Definition four_pix : list pixel := [(0%Z, (11 / 10, 9 / 10)); (1%Z, (4 / 3, 3 / 2)); (2%Z, (1, 1)); (3%Z, (6 / 5, 1))].
Definition bad_pix : list pixel := [(0%Z, (2, 9 / 10)); (1%Z, (4 / 3, 3 / 2)); (2%Z, (1, 1)); (3%Z, (6 / 5, 1))].
Definition unit_inverse : list (list R) -> result (nat -> nat -> R) := fun _ => Ok (fun j k => if (j =? k)%nat then 1 else 0).
Lemma unit_positive : forall N W, unit_inverse N = Ok W \/ unit_inverse N = Ok W -> forall i, (i < 18)%nat -> 0 < W i i.
Proof. intros N W [H|H] i _; injection H as <-; rewrite Nat.eqb_refl; lra. Qed.
Lemma zero_keeps : keeps_zero zero_step.
Proof. intros X y _. eexists. split; reflexivity. Qed.
Lemma four_run pix rank est h drad : (4 <= length pix)%nat -> exists c' r est', orient_est simple_mm simple_cpar 0 zero_step rank unit_inverse unit_inverse four_pts pix orient_default h drad est (cam 0) = (c', Ok (r, est')).
Proof.
  intros L. destruct (nr_orient simple_mm simple_cpar 0 zero_step four_pts pix orient_default h drad simple_one) with (c := cam 0) as (c' & r & E); [intros; eexists; reflexivity|cbn; lia|].
  destruct (C86_same simple_mm simple_cpar 0 zero_step rank unit_inverse unit_inverse four_pts pix orient_default h drad est (cam 0)) as (S & _); [intros; eexists; reflexivity|intros; eexists; reflexivity|].
  rewrite E in S. destruct (orient_est _ _ _ _ _ _ _ _ _ _ _ _ _ _) as [c1 [[r1 e1]|]]; [|discriminate]. eauto.
Qed.
Lemma four_takes pix : map fst pix = [0; 1; 2; 3]%Z -> StronglySorted lt [0; 1; 2; 3]%nat /\ forall i, In i [0; 1; 2; 3]%nat <-> (i < length four_pts)%nat /\ takes_part orient_default pix i.
Proof.
  intros M. destruct pix as [|[p0 q0] [|[p1 q1] [|[p2 q2] [|[p3 q3] [|]]]]]; try discriminate. cbn in M. injection M as -> -> -> ->. split; [repeat constructor|].
  intros i. split; [|intros (Hi & _); cbn in Hi; destruct i as [|[|[|[|i]]]]; cbn; auto 6; lia].
  intros [<-|[<-|[<-|[<-|[]]]]]; (split; [cbn; lia|]); (eexists; split; [reflexivity|]; repeat split; discriminate).
Qed.
Example C86_exact_case : forall rank h drad, exists c' r est', orient_est simple_mm simple_cpar 0 zero_step rank unit_inverse unit_inverse four_pts four_pix orient_default h drad (repeat None 20) (cam 0) = (c', Ok (r, est')) /\
  est' = repeat (Some 0) 16 ++ [None; None; None; Some 0].
Proof.
  intros rank h drad. destruct (four_run four_pix rank (repeat None 20) h drad) as (c' & r & est' & E); [cbn; lia|]. exists c', r, est'. split; [exact E|].
  destruct (four_takes four_pix eq_refl) as (SS & IU).
  assert (EX : exact_pixels simple_mm simple_cpar (cam 0) four_pts four_pix).
  { intros [|[|[|[|i]]]] P HP; cbn in HP; try (injection HP as <-); [| | | |destruct i; discriminate]; (eexists _, _, _, _, _; split; [reflexivity|]; split; [apply cam_img; lra|]).
    all: unfold metric_to_pixel; cbn [simple_cpar imx_ imy_ pix_x_ pix_y_]; f_equal; field. }
  assert (NZ1 : pix_x_ simple_cpar <> 0) by (cbn; lra). assert (NZ2 : pix_y_ simple_cpar <> 0) by (cbn; lra).
  assert (UN : (unknowns orient_default < 2 * length [0; 1; 2; 3]%nat + 10)%nat) by (unfold unknowns; cbn; lia).
  pose proof (C86_exact _ _ _ _ _ _ _ _ _ _ _ _ _ _ _ _ _ _ zero_keeps NZ1 NZ2 (cam_consistent 0) eq_refl EX (repeat_length (@None R) 20) SS IU UN unit_positive E) as Z.
  apply C86_estimates in E. destruct E as (us & bs & b & X & y & g & W & _ & _ & _ & _ & E). cbv zeta in E. destruct E as (_ & LE & E). cbn [length repeat] in LE, E.
  apply Lib.nth_error_ext. intros i. destruct (Nat.lt_ge_cases i 20) as [Hi|Hi].
  - do 16 (destruct i as [|i]; [rewrite Z by (left; unfold unknowns; cbn; lia); reflexivity|]). do 3 (destruct i as [|i]; [rewrite E by lia; reflexivity|]). destruct i as [|i]; [rewrite Z by (right; reflexivity); reflexivity|lia].
  - rewrite !(proj2 (nth_error_None _ _)); [reflexivity|cbn; lia|lia].
Qed.
(** one target displaced by a whole pixel: nothing is released, all errors are positive *)
Example C86_frozen_case : forall rank h drad, exists c' r est' s, orient_est simple_mm simple_cpar 0 zero_step rank unit_inverse unit_inverse four_pts bad_pix orient_default h drad (repeat None 20) (cam 0) = (c', Ok (r, est')) /\
  nth_error est' 19 = Some (Some s) /\ 0 < s /\ (forall i, (i < 10)%nat -> nth i (inner_flags orient_default) 1%Z = 0%Z) /\ inner_params c' = inner_params (cam 0) /\
  forall i, (i < 10)%nat -> exists e, nth_error est' (6 + i) = Some (Some e) /\ 0 < e.
Proof.
  intros rank h drad. destruct (four_run bad_pix rank (repeat None 20) h drad) as (c' & r & est' & E); [cbn; lia|]. exists c', r, est'.
  assert (FL : forall i, (i < 10)%nat -> nth i (inner_flags orient_default) 1%Z = 0%Z). { intros i Hi. do 10 (destruct i as [|i]; [reflexivity|]). lia. }
  assert (QS : exists s, nth_error est' 19 = Some (Some s) /\ 0 < s).
  { pose proof E as E0. apply estimates_ok in E. destruct E as (bs & b & X & y & g & p & W & _ & SM & L & S & G & T & EW & EE & SV).
    assert (bs = []) as ->. { destruct bs as [|b1 bs]; [reflexivity|]. exfalso. destruct (SV b1 eq_refl) as (X' & y' & g' & S1 & _). injection S1 as <-. apply (SM _ eq_refl). intros q Hq. rewrite Rabs_R0. lra. }
    injection L as <-. cbn [map] in S. assert (NE : filter (part_b bad_pix orient_default) (seq 0 (length four_pts)) = [0; 1; 2; 3]%nat) by reflexivity.
    assert (g = c_glass (cam 0)) as -> by (apply G; left; rewrite NE; discriminate). rewrite calibrated_nil, calib_self in S by apply cam_consistent. rewrite NE in *.
    destruct S as (_ & LY & F1 & _). destruct (F1 0%nat 0%nat eq_refl) as (P & qx & qy & rx & ry & ex & ey & HP & HQ & PR & X1 & X2 & Y1 & Y2).
    injection HP as <-. injection HQ as <- <-. destruct PR as (x0 & y0 & HI & (E1 & E2) & _). cbn [Nat.eqb Nat.mul Nat.add] in *.
    rewrite cam_img in HI by lra. injection HI as <- <-. change (c_added (cam 0)) with no_distortion in E1. rewrite (proj2 (no_distortion_id _ _ 0)) in E1. cbn [fst simple_cpar imx_ pix_x_] in E1.
    assert (Y0 : nth 0 y 0 = 9 / 10) by (rewrite Y1, E1; field). clear - EE T Y0 LY.
    rewrite EE, nth_estimates by (cbn; lia). cbn [Nat.ltb Nat.leb numbers Nat.eqb].
    rewrite (sigma0_eq _ _ _ _ _ _ _ _ T). unfold unit_deviation. cbn [unknowns]. eexists. split; [reflexivity|]. apply sqrt_lt_R0. apply Rmult_lt_0_compat.
    - unfold unexplained, sum_to. destruct y as [|y0 y]; [cbn in Y0; lra|]. cbn in Y0. subst y0. cbn [length seq map fold_right nth].
      rewrite (row_sum_ext _ _ (fun _ => 0)) by (intros k; unfold applied; now destruct (_ && _)).
      assert (RZ : forall row, row_sum row (fun _ => 0) = 0). { intros row. unfold row_sum. rewrite (map_ext _ (fun _ => 0)) by (intros; ring). apply (sumR_zero (seq 0 (length row))). }
      rewrite RZ. pose proof (proj1 (sumR_sq (fun i => row_sum (nth i X []) (applied orient_default (fun _ => 0)) - nth i (9 / 10 :: y) 0) (seq 1 (length y)))) as P. unfold sumR in P.
      match goal with |- 0 < _ + ?B => change (0 <= B) in P; assert (0 < (0 - 9 / 10) ^ 2) by lra; lra end.
    - apply Rinv_0_lt_compat, lt_0_INR. cbn. lia. }
  destruct QS as (s & ES & S0). exists s. split; [exact E|]. split; [exact ES|]. split; [exact S0|]. split; [exact FL|].
  pose proof (C86_frozen_refuted _ _ _ _ _ _ _ _ _ _ _ _ _ _ _ _ _ _ (repeat_length (@None R) 20) unit_positive E ES S0) as FR.
  split; [|intros i Hi; apply FR; auto].
  apply (nth_ext _ _ 0 0); [reflexivity|]. intros i Hi. apply FR; [exact Hi|]. apply FL. exact Hi.
Qed.
(** two points: not one estimate *)
Example C86_few_case : forall rank h drad memory, length memory = 20%nat -> exists c' rows est, full_calibration_est simple_mm simple_cpar 0 divide rank unit_inverse unit_inverse two_pts two_pix orient_default h drad memory (cam 0) = (c', Ok (rows, est)) /\
  length rows = 2%nat /\ est = repeat None 16 ++ firstn 3 (skipn 16 memory) ++ [None].
Proof.
  intros rank h drad memory LM. destruct (C80_case h drad) as (resi & rows & _ & _ & _ & _ & TP & _ & _ & E & ER).
  destruct (C86_same simple_mm simple_cpar 0 divide rank unit_inverse unit_inverse two_pts two_pix orient_default h drad memory (cam 0)) as (_ & S); [intros; eexists; reflexivity|intros; eexists; reflexivity|].
  rewrite E in S. destruct (full_calibration_est _ _ _ _ _ _ _ _ _ _ _ _ _ _) as [c1 [[r1 e1]|]] eqn:EF; [|discriminate]. injection S as -> <-. exists (cam 0), r1, e1. split; [reflexivity|]. split; [now rewrite ER|].
  assert (SS : StronglySorted lt [0%nat; 1%nat]) by (repeat constructor).
  assert (IU : forall i, In i [0%nat; 1%nat] <-> (i < length two_pts)%nat /\ takes_part orient_default two_pix i).
  { intros i. split; [intros [<-|[<-|[]]]; (split; [cbn; lia|apply TP; cbn; lia])|]. intros (Hi & _). cbn in Hi. destruct i as [|[|i]]; cbn; auto; lia. }
  assert (UN : (2 * length [0%nat; 1%nat] + 10 <= unknowns orient_default)%nat) by (unfold unknowns; cbn; lia).
  pose proof (C86_few_refuted _ _ _ _ _ _ _ _ _ _ _ _ _ _ _ _ _ _ LM EF SS IU UN) as Z. pose proof (C86_memory_refuted _ _ _ _ _ _ _ _ _ _ _ _ _ _ _ _ _ LM EF) as M.
  assert (LE : length e1 = 20%nat).
  { unfold full_calibration_est, sbind, slift, sret, sraise in EF. destruct (orient_est _ _ _ _ _ _ _ _ _ _ _ _ _ _) as [c2 [[[rs|] e2]|e]] eqn:EO; cbn [fst snd] in EF; try discriminate. destruct (table rs 0 two_pix); [|discriminate].
    injection EF as _ _ ->. apply C86_estimates in EO. destruct EO as (us & bs & b & X & y & g & W & _ & _ & _ & _ & EO). cbv zeta in EO. destruct EO as (_ & LE & _). congruence. }
  apply Lib.nth_error_ext. intros i. destruct (Nat.lt_ge_cases i 20) as [Hi|Hi].
  - do 20 (destruct memory as [|? memory]; [discriminate LM|]). do 16 (destruct i as [|i]; [rewrite Z by (left; unfold unknowns; cbn; lia); reflexivity|]).
    do 3 (destruct i as [|i]; [rewrite M by (unfold unknowns; cbn; lia); reflexivity|]). destruct i as [|i]; [rewrite Z by (right; reflexivity); reflexivity|lia].
  - rewrite !(proj2 (nth_error_None _ _)); [reflexivity| |lia]. rewrite !app_length, repeat_length, firstn_length, skipn_length. cbn [length]. lia.
Qed.
