From Verif Require Import Model_par Model_geo Spec_geo Proof_geo Model_orient Spec_orient Proof_orient Lib Base.
Local Open Scope R_scope.

Section O.
Variable mm : mmpar. Variable cp : cpar. Variable tol : R. Variable lstsq : list (list R) -> list R -> result (nat -> R).
Variable fix_ : list vec. Variable pix : list pixel. Variable fl : orientpar. Variables h drad : R.
Notation points_ := (points mm cp tol fix_ pix fl h drad).
Notation pass_ := (pass mm cp tol lstsq fix_ pix fl h drad).
Notation passes_ := (passes mm cp tol lstsq fix_ pix fl h drad).
Notation orient_ := (orient mm cp tol lstsq fix_ pix fl h drad).

Lemma orient_ok c c' r : orient_ c = (c', Ok r) ->
  exists c1 p, passes_ (c_glass c) (c_added c) 79 c = (c1, Ok p) /\
  ((ps_stop p = true /\ c' = update_rot c1 /\ r = Some (residuals fix_ fl p)) \/ (ps_stop p = false /\ c' = c1 /\ r = None)).
Proof.
  unfold orient, sbind, sget, smod, sret. destruct (passes_ (c_glass c) (c_added c) 79 c) as [c1 [p|e]]; [|discriminate].
  intros E. exists c1, p. split; [reflexivity|]. destruct (ps_stop p); apply pair_equal_spec in E; destruct E as [<- E]; injection E as <-; [left|right]; auto.
Qed.
Lemma conv_bound beta i : converged fl beta = true -> (i < numbers fl)%nat -> Rabs (beta i) <= CONVERGENCE.
Proof.
  unfold converged. rewrite forallb_forall. intros F L. assert (Q : In i (seq 0 (numbers fl))) by (apply in_seq; lia). apply F in Q. unfold Rleb in Q. now destruct (Rle_dec _ _).
Qed.
Lemma unit_comp v : Rabs (vx (unit_vector v)) <= 1 /\ Rabs (vy (unit_vector v)) <= 1 /\ Rabs (vz (unit_vector v)) <= 1.
Proof.
  assert (Q : forall a, a * a <= 1 -> Rabs a <= 1).
  { intros a H. destruct (Rle_dec (Rabs a) 1) as [|N]; [assumption|]. exfalso. assert (1 < Rabs a) by lra. assert (1 * 1 < Rabs a * Rabs a) by (apply Rmult_gt_0_lt_compat; lra).
    rewrite <- Rabs_mult, Rabs_pos_eq in H1; [lra|]. apply Rle_0_sqr. }
  unfold unit_vector. set (n := vnorm v). assert (N : n * n = vx v * vx v + vy v * vy v + vz v * vz v).
  { unfold n, vnorm. apply sqrt_sqrt. pose proof (Rle_0_sqr (vx v)). pose proof (Rle_0_sqr (vy v)). pose proof (Rle_0_sqr (vz v)). unfold Rsqr in *. lra. }
  pose proof (Rle_0_sqr (vx v)) as S1. pose proof (Rle_0_sqr (vy v)) as S2. pose proof (Rle_0_sqr (vz v)) as S3. unfold Rsqr in *.
  destruct (Req_EM_T n 0) as [Z|Z].
  - rewrite Z in N. repeat split; apply Q; lra.
  - assert (P : 0 < n * n) by (pose proof (Rsqr_pos_lt n Z); unfold Rsqr in *; lra).
    cbn [vx vy vz]. repeat split; apply Q;
      match goal with |- ?a / n * (?a / n) <= 1 => replace (a / n * (a / n)) with (a * a / (n * n)) by (field; exact Z); apply Rmult_le_reg_r with (n * n); [exact P|]; unfold Rdiv; rewrite Rmult_assoc, Rinv_l by lra; lra end.
Qed.
Lemma comp_bound e1 e2 n b1 b2 g : Rabs e1 <= 1 -> Rabs e2 <= 1 -> 0 <= n -> Rabs b1 <= CONVERGENCE -> Rabs b2 <= CONVERGENCE ->
  Rabs (g + e1 * n * b1 + e2 * n * b2 - g) <= 2 * CONVERGENCE * n.
Proof.
  intros. replace (g + e1 * n * b1 + e2 * n * b2 - g) with (e1 * n * b1 + e2 * n * b2) by ring.
  eapply Rle_trans; [apply Rabs_triang|]. rewrite !Rabs_mult, (Rabs_pos_eq n) by assumption.
  assert (P : forall e b, Rabs e <= 1 -> Rabs b <= CONVERGENCE -> Rabs e * n * Rabs b <= n * CONVERGENCE).
  { intros e b He Hb. assert (Rabs e * n <= 1 * n) by (apply Rmult_le_compat_r; assumption). assert (0 <= Rabs e * n) by (apply Rmult_le_pos; [apply Rabs_pos|assumption]).
    apply Rmult_le_compat; try assumption; [apply Rabs_pos|lra]. }
  pose proof (P e1 b1 H H2). pose proof (P e2 b2 H0 H3). lra.
Qed.
(** the glass after a pass over at least one point *)
Lemma pass_glass g0 a0 c c' p : pass_ g0 a0 c = (c', Ok p) -> Exists (takes_part fl pix) (seq 0 (length fix_)) ->
  exists b, (exists X y, lstsq X y = Ok b) /\ ps_stop p = converged fl b /\
  c_glass c' = if on (op_interf fl) then vadd (vadd g0 (vscale (vscale (e1_of g0) (vnorm g0)) (b 16%nat))) (vscale (vscale (e2_of g0) (vnorm g0)) (b 17%nat)) else g0.
Proof.
  intros E X. apply pass_ok in E. destruct E as (c1 & os & beta & EP & ES & -> & ->). exists beta. split; [unfold solve in ES; eauto|]. split; [reflexivity|].
  apply points_ok in EP. destruct EP as [[_ N]|[-> _]].
  { exfalso. apply Exists_exists in X. destruct X as (i & I & T). exact (N i I T). }
  unfold apply_beta. cbn [c_glass with_glass]. destruct (on (op_interf fl)); reflexivity.
Qed.
Lemma interface_bound c c' r : orient_ c = (c', Ok (Some r)) -> (exists i, (i < length fix_)%nat /\ takes_part fl pix i) ->
  let B := 2 * CONVERGENCE * vnorm (c_glass c) in
  Rabs (vx (c_glass c') - vx (c_glass c)) <= B /\ Rabs (vy (c_glass c') - vy (c_glass c)) <= B /\ Rabs (vz (c_glass c') - vz (c_glass c)) <= B.
Proof.
  intros E (i & L & T). apply orient_ok in E. destruct E as (c1 & p & EP & [(S & -> & _)|(_ & _ & [=])]).
  apply passes_last in EP. destruct EP as (c0 & EP). apply pass_glass in EP.
  2: { apply Exists_exists. exists i. split; [apply in_seq; lia|exact T]. }
  destruct EP as (b & _ & C & G). rewrite S in C. symmetry in C. change (c_glass (update_rot c1)) with (c_glass c1). rewrite G. cbv zeta.
  assert (NG : 0 <= vnorm (c_glass c)) by apply sqrt_pos. assert (CP : 0 <= CONVERGENCE) by (unfold CONVERGENCE; lra).
  assert (PB : 0 <= 2 * CONVERGENCE * vnorm (c_glass c)) by (apply Rmult_le_pos; lra).
  destruct (on (op_interf fl)) eqn:F.
  - assert (NN : numbers fl = 18%nat) by (unfold numbers; unfold on in F; destruct (op_interf fl =? 0)%Z; [discriminate|reflexivity]).
    pose proof (conv_bound b 16%nat C ltac:(rewrite NN; lia)). pose proof (conv_bound b 17%nat C ltac:(rewrite NN; lia)).
    destruct (unit_comp (e1_raw (c_glass c))) as (U1 & U2 & U3). fold (e1_of (c_glass c)) in U1, U2, U3.
    assert (U4 : Rabs (vx (e2_of (c_glass c))) <= 1 /\ Rabs (vy (e2_of (c_glass c))) <= 1 /\ Rabs (vz (e2_of (c_glass c))) <= 1) by apply unit_comp.
    destruct U4 as (U4 & U5 & U6). cbn [vadd vscale vx vy vz]. repeat split; apply comp_bound; assumption.
  - repeat split; match goal with |- Rabs (?a - ?a) <= _ => replace (a - a) with 0 by ring end; rewrite Rabs_R0; exact PB.
Qed.
End O.

(** ---- totality when everything is one medium ---- *)
Definition never_raises {A} (m : St A) : Prop := forall c, exists c' a, m c = (c', Ok a).
Lemma nr_bind {A B} (m : St A) (k : A -> St B) : never_raises m -> (forall a, never_raises (k a)) -> never_raises (sbind m k).
Proof. intros H K c. unfold sbind. destruct (H c) as (c1 & a & ->). apply K. Qed.
Lemma nr_ret {A} (a : A) : never_raises (sret a). Proof. intros c. unfold sret. eauto. Qed.
Lemma nr_mod f : never_raises (smod f). Proof. intros c. unfold smod. eauto. Qed.
Lemma nr_get : never_raises sget. Proof. intros c. unfold sget. eauto. Qed.
Lemma nr_lift {A} (a : A) : never_raises (slift (Ok a)). Proof. intros c. unfold slift. eauto. Qed.
Section T.
Variable mm : mmpar. Variable cp : cpar. Variable tol : R. Variable lstsq : list (list R) -> list R -> result (nat -> R).
Variable fix_ : list vec. Variable pix : list pixel. Variable fl : orientpar. Variables h drad : R.
Hypothesis HM : one_medium mm = true.
Hypothesis HS : forall X y, exists b, lstsq X y = Ok b.
Hypothesis HL : (length fix_ <= length pix)%nat.
Lemma nr_img pos : never_raises (simg mm pos).
Proof.
  intros c. unfold simg, img_coord, flat_image_coord, multimed_nlay, multimed_r_nlay. rewrite HM. destruct (trans_cam_point _ _ _ _) as [[[a b] d] e]. cbn [bind]. eauto.
Qed.
Lemma nr_deriv pos xs ys : forall pds, never_raises (deriv_loop mm h drad pos xs ys pds).
Proof.
  induction pds as [|pd r IH]; cbn [deriv_loop]; [apply nr_ret|].
  apply nr_bind; [apply nr_mod|intros _]. apply nr_bind; [apply nr_mod|intros _]. apply nr_bind; [apply nr_img|intros xy]. apply nr_bind; [apply nr_mod|intros _].
  apply nr_bind; [exact IH|intros rest]. apply nr_ret.
Qed.
Lemma nr_num_deriv pos : never_raises (num_deriv_exterior mm h drad pos).
Proof.
  unfold num_deriv_exterior. apply nr_bind; [apply nr_mod|intros _]. apply nr_bind; [apply nr_img|intros xy]. apply nr_bind; [apply nr_deriv|intros l].
  apply nr_bind; [apply nr_mod|intros _]. apply nr_ret.
Qed.
Lemma nr_point g0 pos px py : never_raises (orient_point mm cp tol g0 h drad pos px py).
Proof.
  unfold orient_point. cbv zeta. apply nr_bind; [apply nr_get|intros c0]. destruct (correct_brown_affine _ _ _ _) as [xc yc].
  apply nr_bind; [apply nr_mod|intros _]. apply nr_bind; [apply nr_img|intros [xp yp]]. apply nr_bind; [apply nr_num_deriv|intros der].
  repeat first [apply nr_bind; [apply nr_mod|intros _] | apply nr_bind; [apply nr_img|intro]]. apply nr_ret.
Qed.
Lemma nr_points g0 : forall idx, Forall (fun i => (i < length pix)%nat) idx -> never_raises (points mm cp tol fix_ pix fl h drad g0 idx).
Proof.
  induction idx as [|i r IH]; intros F; cbn [points]; [apply nr_ret|]. apply Forall_cons_iff in F. destruct F as [F1 F2].
  destruct (nth_error pix i) as [[pnr [px py]]|] eqn:N; [|apply nth_error_None in N; lia].
  destruct (usable _ _ _); [|now apply IH]. apply nr_bind; [apply nr_point|intros o]. apply nr_bind; [now apply IH|intros rest]. apply nr_ret.
Qed.
Lemma idx_ok : Forall (fun i => (i < length pix)%nat) (seq 0 (length fix_)).
Proof. apply Forall_forall. intros i I. apply in_seq in I. lia. Qed.
Lemma nr_pass g0 a0 : never_raises (pass mm cp tol lstsq fix_ pix fl h drad g0 a0).
Proof.
  unfold pass. apply nr_bind; [apply nr_points, idx_ok|intros os]. apply nr_bind; [apply nr_get|intros c]. apply nr_bind.
  { unfold solve. destruct (HS (zip_with (fun w x => map (Rmult (sqrt w)) (firstn (numbers fl) x)) (weights fix_ fl os) (design_x fix_ os)) (zip_with (fun w y => sqrt w * y) (weights fix_ fl os) (design_y fix_ os a0 c))) as (b & ->). apply nr_lift. }
  intros b. apply nr_bind; [apply nr_mod|intros _]. apply nr_ret.
Qed.
Lemma nr_passes g0 a0 : forall k, never_raises (passes mm cp tol lstsq fix_ pix fl h drad g0 a0 k).
Proof.
  induction k; cbn [passes]; (apply nr_bind; [apply nr_pass|intros p]); destruct (ps_stop p); try apply nr_ret; assumption.
Qed.
Lemma nr_orient : never_raises (orient mm cp tol lstsq fix_ pix fl h drad).
Proof.
  unfold orient. apply nr_bind; [apply nr_get|intros c]. apply nr_bind; [apply nr_passes|intros p]. destruct (ps_stop p); [|apply nr_ret].
  apply nr_bind; [apply nr_mod|intros _]. apply nr_ret.
Qed.
End T.
