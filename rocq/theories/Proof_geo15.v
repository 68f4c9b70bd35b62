(** Proofs for C73: the set-up of a tracking run. *)
From Verif Require Import Base Lib Model_geo Model_geo2 Spec_geo Spec_geo2 Spec_geo3 Proof_geo Proof_geo2 Proof_geo8 Proof_geo9 Prop_geo Proof_geo14.
Local Open Scope R_scope.

Lemma lmax_bound l d e : within_limits l d -> within_limits l e -> vec_diff_norm d e <= run_lmax l.
Proof.
  intros (D1 & D2 & D3) (E1 & E2 & E3). unfold vec_diff_norm, run_lmax. apply sqrt_le_1_alt.
  assert (K : forall a b x y : R, a <= x <= b -> a <= y <= b -> (x - y) * (x - y) <= (a - b) ^ 2) by (intros; nra).
  pose proof (K _ _ _ _ D1 E1). pose proof (K _ _ _ _ D2 E2). pose proof (K _ _ _ _ D3 E3). cbn [vsub vx vy vz]. lra.
Qed.
Lemma lmax_attained l : vec_diff_norm (dvmin l) (dvmax l) = run_lmax l.
Proof. unfold vec_diff_norm, run_lmax. reflexivity. Qed.

(** growing again changes nothing *)
Definition x_part (b : R * R * R * R) : R * R := let '(xM, xm, _, _) := b in (xM, xm).
Definition y_part (b : R * R * R * R) : R * R := let '(_, _, yM, ym) := b in (yM, ym).
Lemma grow_x b b' q : x_part b = x_part b' -> x_part (grow b q) = x_part (grow b' q).
Proof. destruct b as [[[? ?] ?] ?], b' as [[[? ?] ?] ?], q. cbn. intros [= -> ->]. reflexivity. Qed.
Lemma grow_y b b' q : y_part b = y_part b' -> y_part (grow b q) = y_part (grow b' q).
Proof. destruct b as [[[? ?] ?] ?], b' as [[[? ?] ?] ?], q. cbn. intros [= -> ->]. reflexivity. Qed.
Lemma fold_x z1 z2 l : forall b b', x_part b = x_part b' -> x_part (fold_left (grow_ray z1 z2) l b) = x_part (fold_left (grow_ray z1 z2) l b').
Proof. induction l as [|[p a] l IH]; intros; cbn [fold_left]; [assumption|]. apply IH. unfold grow_ray. now apply grow_x, grow_x. Qed.
Lemma fold_y z1 z2 l : forall b b', y_part b = y_part b' -> y_part (fold_left (grow_ray z1 z2) l b) = y_part (fold_left (grow_ray z1 z2) l b').
Proof. induction l as [|[p a] l IH]; intros; cbn [fold_left]; [assumption|]. apply IH. unfold grow_ray. now apply grow_y, grow_y. Qed.
Lemma grow_id b x y : in_box b x y -> grow b (x, y) = b.
Proof. destruct b as [[[? ?] ?] ?]. unfold in_box, grow. intros. repeat match goal with |- context [Rlt_dec ?a ?b] => destruct (Rlt_dec a b) end; try lra; reflexivity. Qed.
Lemma fold_id z1 z2 l b : (forall r, In r l -> in_box b (fst (at_z r z2)) (snd (at_z r z2)) /\ in_box b (vx (fst r) + (z1 + vz (fst r)) * vx (snd r) / vz (snd r)) (vy (fst r) + (z1 + vz (fst r)) * vy (snd r) / vz (snd r))) ->
  fold_left (grow_ray z1 z2) l b = b.
Proof.
  induction l as [|[p a] l IH]; intros H; cbn [fold_left]; [reflexivity|]. destruct (H (p, a) (or_introl eq_refl)) as (H1 & H2).
  replace (grow_ray z1 z2 b (p, a)) with b; [apply IH; intros; apply H; now right|]. unfold grow_ray. cbn [fst snd] in *. rewrite (grow_id _ _ _ H2). symmetry. now apply (grow_id b).
Qed.
Lemma run_again v cp tol cals v' ymin ymax : x_lay0 v <= x_lay1 v -> run_volume v cp tol cals = (v', ymin, ymax) -> run_volume v' cp tol cals = (v', ymin, ymax).
Proof.
  intros O. unfold run_volume, volumedimension.
  set (zm := if Rlt_dec (zmin1 v) (zmin0 v) then zmin1 v else zmin0 v). set (zM := if Rlt_dec (zmax0 v) (zmax1 v) then zmax1 v else zmax0 v).
  set (rays := flat_map _ cals). cbv zeta. pose proof (fold_ray_in zm zM rays (x_lay1 v, x_lay0 v, 0, 0)) as FI. cbv zeta in FI.
  pose proof (fold_id zm zM rays (fold_left (grow_ray zm zM) rays (x_lay1 v, x_lay0 v, 0, 0))) as F2.
  pose proof (fold_x zm zM rays) as FX. pose proof (fold_y zm zM rays (x_lay1 v, x_lay0 v, 0, 0)) as FY.
  destruct (fold_left (grow_ray zm zM) rays (x_lay1 v, x_lay0 v, 0, 0)) as [[[xM xm] yM] ym] eqn:E.
  specialize (F2 (fun r I => FI r ltac:(unfold ordered; lra) I)). intros [= <- <- <-]. cbn [zmin0 zmin1 zmax0 zmax1 x_lay0 x_lay1].
  replace (if Rlt_dec (zmin1 v) zm then zmin1 v else zm) with zm by (unfold zm; repeat match goal with |- context [Rlt_dec ?a ?b] => destruct (Rlt_dec a b) end; lra).
  replace (if Rlt_dec (zmax0 v) zM then zM else zmax0 v) with zM by (unfold zM; repeat match goal with |- context [Rlt_dec ?a ?b] => destruct (Rlt_dec a b) end; lra).
  pose proof (FX (xM, xm, 0, 0) (xM, xm, yM, ym) eq_refl) as X. rewrite F2 in X. pose proof (FY (xM, xm, 0, 0) eq_refl) as Y.
  destruct (fold_left (grow_ray zm zM) rays (xM, xm, 0, 0)) as [[[? ?] ?] ?]. cbn in X, Y. congruence.
Qed.
Lemma run_volume_is v cp tol cals v' ymin ymax c ij : x_lay0 v <= x_lay1 v -> In c cals -> run_volume v cp tol cals = (v', ymin, ymax) ->
  zmin0 v' = Rmin (zmin0 v) (zmin1 v) /\ zmax1 v' = Rmax (zmax0 v) (zmax1 v) /\ zmin1 v' = zmin1 v /\ zmax0 v' = zmax0 v /\
  x_lay0 v' <= x_lay0 v /\ x_lay1 v <= x_lay1 v' /\ ymin <= 0 <= ymax /\
  (let p := at_z (corner_ray cp tol c ij) (zmax1 v') in x_lay0 v' <= fst p <= x_lay1 v' /\ ymin <= snd p <= ymax).
Proof.
  intros O I. unfold run_volume. pose proof (volume_contains (x_lay1 v) (x_lay0 v) 0 0 v cp tol cals c ij O ltac:(lra) I) as V.
  destruct (volumedimension _ _ _ _ _ _ _ _) as [[[[[? ?] ?] ?] ?] ?]. intros [= <- <- <-]. cbn [zmin0 zmin1 zmax0 zmax1 x_lay0 x_lay1]. cbv zeta in V.
  destruct V as (-> & -> & P & _ & B1 & B2 & B3 & B4). split; [reflexivity|]. split; [reflexivity|]. split; [reflexivity|]. split; [reflexivity|].
  split; [exact B1|]. split; [exact B2|]. split; [split; assumption|]. exact P.
Qed.
Lemma rmin_if a b : (if Rlt_dec b a then b else a) = Rmin a b.
Proof. destruct (Rlt_dec b a); [rewrite Rmin_right by lra|rewrite Rmin_left by lra]; reflexivity. Qed.
Lemma run_z v cp tol cals v' ymin ymax : run_volume v cp tol cals = (v', ymin, ymax) ->
  zmin0 v' = Rmin (zmin0 v) (zmin1 v) /\ zmax1 v' = Rmax (zmax0 v) (zmax1 v) /\ zmin1 v' = zmin1 v /\ zmax0 v' = zmax0 v.
Proof.
  unfold run_volume, volumedimension. destruct (fold_left _ _ _) as [[[? ?] ?] ?]. intros [= <- <- <-]. cbn [zmin0 zmin1 zmax0 zmax1].
  split; [apply rmin_if|]. split; [|split; reflexivity]. destruct (Rlt_dec (zmax0 v) (zmax1 v)); [rewrite Rmax_right by lra|rewrite Rmax_left by lra]; reflexivity.
Qed.
Lemma shrunk tol : let v := mk_volpar 0 1 (-4) 0 0 0 in
  forall v' ymin ymax, run_volume v simple_cpar tol [simple_cal] = (v', ymin, ymax) -> lower_z v 0 < lower_z v' 0.
Proof.
  intros v v' ymin ymax E.
  assert (K : forall ij, exists x, fst (at_z (corner_ray simple_cpar tol simple_cal ij) 0) = 10 * x /\ x = (if fst ij then 1 else -1)).
  { intros ij. destruct (simple_corner tol ij) as (x & y & k & _ & _ & X & K & ->). exists x. split; [|exact X]. unfold at_z. cbn [fst snd vx vy vz vscale]. field. lra. }
  destruct (run_volume_is v simple_cpar tol [simple_cal] v' ymin ymax simple_cal (true, true) ltac:(cbn; lra) (or_introl eq_refl) E) as (Z0 & Z1 & Z2 & _ & _ & _ & _ & P1 & _).
  destruct (run_volume_is v simple_cpar tol [simple_cal] v' ymin ymax simple_cal (false, true) ltac:(cbn; lra) (or_introl eq_refl) E) as (_ & _ & _ & _ & _ & _ & _ & P2 & _).
  cbn [v zmin0 zmin1 zmax0 zmax1] in Z0, Z1, Z2. rewrite Rmin_left in Z0 by lra. rewrite Rmax_left in Z1 by lra. rewrite Z1 in P1, P2.
  destruct (K (true, true)) as (x1 & A1 & B1), (K (false, true)) as (x2 & A2 & B2). rewrite A1 in P1. rewrite A2 in P2. cbn [fst] in B1, B2. subst.
  unfold lower_z. rewrite Z0, Z2. cbn [v zmin0 zmin1 x_lay0 x_lay1].
  assert (0 < (0 - x_lay0 v') / (x_lay1 v' - x_lay0 v')) by (apply Rdiv_lt_0_compat; lra). replace ((0 - 0) / (1 - 0)) with 0 by field. lra.
Qed.
