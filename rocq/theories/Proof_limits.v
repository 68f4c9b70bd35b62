(** Proofs for C89. *)
From Coq Require Import ZArith Reals Psatz.
From Flocq Require Import Core.Core.
From Verif Require Import F64 F64R F64E Model_track Spec_track Model_f64 Spec_f64 Proof_f64 Proof_f642 Proof_f643 Prop_f64 Spec_limits Base.
Local Open Scope R_scope.

Lemma vb_mono a b c : b <= c -> vec_bounded a b -> vec_bounded a c.
Proof. destruct a as [[x y] z]. intros L ((X & X') & (Y & Y') & (Z & Z')). split; [|split]; (split; [assumption|lra]). Qed.
Lemma vb_fin a b : vec_bounded a b -> vec_fin a.
Proof. destruct a as [[x y] z]. intros ((X & X') & (Y & Y') & (Z & Z')). split; [exact X|]. split; [exact Y|exact Z]. Qed.
Lemma diff_len a b c : vec_bounded a c -> vec_bounded b c -> rlength (rminus (exact a) (exact b)) <= 4 * c.
Proof.
  destruct a as [[a0 a1] a2], b as [[b0 b1] b2]. intros ((_ & A0) & (_ & A1) & (_ & A2)) ((_ & B0) & (_ & B1) & (_ & B2)). cbn [exact rminus].
  replace (4 * c) with (2 * (2 * c)) by ring. assert (0 <= c) by (pose proof (Rabs_pos (val a0)); lra).
  apply small_len; [lra| | |]; (eapply Rle_trans; [apply abs_sub; eassumption|lra]).
Qed.
Section Bound.
Variable B : R.
Hypothesis BLO : / 2 ^ 100 <= B.
Hypothesis BHI : B <= 2 ^ 170.
Lemma Bpos : 0 < B. Proof. eapply Rlt_le_trans; [|exact BLO]. apply Rinv_0_lt_compat, p2. Qed.
Lemma tiny499 : / 2 ^ 499 <= B / 2 ^ 50.
Proof.
  apply Rle_trans with (/ 2 ^ 100 / 2 ^ 50); [|apply Rmult_le_compat_r; [left; apply Rinv_0_lt_compat, p2|exact BLO]].
  unfold Rdiv. rewrite <- Rinv_mult, <- pow_add. apply Rinv_le_contravar; [apply p2|]. apply p2_le. lia.
Qed.
Lemma tiny1075 : / 2 ^ 1075 <= B / 2 ^ 50.
Proof. eapply Rle_trans; [|apply tiny499]. apply Rinv_le_contravar; [apply p2|apply p2_le; lia]. Qed.
Lemma up190 : 8 * B <= 2 ^ 190.
Proof. apply Rle_trans with (8 * 2 ^ 170); [lra|]. replace 8 with (2 ^ 3) by (cbn; lra). rewrite <- pow_add. apply p2_le. lia. Qed.
Lemma b200 v c : c <= 8 * B -> vec_bounded v c -> vec_bounded v (2 ^ 190) /\ vec_bounded v (2 ^ 198) /\ vec_bounded v (2 ^ 200).
Proof. intros C V. pose proof up190. pose proof (p2_le 190 198 ltac:(lia)). pose proof (p2_le 190 200 ltac:(lia)). split; [|split]; apply (vb_mono _ c); auto; lra. Qed.
(** the computed acceleration *)
Lemma acc_err s p c : vec_bounded s (8 * B) -> vec_bounded p (8 * B) -> vec_bounded c (8 * B) -> forall acos gon,
  within (snd (fangle_acc acos gon s p c)) (rlength (rminus (exact p) (exact c))) (B / 2 ^ 41).
Proof.
  intros S P C acos gon. pose proof Bpos. destruct (b200 s _ (Rle_refl _) S) as (S1 & _). destruct (b200 p _ (Rle_refl _) P) as (P1 & _). destruct (b200 c _ (Rle_refl _) C) as (C1 & _).
  destruct (C87_acceleration acos gon s p c S1 P1 C1) as (F & E). split; [exact F|]. eapply Rle_trans; [exact E|].
  pose proof (diff_len _ _ _ P S). pose proof (diff_len _ _ _ C S). pose proof tiny499. unfold Rdiv in *. lra.
Qed.
Lemma acc_range s p c : vec_bounded s (8 * B) -> vec_bounded p (8 * B) -> vec_bounded c (8 * B) -> forall acos gon, 
  let a := snd (fangle_acc acos gon s p c) in fin a /\ Rabs (val a) <= 33 * B /\ rlength (rminus (exact p) (exact c)) <= val a + B / 2 ^ 41.
Proof.
  intros S P C acos gon a. destruct (acc_err s p c S P C acos gon) as (F & E). fold a in F, E. pose proof Bpos. pose proof (diff_len _ _ _ P C). pose proof (rlength_nonneg (rminus (exact p) (exact c))).
  apply Rabs_le_inv in E. split; [exact F|]. split; [apply Rabs_le|]; lra.
Qed.
(** the mean of two accelerations *)
Lemma mean_err a b : fin a -> fin b -> Rabs (val a) <= 33 * B -> Rabs (val b) <= 33 * B -> let m := fdiv (fadd a b) (f_of_Z 2) in
  fin m /\ (val a + val b) / 2 <= val m + B / 2 ^ 44.
Proof.
  intros FA FB A C m. pose proof Bpos. assert (H128 : 128 * B <= huge).
  { apply Rle_trans with (2 ^ 177); [|apply pow_huge; lia]. replace 128 with (2 ^ 7) by (cbn; lra). change 177%nat with (7 + 170)%nat. rewrite pow_add. apply Rmult_le_compat_l; [apply pow_le; lra|exact BHI]. }
  assert (S : Rabs (val a + val b) <= 66 * B) by (eapply Rle_trans; [apply abs_add; eassumption|lra]).
  destruct (add_close a b FA FB ltac:(lra)) as (F & E). destruct (f_of_Z_exact 2 ltac:(lia)) as (F2 & V2).
  assert (AB : Rabs (val (fadd a b)) <= 67 * B). { eapply Rle_trans; [apply (abs_near _ _ _ E)|]. unfold uu. lra. }
  assert (Q : Rabs (val (fadd a b) / val (f_of_Z 2)) <= 34 * B). { rewrite V2. unfold Rdiv. rewrite Rabs_mult, (Rabs_pos_eq (/ 2)) by lra. lra. }
  destruct (div_close (fadd a b) (f_of_Z 2) F F2) as (G & E'); [rewrite V2; lra|lra|]. fold m in G, E'. split; [exact G|].
  rewrite V2 in *. rewrite tiny_eq in E'. pose proof tiny1075. apply Rabs_le_inv in E, E'. unfold uu in *. unfold Rdiv in *. lra.
Qed.
(** what a passed comparison means *)
Lemma below_limit a d : fin a -> fin d -> 0 <= val d <= 2 ^ 190 -> flt a d = true \/ flt a (fdiv d (f_of_Z 10)) = true -> val a <= val d.
Proof.
  intros A D L [H|H]; [apply flt_val in H; auto; lra|]. destruct (f_of_Z_exact 10 ltac:(lia)) as (F2 & V2).
  assert (Q : Rabs (val d / val (f_of_Z 10)) <= huge). { rewrite V2. unfold Rdiv. rewrite Rabs_mult, (Rabs_pos_eq (/ 10)), (Rabs_pos_eq (val d)) by lra. pose proof (pow_huge 190 ltac:(lia)). lra. }
  destruct (fdiv_correct d (f_of_Z 10) D F2) as (G & E); [rewrite V2; lra|now apply rnd_huge|]. apply flt_val in H; auto. rewrite E in H.
  assert (M : rnd (val d / val (f_of_Z 10)) <= rnd (val d)) by (apply rnd_le; rewrite V2; lra). rewrite (rnd_val d D) in M. lra.
Qed.
Lemma smooth_below tp aa : fin (snd aa) -> fin (dacc tp) -> 0 <= val (dacc tp) <= 2 ^ 190 -> smooth_motion tp aa -> val (snd aa) <= val (dacc tp).
Proof. intros A D L S. apply below_limit; auto. destruct S as [(S & _)|S]; auto. Qed.
Lemma limits_step tp a b : limits_fin tp -> vec_bounded a (2 ^ 198) -> vec_bounded b (2 ^ 198) -> within_step_limits tp (fvec_subt a b) -> step_inside tp (rminus (exact a) (exact b)).
Proof.
  intros L A C W. apply (C87_limits tp a b L A C). unfold pos3d_in_bounds, within_step_limits in *. destruct (fvec_subt a b) as [[x y] z]. rewrite !andb_true_iff. tauto.
Qed.
(** the expected positions *)
Lemma moving_close x0 x1 : vec_bounded x0 B -> vec_bounded x1 B -> vec_bounded (fmoving x0 x1) (4 * B) /\ close_to (fmoving x0 x1) (expected x0 x1) (B / 2 ^ 50).
Proof.
  intros H0 H1. pose proof Bpos. destruct (b200 x0 B ltac:(lra) H0) as (_ & _ & P0). destruct (b200 x1 B ltac:(lra) H1) as (_ & _ & P1). pose proof (C87_moving x0 x1 P0 P1) as M.
  destruct x0 as [[p0 p1] p2], x1 as [[c0 c1] c2]. destruct (fmoving (p0, p1, p2) (c0, c1, c2)) as [[m0 m1] m2]. destruct M as ((F0 & E0) & (F1 & E1) & (F2 & E2)).
  destruct H0 as ((_ & A0) & (_ & A1) & (_ & A2)), H1 as ((_ & D0) & (_ & D1) & (_ & D2)).
  assert (K : forall p c m, Rabs p <= B -> Rabs c <= B -> Rabs (m - (2 * c - p)) <= / 2 ^ 53 * Rabs (2 * c - p) -> Rabs m <= 4 * B /\ Rabs (m - (2 * c - p)) <= B / 2 ^ 51).
  { intros p c m HP HC E. assert (T : Rabs (2 * c - p) <= 3 * B). { apply Rabs_le_inv in HP, HC. apply Rabs_le. lra. }
    assert (E' : Rabs (m - (2 * c - p)) <= B / 2 ^ 51) by (eapply Rle_trans; [exact E|]; unfold Rdiv; lra). split; [|exact E']. eapply Rle_trans; [apply (abs_near _ _ _ E')|]. unfold Rdiv. lra. }
  destruct (K _ _ _ A0 D0 E0) as (K0 & L0). destruct (K _ _ _ A1 D1 E1) as (K1 & L1). destruct (K _ _ _ A2 D2 E2) as (K2 & L2).
  split; [split; [|split]; split; assumption|]. unfold close_to, expected. cbn [exact rtimes rminus]. replace (B / 2 ^ 50) with (2 * (B / 2 ^ 51)) by (change (2 ^ 51) with (2 * 2 ^ 50); field; apply pow_nonzero; lra).
  apply small_len; auto. unfold Rdiv. lra.
Qed.
Lemma extrap_close x0 x1 x3 : vec_bounded x0 B -> vec_bounded x1 B -> vec_bounded x3 B -> vec_bounded (fextrap x0 x1 x3) (8 * B) /\ close_to (fextrap x0 x1 x3) (ahead (Some x0) x1 x3) (B / 2 ^ 46).
Proof.
  intros H0 H1 H3. pose proof Bpos. destruct (b200 x0 B ltac:(lra) H0) as (_ & _ & P0). destruct (b200 x1 B ltac:(lra) H1) as (_ & _ & P1). destruct (b200 x3 B ltac:(lra) H3) as (_ & _ & P3).
  pose proof (C87_extrapolation x0 x1 x3 P0 P1 P3) as M.
  destruct x0 as [[a0 a1] a2], x1 as [[b0 b1] b2], x3 as [[c0 c1] c2]. destruct (fextrap _ _ _) as [[m0 m1] m2]. cbn [exact] in M. destruct M as ((F0 & E0) & (F1 & E1) & (F2 & E2)).
  destruct H0 as ((_ & A0) & (_ & A1) & (_ & A2)), H1 as ((_ & D0) & (_ & D1) & (_ & D2)), H3 as ((_ & G0) & (_ & G1) & (_ & G2)).
  assert (K : forall a b c m, Rabs a <= B -> Rabs b <= B -> Rabs c <= B -> Rabs (m - (5 * c - 4 * b + a) / 2) <= / 2 ^ 51 * (5 * Rabs c + 4 * Rabs b + Rabs a) + / 2 ^ 1075 ->
    Rabs m <= 8 * B /\ Rabs (m - / 2 * (5 * c - 4 * b + a)) <= B / 2 ^ 47).
  { intros a b c m HA HB HC E. pose proof tiny1075. assert (E' : Rabs (m - / 2 * (5 * c - 4 * b + a)) <= B / 2 ^ 47).
    { replace (/ 2 * (5 * c - 4 * b + a)) with ((5 * c - 4 * b + a) / 2) by field. eapply Rle_trans; [exact E|]. unfold Rdiv in *. lra. }
    split; [|exact E']. eapply Rle_trans; [apply (abs_near _ _ _ E')|]. assert (T : Rabs (/ 2 * (5 * c - 4 * b + a)) <= 5 * B). { apply Rabs_le_inv in HA, HB, HC. apply Rabs_le. lra. } unfold Rdiv. lra. }
  destruct (K _ _ _ _ A0 D0 G0 E0) as (K0 & L0). destruct (K _ _ _ _ A1 D1 G1 E1) as (K1 & L1). destruct (K _ _ _ _ A2 D2 G2 E2) as (K2 & L2).
  split; [split; [|split]; split; assumption|]. unfold close_to, ahead. cbn [exact rtimes rminus rplus]. replace (B / 2 ^ 46) with (2 * (B / 2 ^ 47)) by (change (2 ^ 47) with (2 * 2 ^ 46); field; apply pow_nonzero; lra).
  apply small_len; auto. unfold Rdiv. lra.
Qed.
Lemma shift_l v w r e : close_to v r e -> rlength (rminus r (exact w)) <= rlength (rminus (exact v) (exact w)) + e.
Proof.
  unfold close_to. intros H. eapply Rle_trans; [apply (tri _ (rminus (exact v) (exact w)))|]. apply Rplus_le_compat_l. eapply Rle_trans; [|exact H]. right. rewrite rminus_len. f_equal.
  destruct (exact v) as [[a b] c], (exact w) as [[a' b'] c'], r as [[p q] t]. cbn [rminus]. f_equal; [f_equal|]; ring.
Qed.
Lemma shift_r v w r e : close_to v r e -> rlength (rminus (exact w) r) <= rlength (rminus (exact w) (exact v)) + e.
Proof. intros H. rewrite (rminus_len _ r), (rminus_len _ (exact v)). now apply shift_l. Qed.
End Bound.
