(** Proofs for C87: lengths without lower limit, cosines, accelerations. *)
From Coq Require Import ZArith Reals Psatz.
From Flocq Require Import Core.Core.
From Verif Require Import F64 F64R F64E Model_track Model_f64 Spec_f64 Proof_f64 Proof_f642 Base.
Local Open Scope R_scope.

Lemma cs a b : rdot a b * rdot a b <= rdot a a * rdot b b.
Proof.
  destruct a as [[a0 a1] a2], b as [[b0 b1] b2]. unfold rdot. pose proof (Rle_0_sqr (a0 * b1 - a1 * b0)). pose proof (Rle_0_sqr (a0 * b2 - a2 * b0)). pose proof (Rle_0_sqr (a1 * b2 - a2 * b1)). unfold Rsqr in *. lra.
Qed.
Lemma cs_len a b : rdot a b <= rlength a * rlength b.
Proof.
  pose proof (rlength_nonneg a). pose proof (rlength_nonneg b). apply Rsqr_incr_0_var; [|now apply Rmult_le_pos]. unfold Rsqr. eapply Rle_trans; [apply cs|].
  rewrite <- !rlength_sq. right. ring.
Qed.
Definition vabs (a : R * R * R) : R * R * R := let '(x, y, z) := a in (Rabs x, Rabs y, Rabs z).
Lemma vabs_len a : rlength (vabs a) = rlength a.
Proof. destruct a as [[x y] z]. unfold rlength, rdot, vabs. f_equal. pose proof (Rsqr_abs x) as A. pose proof (Rsqr_abs y) as B. pose proof (Rsqr_abs z) as C. unfold Rsqr in *. lra. Qed.
Lemma rsize_len a b : rsize a b <= rlength a * rlength b.
Proof.
  rewrite <- (vabs_len a), <- (vabs_len b). eapply Rle_trans; [|apply cs_len]. destruct a as [[a0 a1] a2], b as [[b0 b1] b2]. unfold rsize, rdot, vabs. rewrite !Rabs_mult. lra.
Qed.
Lemma rdot_size a b : Rabs (rdot a b) <= rsize a b.
Proof. destruct a as [[a0 a1] a2], b as [[b0 b1] b2]. unfold rdot, rsize. eapply Rle_trans; [apply Rabs_triang|]. pose proof (Rabs_triang (a0 * b0) (a1 * b1)). lra. Qed.
Lemma tri a b : rlength a <= rlength b + rlength (rminus a b).
Proof.
  pose proof (rlength_nonneg b). pose proof (rlength_nonneg (rminus a b)). apply Rsqr_incr_0_var; [|lra]. unfold Rsqr. rewrite rlength_sq.
  pose proof (cs_len b (rminus a b)) as C. replace ((rlength b + rlength (rminus a b)) * (rlength b + rlength (rminus a b))) with (rlength b * rlength b + rlength (rminus a b) * rlength (rminus a b) + 2 * (rlength b * rlength (rminus a b))) by ring.
  rewrite !rlength_sq. assert (E : rdot a a = rdot b b + rdot (rminus a b) (rminus a b) + 2 * rdot b (rminus a b)). { destruct a as [[a0 a1] a2], b as [[b0 b1] b2]. unfold rdot, rminus. ring. } lra.
Qed.
Lemma rminus_len a b : rlength (rminus a b) = rlength (rminus b a).
Proof. unfold rlength. f_equal. destruct a as [[a0 a1] a2], b as [[b0 b1] b2]. unfold rdot, rminus. ring. Qed.
Lemma tri_abs a b : Rabs (rlength a - rlength b) <= rlength (rminus a b).
Proof. pose proof (tri a b). pose proof (tri b a). rewrite (rminus_len b a) in *. apply Rabs_le. lra. Qed.
Lemma small_len x y z e : 0 <= e -> Rabs x <= e -> Rabs y <= e -> Rabs z <= e -> rlength (x, y, z) <= 2 * e.
Proof.
  intros E X Y Z. assert (K : forall t, Rabs t <= e -> t * t <= e * e). { intros t T. pose proof (Rsqr_abs t) as S. unfold Rsqr in S. rewrite S. apply Rmult_le_compat; auto using Rabs_pos. }
  unfold rlength, rdot. rewrite <- (sqrt_square (2 * e)) by lra. apply sqrt_le_1_alt. pose proof (K _ X). pose proof (K _ Y). pose proof (K _ Z). pose proof (Rle_0_sqr e). unfold Rsqr in *. lra.
Qed.

(** roots are never subnormal *)
Lemma fsqrt_all x : fin x -> 0 <= val x -> fin (fsqrt x) /\ Rabs (val (fsqrt x) - sqrt (val x)) <= uu * sqrt (val x).
Proof.
  intros F P. destruct (Req_dec (val x) 0) as [Z|NZ].
  - destruct (fsqrt_correct x F P) as (A & V). split; [exact A|]. rewrite V, Z, sqrt_0, rnd_0, Rminus_0_r, Rabs_R0. lra.
  - apply sqrt_close; auto. destruct (fin_mult x F) as (m & Hm). assert (HP : 0 < val x) by lra. rewrite Hm in HP |- *.
    assert (M : (0 < m)%Z) by (exact (gt_0_F2R radix2 m (-1074) HP)). change (-1022)%Z with (-511 + -511)%Z. rewrite bpow_plus.
    rewrite <- (sqrt_square (bpow radix2 (-511) * bpow radix2 (-511))) by (apply Rmult_le_pos; apply bpow_ge_0). apply sqrt_le_1_alt. rewrite <- !bpow_plus.
    apply Rle_trans with (bpow radix2 (-1074)); [apply bpow_le; lia|]. unfold F2R. cbn [Fnum Fexp]. rewrite <- (Rmult_1_l (bpow radix2 (-1074))) at 1. apply Rmult_le_compat_r; [apply bpow_ge_0|]. apply IZR_le. lia.
Qed.
Lemma sq_nonneg x : bounded x (2 ^ 200) -> 0 <= val (fmul x x).
Proof.
  intros (F & B). assert (H : Rabs (val x * val x) <= huge). { eapply Rle_trans; [apply (abs_mul _ _ _ _ B B)|]. rewrite <- pow_add. apply pow_huge. lia. }
  destruct (fmul_correct x x F F (rnd_huge _ H)) as (_ & ->). apply rnd_pos, Rle_0_sqr.
Qed.
Lemma dot_nonneg a : vec_bounded a (2 ^ 200) -> 0 <= val (fvec_dot a a).
Proof.
  destruct a as [[x y] z]. intros (X & Y & Z). unfold fvec_dot. pose proof (sq_nonneg _ X). pose proof (sq_nonneg _ Y). pose proof (sq_nonneg _ Z).
  destruct (prod_close _ _ X X) as (F0 & _ & _ & L0). destruct (prod_close _ _ Y Y) as (F1 & _ & _ & L1). destruct (prod_close _ _ Z Z) as (F2 & _ & _ & L2).
  assert (H2 : Rabs (val (fmul x x) + val (fmul y y)) <= huge). { eapply Rle_trans; [apply (abs_add _ _ _ _ L0 L1)|]. apply Rle_trans with (2 ^ 402); [change (2 ^ 402) with (2 * 2 ^ 401); lra|apply pow_huge; lia]. }
  destruct (fadd_correct _ _ F0 F1 (rnd_huge _ H2)) as (FA & VA). destruct (add_close _ _ F0 F1 H2) as (_ & EA). pose proof (abs_near _ _ _ EA) as NA. pose proof (abs_add _ _ _ _ L0 L1) as AB.
  assert (U : uu <= 1) by (unfold uu; lra). pose proof (Rmult_le_compat_r _ _ _ (Rabs_pos (val (fmul x x) + val (fmul y y))) U).
  assert (H4 : Rabs (val (fadd (fmul x x) (fmul y y)) + val (fmul z z)) <= huge).
  { eapply Rle_trans; [apply (abs_add _ _ (2 ^ 403) (2 ^ 403)); [change (2 ^ 403) with (2 * (2 * 2 ^ 401)); lra|eapply Rle_trans; [exact L2|apply p2_le; lia]]|]. apply Rle_trans with (2 ^ 404); [change (2 ^ 404) with (2 * 2 ^ 403); lra|apply pow_huge; lia]. }
  destruct (fadd_correct _ _ FA F2 (rnd_huge _ H4)) as (_ & ->). apply rnd_pos. rewrite VA. pose proof (rnd_pos _ (Rplus_le_le_0_compat _ _ H H0)). lra.
Qed.
Lemma norm_all a : vec_fin a -> rlength (exact a) <= 2 ^ 200 -> within (fvec_norm a) (rlength (exact a)) (/ 2 ^ 50 * rlength (exact a) + / 2 ^ 499).
Proof.
  intros F HI. assert (P : 0 < / 2 ^ 499) by apply Rinv_0_lt_compat, p2. destruct (Rle_or_lt (/ 2 ^ 500) (rlength (exact a))) as [L|L].
  - destruct (norm_close a F (conj L HI)) as (A & B). split; [exact A|lra].
  - pose proof (length_bounded a _ F HI) as B. destruct (dot_close a a B B) as ((FD & E) & _). rewrite rsize_self, <- rlength_sq in E. pose proof (dot_nonneg a B) as DN.
    pose proof (rlength_nonneg (exact a)) as NN. set (N := rlength (exact a)) in *. destruct (fsqrt_all _ FD DN) as (FQ & EQ). split; [exact FQ|]. fold (fvec_norm a) in *.
    set (t := / 2 ^ 500) in *. assert (TT : / 2 ^ 499 = 2 * t) by (unfold t; change (2 ^ 500) with (2 * 2 ^ 499); field; apply Rgt_not_eq, p2). rewrite TT in *.
    assert (T4 : 16 * tiny <= t * t).
    { unfold t. rewrite tiny_eq, <- Rinv_mult, <- pow_add. change (500 + 500)%nat with 1000%nat. replace (/ 2 ^ 1075) with (/ 2 ^ 75 * / 2 ^ 1000) by (rewrite <- Rinv_mult, <- pow_add; reflexivity).
      assert (0 < / 2 ^ 1000) by apply Rinv_0_lt_compat, p2. rewrite <- Rmult_assoc. rewrite <- (Rmult_1_l (/ 2 ^ 1000)) at 2. apply Rmult_le_compat_r; [lra|]. cbn [pow]. lra. }
    assert (N2 : N * N <= t * t) by (apply Rmult_le_compat; lra). assert (N0 : 0 <= N * N) by apply Rle_0_sqr.
    assert (S : val (fvec_dot a a) <= (5 / 4 * t) * (5 / 4 * t)). { apply Rabs_le_inv in E. replace (/ 2 ^ 51) with (4 * uu) in E by (unfold uu; cbn [pow]; lra). unfold uu in E. lra. }
    assert (R : sqrt (val (fvec_dot a a)) <= 5 / 4 * t). { rewrite <- (sqrt_square (5 / 4 * t)) by lra. now apply sqrt_le_1_alt. }
    pose proof (sqrt_pos (val (fvec_dot a a))) as SP. change (fsqrt (fvec_dot a a)) with (fvec_norm a) in EQ. set (q := sqrt (val (fvec_dot a a))) in *. set (v := val (fvec_norm a)) in *. clearbody q v.
    assert (I50 : 0 <= / 2 ^ 50 * N) by (apply Rmult_le_pos; [apply Rlt_le, Rinv_0_lt_compat, p2|exact NN]). apply Rabs_le_inv in EQ. apply Rabs_le. unfold uu in EQ. lra.
Qed.

(** ---- the cosine ---- *)
Lemma vec_bounded_le a n m : (n <= m)%nat -> vec_bounded a (2 ^ n) -> vec_bounded a (2 ^ m).
Proof. intros L. destruct a as [[x y] z]. intros ((X & X') & (Y & Y') & (Z & Z')). pose proof (p2_le n m L). split; [|split]; split; auto; lra. Qed.
Lemma sub_bounded_n a b n : (n <= 198)%nat -> vec_bounded a (2 ^ n) -> vec_bounded b (2 ^ n) -> vec_bounded (fvec_subt a b) (2 ^ S (S n)).
Proof.
  intros L A B. destruct (vsub_close a b (vec_bounded_le _ _ _ L A) (vec_bounded_le _ _ _ L B)) as (F & E). destruct a as [[a0 a1] a2], b as [[b0 b1] b2]. destruct A as ((A0 & A0') & (A1 & A1') & (A2 & A2')), B as ((B0 & B0') & (B1 & B1') & (B2 & B2')).
  cbn [fvec_subt fmap2 exact rminus vec_fin vec_bounded] in *. destruct E as (E0 & E1 & E2), F as (F0 & F1 & F2). assert (U : uu <= 1) by (unfold uu; lra).
  assert (K : forall v e, Rabs (v - e) <= uu * Rabs e -> Rabs e <= 2 ^ n + 2 ^ n -> Rabs v <= 2 ^ S (S n)).
  { intros v e H K. pose proof (abs_near _ _ _ H). pose proof (Rmult_le_compat_r _ _ _ (Rabs_pos e) U). change (2 ^ S (S n)) with (2 * (2 * 2 ^ n)). lra. }
  split; [|split]; (split; [assumption|]); eapply K; eauto; apply abs_sub; auto.
Qed.
Lemma sub_bounded a b : vec_bounded a (2 ^ 198) -> vec_bounded b (2 ^ 198) -> vec_bounded (fvec_subt a b) (2 ^ 200).
Proof. apply (sub_bounded_n a b 198). lia. Qed.
Lemma prod_near v w e f : Rabs (v - e) <= uu * Rabs e -> Rabs (w - f) <= uu * Rabs f -> Rabs (v * w - e * f) <= 3 * uu * Rabs (e * f) /\ Rabs (v * w) <= 2 * Rabs (e * f).
Proof.
  intros H K. assert (U : 0 < uu < / 1000) by (unfold uu; lra). pose proof (Rabs_pos e). pose proof (Rabs_pos f). assert (A : Rabs (v * w - e * f) <= 3 * uu * Rabs (e * f)).
  { replace (v * w - e * f) with ((v - e) * f + e * (w - f) + (v - e) * (w - f)) by ring. eapply Rle_trans; [apply Rabs_triang|]. pose proof (Rabs_triang ((v - e) * f) (e * (w - f))).
    rewrite !Rabs_mult in *. pose proof (Rmult_le_compat_r _ _ _ H1 H). pose proof (Rmult_le_compat_l _ _ _ H0 K). pose proof (Rmult_le_compat _ _ _ _ (Rabs_pos (v - e)) (Rabs_pos (w - f)) H K) as M.
    assert (uu * Rabs e * (uu * Rabs f) <= uu * (Rabs e * Rabs f)). { replace (uu * Rabs e * (uu * Rabs f)) with (uu * (uu * (Rabs e * Rabs f))) by ring. apply Rmult_le_compat_l; [lra|]. pose proof (Rmult_le_pos _ _ H0 H1). rewrite <- (Rmult_1_l (Rabs e * Rabs f)) at 2. apply Rmult_le_compat_r; lra. }
    lra. }
  split; [exact A|]. pose proof (abs_near _ _ _ A). pose proof (Rabs_pos (e * f)). assert (3 * uu * Rabs (e * f) <= 1 * Rabs (e * f)) by (apply Rmult_le_compat_r; lra). lra.
Qed.
Lemma dot_near v w e f :
  (let '(d0, d1, d2) := v in let '(e0, e1, e2) := e in Rabs (d0 - e0) <= uu * Rabs e0 /\ Rabs (d1 - e1) <= uu * Rabs e1 /\ Rabs (d2 - e2) <= uu * Rabs e2) ->
  (let '(d0, d1, d2) := w in let '(e0, e1, e2) := f in Rabs (d0 - e0) <= uu * Rabs e0 /\ Rabs (d1 - e1) <= uu * Rabs e1 /\ Rabs (d2 - e2) <= uu * Rabs e2) ->
  Rabs (rdot v w - rdot e f) <= 3 * uu * rsize e f /\ rsize v w <= 2 * rsize e f.
Proof.
  destruct v as [[v0 v1] v2], w as [[w0 w1] w2], e as [[e0 e1] e2], f as [[f0 f1] f2]. intros (A0 & A1 & A2) (B0 & B1 & B2). unfold rdot, rsize.
  destruct (prod_near _ _ _ _ A0 B0) as (C0 & D0). destruct (prod_near _ _ _ _ A1 B1) as (C1 & D1). destruct (prod_near _ _ _ _ A2 B2) as (C2 & D2). split; [|lra].
  apply Rabs_le_inv in C0, C1, C2. apply Rabs_le. lra.
Qed.
Lemma ratio d D P N : 0 < N -> Rabs D <= N -> Rabs (d - D) <= 16 * uu * N -> Rabs (P - N) <= 36 * uu * N -> N / 2 <= P /\ Rabs (d / P - D / N) <= 54 * uu /\ Rabs (d / P) <= 2.
Proof.
  intros HN HD H K. assert (M : N / 2 <= P). { apply Rabs_le_inv in K. unfold uu in K. lra. } split; [exact M|]. assert (PP : 0 < P) by lra.
  assert (DN : Rabs (D / N) <= 1). { rewrite div_pos_abs by lra. rewrite (Rabs_pos_eq N) by lra. apply Rmult_le_reg_r with N; [exact HN|]. unfold Rdiv. rewrite Rmult_assoc, Rinv_l by lra. lra. }
  assert (B : Rabs (d / P - D / N) <= 54 * uu).
  { replace (d / P - D / N) with (((d - D) + D / N * (N - P)) / P) by (field; lra). rewrite div_pos_abs by lra. rewrite (Rabs_pos_eq P) by lra.
    apply Rmult_le_reg_r with P; [exact PP|]. unfold Rdiv at 1. rewrite Rmult_assoc, Rinv_l, Rmult_1_r by lra.
    assert (X : Rabs (D / N * (N - P)) <= 1 * (36 * uu * N)) by (apply abs_mul; [exact DN|rewrite Rabs_minus_sym; exact K]).
    apply Rle_trans with (16 * uu * N + 1 * (36 * uu * N)); [apply abs_add; assumption|]. apply Rabs_le_inv in K. apply Rle_trans with (54 * uu * ((1 - 36 * uu) * N)); [unfold uu; lra|]. apply Rmult_le_compat_l; [pose proof uu_pos; lra|lra]. }
  split; [exact B|]. pose proof (abs_near _ _ _ B). assert (54 * uu <= 1) by (unfold uu; lra). lra.
Qed.
Lemma cosine_close s p c : vec_bounded s (2 ^ 198) -> vec_bounded p (2 ^ 198) -> vec_bounded c (2 ^ 198) ->
  let e0 := rminus (exact p) (exact s) in let e1 := rminus (exact c) (exact s) in
  / 2 ^ 400 <= rlength e0 <= 2 ^ 199 -> / 2 ^ 400 <= rlength e1 <= 2 ^ 199 ->
  within (fcosine s p c) (rdot e0 e1 / (rlength e0 * rlength e1)) (/ 2 ^ 47).
Proof.
  intros S P C e0 e1 L0 L1. destruct (vsub_close p s P S) as (F0 & E0). destruct (vsub_close c s C S) as (F1 & E1). fold e0 in E0. fold e1 in E1.
  destruct (dot_near _ _ _ _ E0 E1) as (DN & SZ). destruct (dot_close _ _ (sub_bounded p s P S) (sub_bounded c s C S)) as ((FD & ED) & _).
  pose proof (rsize_len e0 e1) as RL. pose proof (rdot_size e0 e1) as RS. pose proof (inv_le 400 499 ltac:(lia)) as I4.
  assert (G0 : within (fvec_diff_norm s p) (rlength e0) (/ 2 ^ 49 * rlength e0)). { unfold e0 in *. rewrite rminus_len in *. apply diff_norm_close; auto. lra. }
  assert (G1 : within (fvec_diff_norm s c) (rlength e1) (/ 2 ^ 49 * rlength e1)). { unfold e1 in *. rewrite (rminus_len (exact c)) in *. apply diff_norm_close; auto. lra. }
  unfold fcosine. fold (fvec_diff_norm s p) (fvec_diff_norm s c). destruct G0 as (FN0 & N0), G1 as (FN1 & N1). set (d := fvec_dot (fvec_subt p s) (fvec_subt c s)) in *. set (m0 := fvec_diff_norm s p) in *. set (m1 := fvec_diff_norm s c) in *.
  replace (/ 2 ^ 49) with (16 * uu) in N0, N1 by (unfold uu; cbn [pow]; lra). replace (/ 2 ^ 51) with (4 * uu) in ED by (unfold uu; cbn [pow]; lra). replace (/ 2 ^ 47) with (64 * uu) by (unfold uu; cbn [pow]; lra).
  assert (I0 : 0 < / 2 ^ 400) by apply Rinv_0_lt_compat, p2. assert (P0 : 0 < rlength e0) by lra. assert (P1 : 0 < rlength e1) by lra.
  set (A := rlength e0) in *. set (B := rlength e1) in *. assert (AB : 0 < A * B) by now apply Rmult_lt_0_compat.
  assert (T : 16 * tiny <= uu * (A * B)).
  { apply Rle_trans with (uu * (/ 2 ^ 400 * / 2 ^ 400)); [|apply Rmult_le_compat_l; [apply Rlt_le, uu_pos|apply Rmult_le_compat; lra]].
    rewrite tiny_eq, <- Rinv_mult, <- pow_add. change (400 + 400)%nat with 800%nat. replace (/ 2 ^ 1075) with (/ 2 ^ 275 * / 2 ^ 800) by (rewrite <- Rinv_mult, <- pow_add; reflexivity).
    rewrite <- Rmult_assoc. apply Rmult_le_compat_r; [apply Rlt_le, Rinv_0_lt_compat, p2|]. assert (I6 : / 2 ^ 275 <= / 2 ^ 60) by (apply inv_le; lia). replace (/ 2 ^ 60) with (/ 128 * uu) in I6 by (unfold uu; cbn [pow]; lra). set (h := / 2 ^ 275) in *. clearbody h. unfold uu in *. lra. }
  assert (DD : Rabs (val d - rdot e0 e1) <= 16 * uu * (A * B)).
  { eapply Rle_trans; [apply (near3 _ _ _ _ _ ED DN)|]. set (z := rsize e0 e1) in *. set (w := rsize _ _) in *. clearbody z w. unfold uu in *. lra. }
  assert (MM : Rabs (val m0 * val m1 - A * B) <= 33 * uu * (A * B)).
  { replace (val m0 * val m1 - A * B) with ((val m0 - A) * B + A * (val m1 - B) + (val m0 - A) * (val m1 - B)) by ring.
    assert (X0 : Rabs ((val m0 - A) * B) <= 16 * uu * (A * B)). { rewrite Rabs_mult, (Rabs_pos_eq B) by lra. replace (16 * uu * (A * B)) with (16 * uu * A * B) by ring. apply Rmult_le_compat_r; lra. }
    assert (X1 : Rabs (A * (val m1 - B)) <= 16 * uu * (A * B)). { rewrite Rabs_mult, (Rabs_pos_eq A) by lra. replace (16 * uu * (A * B)) with (A * (16 * uu * B)) by ring. apply Rmult_le_compat_l; lra. }
    assert (X2 : Rabs ((val m0 - A) * (val m1 - B)) <= uu * (A * B)). { eapply Rle_trans; [apply (abs_mul _ _ _ _ N0 N1)|]. replace (16 * uu * A * (16 * uu * B)) with ((256 * uu) * uu * (A * B)) by ring. apply Rmult_le_compat_r; [lra|]. unfold uu. lra. }
    eapply Rle_trans; [apply (abs_add _ _ _ _ (abs_add _ _ _ _ X0 X1) X2)|]. right. ring. }
  assert (HB : Rabs (val m0 * val m1) <= huge).
  { apply Rle_trans with (2 ^ 400); [|apply pow_huge; lia]. pose proof (abs_near _ _ _ MM) as Q. rewrite (Rabs_pos_eq (A * B)) in Q by lra. assert (Y : A * B <= 2 ^ 199 * 2 ^ 199) by (apply Rmult_le_compat; lra). rewrite <- pow_add in Y. change (199 + 199)%nat with 398%nat in Y.
    change (2 ^ 400) with (2 * (2 * 2 ^ 398)). assert (33 * uu * (A * B) <= 1 * (A * B)) by (apply Rmult_le_compat_r; [lra|unfold uu; lra]). pose proof (p2 398). lra. }
  destruct (mul_close m0 m1 FN0 FN1 HB) as (FP & EP). 
  assert (PP : Rabs (val (fmul m0 m1) - A * B) <= 36 * uu * (A * B)).
  { eapply Rle_trans; [apply (near3 _ _ _ _ _ EP MM)|]. pose proof (abs_near _ _ _ MM) as Q. rewrite (Rabs_pos_eq (A * B)) in Q by lra. pose proof tiny_pos. set (x := Rabs (val m0 * val m1)) in *. set (g := A * B) in *. clearbody x g. clear - Q T AB H. unfold uu in *. lra. }
  destruct (ratio (val d) (rdot e0 e1) (val (fmul m0 m1)) (A * B) AB) as (HP & R1 & R2); auto; [lra|]. assert (NZ : val (fmul m0 m1) <> 0) by lra.
  destruct (div_close d _ FD FP NZ) as (FR & ER). { eapply Rle_trans; [exact R2|]. apply Rle_trans with (2 ^ 1); [cbn; lra|apply pow_huge; lia]. }
  split; [exact FR|]. eapply Rle_trans; [apply (near3 _ _ _ _ _ ER R1)|]. assert (TU : tiny <= uu). { rewrite tiny_eq. replace uu with (/ 2 ^ 53) by (unfold uu; cbn [pow]; lra). apply inv_le. lia. }
  pose proof (Rmult_le_compat_l uu _ _ (Rlt_le _ _ uu_pos) R2). pose proof uu_pos. lra.
Qed.
(** ---- the acceleration ---- *)
Lemma acc_close s p c : vec_bounded s (2 ^ 190) -> vec_bounded p (2 ^ 190) -> vec_bounded c (2 ^ 190) ->
  let l0 := rlength (rminus (exact p) (exact s)) in let l1 := rlength (rminus (exact c) (exact s)) in
  within (fvec_norm (fvec_subt (fvec_subt p s) (fvec_subt c s))) (rlength (rminus (exact p) (exact c))) (/ 2 ^ 48 * (l0 + l1) + / 2 ^ 499).
Proof.
  intros S P C l0 l1. assert (UP : forall a, vec_bounded a (2 ^ 190) -> vec_bounded a (2 ^ 198)) by (intros a; apply vec_bounded_le; lia).
  destruct (vsub_close p s (UP _ P) (UP _ S)) as (F0 & E0). destruct (vsub_close c s (UP _ C) (UP _ S)) as (F1 & E1).
  assert (SB : forall a b, vec_bounded a (2 ^ 190) -> vec_bounded b (2 ^ 190) -> vec_bounded (fvec_subt a b) (2 ^ 198)).
  { intros a b A B. apply (vec_bounded_le _ 192); [lia|]. apply (sub_bounded_n a b 190); auto. lia. }
  destruct (vsub_close (fvec_subt p s) (fvec_subt c s) (SB _ _ P S) (SB _ _ C S)) as (FD & ED).
  pose proof (SB _ _ P S) as BPS. pose proof (SB _ _ C S) as BCS. set (D := fvec_subt (fvec_subt p s) (fvec_subt c s)) in *.
  pose proof (rlength_nonneg (rminus (exact p) (exact s))) as Z0. pose proof (rlength_nonneg (rminus (exact c) (exact s))) as Z1. fold l0 in Z0. fold l1 in Z1.
  (* the computed difference is close to p - c *)
  assert (N : rlength (rminus (exact D) (rminus (exact p) (exact c))) <= 2 * (4 * uu * (l0 + l1))).
  { pose proof uu_pos as U0. subst D. destruct s as [[s0 s1] s2], p as [[p0 p1] p2'], c as [[c0 c1] c2]. cbn [fvec_subt fmap2 exact rminus] in *. destruct E0 as (A0 & A1 & A2), E1 as (B0 & B1 & B2), ED as (C0 & C1 & C2).
    destruct (comp_length (val p0 - val s0) (val p1 - val s1) (val p2' - val s2)) as (K0 & K1 & K2). destruct (comp_length (val c0 - val s0) (val c1 - val s1) (val c2 - val s2)) as (J0 & J1 & J2). fold l0 in K0, K1, K2. fold l1 in J0, J1, J2.
    assert (X : forall v e w f r, Rabs (v - e) <= uu * Rabs e -> Rabs (w - f) <= uu * Rabs f -> Rabs (r - (v - w)) <= uu * Rabs (v - w) -> Rabs e <= l0 -> Rabs f <= l1 -> Rabs (r - (e - f)) <= 4 * uu * (l0 + l1)).
    { clear - Z0 Z1. intros v e w f r H1 H2 H3 H4 H5. pose proof (abs_near _ _ _ H1). pose proof (abs_near _ _ _ H2). assert (Rabs (v - w) <= Rabs v + Rabs w) by (apply abs_sub; lra). pose proof (Rabs_pos e). pose proof (Rabs_pos f).
      apply Rabs_le_inv in H1, H2, H3. apply Rabs_le. set (x := Rabs v) in *. set (y := Rabs w) in *. set (z := Rabs (v - w)) in *. set (ae := Rabs e) in *. set (af := Rabs f) in *. clearbody x y z ae af. unfold uu in *. lra. }
    apply small_len; [apply Rmult_le_pos; lra|..].
    - replace (val p0 - val c0) with ((val p0 - val s0) - (val c0 - val s0)) by ring. eapply X; eauto.
    - replace (val p1 - val c1) with ((val p1 - val s1) - (val c1 - val s1)) by ring. eapply X; eauto.
    - replace (val p2' - val c2) with ((val p2' - val s2) - (val c2 - val s2)) by ring. eapply X; eauto. }
  pose proof (tri_abs (exact D) (rminus (exact p) (exact c))) as TA.
  assert (LD : rlength (exact D) <= 2 ^ 200).
  { assert (BD2 : vec_bounded D (2 ^ 194)). { apply (sub_bounded_n _ _ 192); [lia|apply (sub_bounded_n p s 190); auto; lia|apply (sub_bounded_n c s 190); auto; lia]. }
    destruct D as [[d0 d1] d2]. destruct BD2 as ((_ & D0) & (_ & D1) & (_ & D2)). cbn [exact]. eapply Rle_trans; [apply small_len; [apply Rlt_le, p2|exact D0|exact D1|exact D2]|]. change (2 * 2 ^ 194) with (2 ^ 195). apply p2_le. lia. }
  destruct (norm_all D FD LD) as (FN & EN). split; [exact FN|]. eapply Rle_trans; [apply (near3 _ _ _ _ _ EN TA)|].
  replace (/ 2 ^ 50) with (8 * uu) by (unfold uu; cbn [pow]; lra). replace (/ 2 ^ 48) with (32 * uu) by (unfold uu; cbn [pow]; lra).
  assert (LE : rlength (exact D) <= l0 + l1 + 8 * uu * (l0 + l1)).
  { apply Rabs_le_inv in TA. assert (TR : rlength (rminus (exact p) (exact c)) <= l0 + l1). { pose proof (tri (rminus (exact p) (exact c)) (rminus (exact p) (exact s))) as T. fold l0 in T. replace (rminus (rminus (exact p) (exact c)) (rminus (exact p) (exact s))) with (rminus (exact s) (exact c)) in T. { unfold l1. rewrite (rminus_len (exact c)). exact T. } destruct (exact s) as [[? ?] ?], (exact p) as [[? ?] ?], (exact c) as [[? ?] ?]. unfold rminus. f_equal; [f_equal|]; ring. } lra. }
  set (h := / 2 ^ 499). set (q := rlength (exact D)) in *. set (n := rlength (rminus (exact D) _)) in *. clearbody h q n. clear - LE N Z0 Z1. unfold uu in *. lra.
Qed.
