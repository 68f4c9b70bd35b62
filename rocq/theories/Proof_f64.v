(** Proofs for C87. *)
From Coq Require Import ZArith Reals Psatz.
From Flocq Require Import Core.Core.
Require Import Flocq.Prop.Mult_error.
From Verif Require Import F64 F64R F64E Model_track Model_f64 Spec_f64 Base.
Local Open Scope R_scope.

Lemma bpow_nat n : bpow radix2 (Z.of_nat n) = 2 ^ n.
Proof. induction n as [|n IH]; [reflexivity|]. rewrite Nat2Z.inj_succ. unfold Z.succ. rewrite bpow_plus, IH. cbn [pow]. change (bpow radix2 1) with 2. ring. Qed.
Lemma pow_huge n : (n <= 1000)%nat -> 2 ^ n <= huge.
Proof. intros H. rewrite <- bpow_nat. unfold huge. apply bpow_le. lia. Qed.
Lemma bpow_neg n : bpow radix2 (- Z.of_nat n) = / 2 ^ n.
Proof. rewrite bpow_opp. now rewrite bpow_nat. Qed.
Lemma tiny_eq : tiny = / 2 ^ 1075.
Proof. unfold tiny. change (-1075)%Z with (- Z.of_nat (Z.to_nat 1075))%Z. rewrite bpow_neg. reflexivity. Qed.
Lemma p2 n : 0 < 2 ^ n. Proof. apply pow_lt. lra. Qed.
Lemma p2_le n m : (n <= m)%nat -> 2 ^ n <= 2 ^ m. Proof. intros. apply Rle_pow; [lra|assumption]. Qed.
Lemma inv_le n m : (n <= m)%nat -> / 2 ^ m <= / 2 ^ n.
Proof. intros. apply Rinv_le_contravar; [apply p2|now apply p2_le]. Qed.

Lemma z30 i : (Z.abs i <= 2 ^ 30)%Z -> Rabs (IZR i) <= 2 ^ 30.
Proof. intros H. rewrite <- abs_IZR. replace (2 ^ 30) with (IZR (2 ^ 30)) by (cbn; lra). now apply IZR_le. Qed.
Lemma half_exact i : (Z.abs i <= 2 ^ 30)%Z -> fin (fhalf i) /\ val (fhalf i) = IZR i / 2.
Proof.
  intros H. destruct (f_of_Z_exact i) as (F & V). { eapply Z.le_trans; [exact H|]. lia. }
  destruct (f_of_Z_exact 2) as (F2 & V2); [lia|].
  assert (FM : rnd (IZR i / 2) = IZR i / 2).
  { unfold rnd. apply round_generic; [typeclasses eauto|]. apply (generic_format_FLT radix2 (-1074) 53). exists (Float radix2 i (-1)); cbn [Fnum Fexp]; [unfold F2R; cbn; lra|eapply Z.le_lt_trans; [exact H|reflexivity]|lia]. }
  assert (B : Rabs (IZR i) <= 2 ^ 30). { now apply z30. }
  unfold fhalf. destruct (fdiv_correct (f_of_Z i) (f_of_Z 2) F F2) as (A & E); rewrite ?V, ?V2 in *; [lra| |rewrite FM in E; auto].
  apply rnd_huge. eapply Rle_trans; [|apply (pow_huge 30); lia]. unfold Rdiv. rewrite Rabs_mult, (Rabs_pos_eq (/ 2)) by lra. pose proof (Rabs_pos (IZR i)). lra.
Qed.
Lemma half_bound i : (Z.abs i <= 2 ^ 30)%Z -> Rabs (IZR i / 2) <= 2 ^ 29.
Proof.
  intros H. assert (B : Rabs (IZR i) <= 2 ^ 30). { now apply z30. }
  unfold Rdiv. rewrite Rabs_mult, (Rabs_pos_eq (/ 2)) by lra. change (2 ^ 30) with (2 * 2 ^ 29) in B. lra.
Qed.
Lemma abs_sub a b c d : Rabs a <= c -> Rabs b <= d -> Rabs (a - b) <= c + d.
Proof. intros. unfold Rminus. eapply Rle_trans; [apply Rabs_triang|]. rewrite Rabs_Ropp. lra. Qed.
Lemma abs_add a b c d : Rabs a <= c -> Rabs b <= d -> Rabs (a + b) <= c + d.
Proof. intros. eapply Rle_trans; [apply Rabs_triang|]. lra. Qed.
Lemma abs_near a b e : Rabs (a - b) <= e -> Rabs a <= Rabs b + e.
Proof. intros H. replace a with (b + (a - b)) by ring. eapply Rle_trans; [apply Rabs_triang|lra]. Qed.
Lemma abs_mul a b c d : Rabs a <= c -> Rabs b <= d -> Rabs (a * b) <= c * d.
Proof. intros. rewrite Rabs_mult. apply Rmult_le_compat; auto; apply Rabs_pos. Qed.
Lemma near3 a b c e f : Rabs (a - b) <= e -> Rabs (b - c) <= f -> Rabs (a - c) <= e + f.
Proof. intros H K. replace (a - c) with ((a - b) + (b - c)) by ring. eapply Rle_trans; [apply Rabs_triang|lra]. Qed.

(** one rounded number d near D, multiplied by p *)
Lemma scaled d D p : fin d -> fin p -> Rabs (val d - D) <= uu * Rabs D -> Rabs D <= 2 ^ 200 -> Rabs (val p) <= 2 ^ 200 ->
  fin (fmul d p) /\ Rabs (val (fmul d p) - D * val p) <= (2 * uu + uu * uu) * Rabs (D * val p) + tiny.
Proof.
  intros F G E BD BP. pose proof uu_pos as U. assert (U1 : uu <= 1) by (unfold uu; lra). pose proof (Rabs_pos D) as PD. pose proof (Rabs_pos (val p)) as PP.
  pose proof (abs_near _ _ _ E) as N.
  assert (NB : Rabs (val d) <= 2 ^ 201). { change (2 ^ 201) with (2 * 2 ^ 200). pose proof (Rmult_le_compat_r _ _ _ PD U1). lra. }
  destruct (mul_close d p F G) as (A & B).
  { eapply Rle_trans; [apply (abs_mul _ _ _ _ NB BP)|]. rewrite <- pow_add. apply pow_huge. lia. }
  split; [exact A|]. eapply Rle_trans; [apply (near3 _ (val d * val p) _ _ (uu * Rabs D * Rabs (val p)) B)|].
  - replace (val d * val p - D * val p) with ((val d - D) * val p) by ring. rewrite Rabs_mult. apply Rmult_le_compat_r; [exact PP|exact E].
  - rewrite (Rabs_mult D). rewrite (Rabs_mult (val d)). pose proof (Rmult_le_compat_r _ _ _ PP N) as Q. pose proof (Rmult_le_compat_l _ _ _ (Rlt_le _ _ U) Q) as Q2. nra.
Qed.
Lemma uu2 : 2 * uu + uu * uu <= / 2 ^ 51. Proof. unfold uu. cbn [pow]. lra. Qed.

Lemma p2m_x x i p : bounded x (2 ^ 100) -> (Z.abs i <= 2 ^ 30)%Z -> bounded p (2 ^ 100) ->
  fin (fmul (fsub x (fhalf i)) p) /\ Rabs (val (fmul (fsub x (fhalf i)) p) - (val x - IZR i / 2) * val p) <= (2 * uu + uu * uu) * Rabs ((val x - IZR i / 2) * val p) + tiny.
Proof.
  intros (F & B) I (G & P). destruct (half_exact i I) as (FH & VH). pose proof (half_bound i I) as HB.
  assert (DB : Rabs (val x - IZR i / 2) <= 2 ^ 200). { eapply Rle_trans; [apply (abs_sub _ _ _ _ B HB)|]. pose proof (p2_le 29 100 ltac:(lia)). pose proof (p2_le 101 200 ltac:(lia)). change (2 ^ 101) with (2 * 2 ^ 100) in *. lra. }
  destruct (sub_close x (fhalf i) F FH) as (A & E); [rewrite VH; eapply Rle_trans; [exact DB|apply pow_huge; lia]|]. rewrite VH in E.
  apply scaled; auto. eapply Rle_trans; [exact P|apply p2_le; lia].
Qed.
Lemma p2m_y y i p : bounded y (2 ^ 100) -> (Z.abs i <= 2 ^ 30)%Z -> bounded p (2 ^ 100) ->
  fin (fmul (fsub (fhalf i) y) p) /\ Rabs (val (fmul (fsub (fhalf i) y) p) - (IZR i / 2 - val y) * val p) <= (2 * uu + uu * uu) * Rabs ((IZR i / 2 - val y) * val p) + tiny.
Proof.
  intros (F & B) I (G & P). destruct (half_exact i I) as (FH & VH). pose proof (half_bound i I) as HB.
  assert (DB : Rabs (IZR i / 2 - val y) <= 2 ^ 200). { eapply Rle_trans; [apply (abs_sub _ _ _ _ HB B)|]. pose proof (p2_le 29 100 ltac:(lia)). pose proof (p2_le 101 200 ltac:(lia)). change (2 ^ 101) with (2 * 2 ^ 100) in *. lra. }
  destruct (sub_close (fhalf i) y FH F) as (A & E); [rewrite VH; eapply Rle_trans; [exact DB|apply pow_huge; lia]|]. rewrite VH in E.
  apply scaled; auto. eapply Rle_trans; [exact P|apply p2_le; lia].
Qed.

(** dividing by p undoes multiplying by p *)
Definition T975 : R := / 2 ^ 975.
Lemma T_pos : 0 < T975. Proof. apply Rinv_0_lt_compat, p2. Qed.
Lemma tiny_T : tiny <= T975. Proof. rewrite tiny_eq. apply inv_le. lia. Qed.
Lemma tiny_over p : / 2 ^ 100 <= Rabs p -> tiny / Rabs p <= T975.
Proof.
  intros H. pose proof (p2 100) as P. assert (IP : 0 < / 2 ^ 100) by now apply Rinv_0_lt_compat.
  apply Rle_trans with (tiny / (/ 2 ^ 100)).
  - apply Rmult_le_compat_l; [apply Rlt_le, tiny_pos|]. apply Rinv_le_contravar; auto.
  - right. unfold T975. rewrite tiny_eq. replace (2 ^ 1075) with (2 ^ 975 * 2 ^ 100) by (rewrite <- pow_add; f_equal). field.
Qed.
Lemma div_pos_abs a b : b <> 0 -> Rabs (a / b) = Rabs a / Rabs b.
Proof. intros H. unfold Rdiv. rewrite Rabs_mult, Rabs_inv. reflexivity. Qed.
Lemma p_nz p : / 2 ^ 100 <= Rabs p -> p <> 0 /\ 0 < Rabs p.
Proof. intros H. assert (0 < / 2 ^ 100) by (apply Rinv_0_lt_compat, p2). split; [|lra]. intros ->. rewrite Rabs_R0 in H. lra. Qed.
Lemma quot_bound m p b : Rabs m <= 2 ^ b -> / 2 ^ 100 <= Rabs p -> Rabs (m / p) <= 2 ^ (b + 100).
Proof.
  intros M P. destruct (p_nz p P) as (N & Q). rewrite div_pos_abs by exact N. rewrite pow_add. unfold Rdiv. apply Rmult_le_compat; [apply Rabs_pos|apply Rlt_le, Rinv_0_lt_compat, Q|exact M|].
  rewrite <- (Rinv_inv (2 ^ 100)). apply Rinv_le_contravar; [apply Rinv_0_lt_compat, p2|exact P].
Qed.
Lemma undo m D p : p <> 0 -> / 2 ^ 100 <= Rabs p -> Rabs (m - D * p) <= (2 * uu + uu * uu) * Rabs (D * p) + tiny ->
  Rabs (m / p - D) <= (2 * uu + uu * uu) * Rabs D + T975.
Proof.
  intros N P E. destruct (p_nz p P) as (_ & Q). replace (m / p - D) with ((m - D * p) / p) by (field; exact N). rewrite div_pos_abs by exact N.
  pose proof (tiny_over p P) as T. apply Rle_trans with (((2 * uu + uu * uu) * Rabs (D * p) + tiny) / Rabs p).
  - apply Rmult_le_compat_r; [apply Rlt_le, Rinv_0_lt_compat, Q|exact E].
  - rewrite Rabs_mult. replace (((2 * uu + uu * uu) * (Rabs D * Rabs p) + tiny) / Rabs p) with ((2 * uu + uu * uu) * Rabs D + tiny / Rabs p) by (field; lra). lra.
Qed.

Lemma quot_close m p : bounded m (2 ^ 300) -> fin p -> / 2 ^ 100 <= Rabs (val p) -> fin (fdiv m p) /\ Rabs (val (fdiv m p) - val m / val p) <= uu * Rabs (val m / val p) + tiny /\ Rabs (val m / val p) <= 2 ^ 400 /\ Rabs (val (fdiv m p)) <= 2 ^ 401.
Proof.
  intros (F & B) G P. destruct (p_nz _ P) as (N & _). pose proof (quot_bound _ _ 300 B P) as Q. change (300 + 100)%nat with 400%nat in Q.
  destruct (div_close m p F G N) as (A & E); [eapply Rle_trans; [exact Q|apply pow_huge; lia]|]. split; [exact A|]. split; [exact E|]. split; [exact Q|].
  pose proof (abs_near _ _ _ E) as R. change (2 ^ 401) with (2 * 2 ^ 400). assert (U : uu <= / 2) by (unfold uu; lra). pose proof (Rabs_pos (val m / val p)) as PQ.
  pose proof (Rmult_le_compat_r _ _ _ PQ U) as Z. pose proof tiny_T as T. assert (T1 : T975 <= 1). { unfold T975. rewrite <- Rinv_1. apply Rinv_le_contravar; [lra|]. change 1 with (2 ^ 0). apply p2_le. lia. }
  assert (O : 1 <= / 2 * 2 ^ 400). { change (2 ^ 400) with (2 * 2 ^ 399). assert (1 <= 2 ^ 399) by (change 1 with (2 ^ 0); apply p2_le; lia). lra. }
  lra.
Qed.
(** the two conversions to pixels, in terms of the quotient *)
Lemma m2p_x q i : fin q -> Rabs (val q) <= 2 ^ 401 -> (Z.abs i <= 2 ^ 30)%Z ->
  fin (fadd q (fhalf i)) /\ Rabs (val (fadd q (fhalf i)) - (val q + IZR i / 2)) <= uu * Rabs (val q + IZR i / 2).
Proof.
  intros F B I. destruct (half_exact i I) as (FH & VH). pose proof (half_bound i I) as HB.
  destruct (add_close q (fhalf i) F FH) as (A & E); [|rewrite VH in E; auto].
  rewrite VH. eapply Rle_trans; [apply (abs_add _ _ _ _ B HB)|]. apply Rle_trans with (2 ^ 402); [|apply pow_huge; lia]. change (2 ^ 402) with (2 * 2 ^ 401). pose proof (p2_le 29 401 ltac:(lia)). lra.
Qed.
Lemma m2p_y q i : fin q -> Rabs (val q) <= 2 ^ 401 -> (Z.abs i <= 2 ^ 30)%Z ->
  fin (fsub (fhalf i) q) /\ Rabs (val (fsub (fhalf i) q) - (IZR i / 2 - val q)) <= uu * Rabs (IZR i / 2 - val q).
Proof.
  intros F B I. destruct (half_exact i I) as (FH & VH). pose proof (half_bound i I) as HB.
  destruct (sub_close (fhalf i) q FH F) as (A & E); [|rewrite VH in E; auto].
  rewrite VH. eapply Rle_trans; [apply (abs_sub _ _ _ _ HB B)|]. apply Rle_trans with (2 ^ 402); [|apply pow_huge; lia]. change (2 ^ 402) with (2 * 2 ^ 401). pose proof (p2_le 29 401 ltac:(lia)). lra.
Qed.
Lemma T_900 : 4 * T975 <= / 2 ^ 900.
Proof. unfold T975. replace (/ 2 ^ 975) with (/ 4 * / 2 ^ 973). { pose proof (inv_le 900 973 ltac:(lia)). lra. } rewrite <- Rinv_mult. f_equal. change 975%nat with (2 + 973)%nat. rewrite pow_add. cbn [pow]. ring. Qed.

(** ---- sums of three products ---- *)
Lemma prod_close x y : bounded x (2 ^ 200) -> bounded y (2 ^ 200) -> fin (fmul x y) /\ Rabs (val (fmul x y) - val x * val y) <= uu * Rabs (val x * val y) + tiny /\
  Rabs (val x * val y) <= 2 ^ 400 /\ Rabs (val (fmul x y)) <= 2 ^ 401.
Proof.
  intros (F & B) (G & P). pose proof (abs_mul _ _ _ _ B P) as Q. rewrite <- pow_add in Q. change (200 + 200)%nat with 400%nat in Q.
  destruct (mul_close x y F G) as (A & E); [eapply Rle_trans; [exact Q|apply pow_huge; lia]|]. split; [exact A|]. split; [exact E|]. split; [exact Q|].
  pose proof (abs_near _ _ _ E) as R. change (2 ^ 401) with (2 * 2 ^ 400). assert (U : uu <= / 2) by (unfold uu; lra). pose proof (Rabs_pos (val x * val y)) as PQ.
  pose proof (Rmult_le_compat_r _ _ _ PQ U) as Z. pose proof tiny_T as T. assert (T1 : T975 <= 1). { unfold T975. rewrite <- Rinv_1. apply Rinv_le_contravar; [lra|]. change 1 with (2 ^ 0). apply p2_le. lia. }
  assert (O : 1 <= / 2 * 2 ^ 400). { change (2 ^ 400) with (2 * 2 ^ 399). assert (1 <= 2 ^ 399) by (change 1 with (2 ^ 0); apply p2_le; lia). lra. }
  lra.
Qed.
Lemma dot_close a b : vec_bounded a (2 ^ 200) -> vec_bounded b (2 ^ 200) ->
  within (fvec_dot a b) (rdot (exact a) (exact b)) (/ 2 ^ 51 * rsize (exact a) (exact b) + 4 * tiny) /\ rsize (exact a) (exact b) <= 2 ^ 402.
Proof.
  destruct a as [[a0 a1] a2], b as [[b0 b1] b2]. intros (A0 & A1 & A2) (B0 & B1 & B2). unfold fvec_dot, exact, rdot, rsize.
  destruct (prod_close _ _ A0 B0) as (F0 & E0 & S0 & L0). destruct (prod_close _ _ A1 B1) as (F1 & E1 & S1 & L1). destruct (prod_close _ _ A2 B2) as (F2 & E2 & S2 & L2).
  set (t0 := val a0 * val b0) in *. set (t1 := val a1 * val b1) in *. set (t2 := val a2 * val b2) in *. clearbody t0 t1 t2.
  assert (P402 : 2 ^ 402 = 2 * 2 ^ 401) by reflexivity. assert (P403 : 2 ^ 403 = 2 * 2 ^ 402) by reflexivity. assert (P401 : 2 ^ 401 = 2 * 2 ^ 400) by reflexivity. pose proof (p2 400) as Q400.
  destruct (add_close _ _ F0 F1) as (FS & ES); [eapply Rle_trans; [apply (abs_add _ _ _ _ L0 L1)|]; apply Rle_trans with (2 ^ 402); [lra|apply pow_huge; lia]|].
  pose proof (abs_near _ _ _ ES) as NS. pose proof (abs_add _ _ _ _ L0 L1) as LS. assert (U1 : uu <= / 2) by (unfold uu; lra). pose proof (Rabs_pos (val (fmul a0 b0) + val (fmul a1 b1))) as PS.
  pose proof (Rmult_le_compat_r _ _ _ PS U1) as US.
  destruct (add_close _ _ FS F2) as (FR & ER).
  { eapply Rle_trans; [apply (abs_add _ _ _ _ NS L2)|]. apply Rle_trans with (2 ^ 404); [|apply pow_huge; lia]. change (2 ^ 404) with (2 * 2 ^ 403). lra. }
  split; [|lra]. split; [exact FR|].
  pose proof (abs_near _ _ _ E0) as N0. pose proof (abs_near _ _ _ E1) as N1. pose proof (abs_near _ _ _ E2) as N2. pose proof tiny_pos as TP.
  pose proof (Rabs_triang (val (fmul a0 b0)) (val (fmul a1 b1))) as T01. pose proof (Rabs_triang (val (fadd (fmul a0 b0) (fmul a1 b1))) (val (fmul a2 b2))) as T2.
  set (p0 := val (fmul a0 b0)) in *. set (p1 := val (fmul a1 b1)) in *. set (p2 := val (fmul a2 b2)) in *. set (s := val (fadd (fmul a0 b0) (fmul a1 b1))) in *.
  set (r := val (fadd (fadd (fmul a0 b0) (fmul a1 b1)) (fmul a2 b2))) in *. clearbody p0 p1 p2 s r.
  clear - E0 E1 E2 N0 N1 N2 ES ER NS T01 T2 TP PS.
  pose proof (Rabs_pos t0). pose proof (Rabs_pos t1). pose proof (Rabs_pos t2). pose proof (Rabs_pos (s + p2)).
  apply Rabs_le_inv in E0, E1, E2, ES, ER. apply Rabs_le. replace (/ 2 ^ 51) with (4 * uu) by (unfold uu; cbn [pow]; lra). unfold uu in *. lra.
Qed.
Lemma rsize_self a : rsize a a = rdot a a.
Proof. destruct a as [[x y] z]. unfold rsize, rdot. rewrite !(Rabs_pos_eq (_ * _)) by apply Rle_0_sqr. reflexivity. Qed.
Lemma rdot_pos a : 0 <= rdot a a.
Proof. destruct a as [[x y] z]. unfold rdot. pose proof (Rle_0_sqr x). pose proof (Rle_0_sqr y). pose proof (Rle_0_sqr z). unfold Rsqr in *. lra. Qed.
Lemma rlength_sq a : rlength a * rlength a = rdot a a.
Proof. unfold rlength. apply sqrt_sqrt, rdot_pos. Qed.
Lemma comp_length x y z : Rabs x <= rlength (x, y, z) /\ Rabs y <= rlength (x, y, z) /\ Rabs z <= rlength (x, y, z).
Proof.
  unfold rlength, rdot. pose proof (Rle_0_sqr x). pose proof (Rle_0_sqr y). pose proof (Rle_0_sqr z).
  assert (K : forall t, Rsqr t <= x * x + y * y + z * z -> Rabs t <= sqrt (x * x + y * y + z * z)).
  { intros t Ht. rewrite <- sqrt_Rsqr_abs. now apply sqrt_le_1_alt. }
  unfold Rsqr in *. split; [|split]; apply K; lra.
Qed.
Lemma length_bounded a b : vec_fin a -> rlength (exact a) <= b -> vec_bounded a b.
Proof.
  destruct a as [[x y] z]. intros (F & G & H) L. destruct (comp_length (val x) (val y) (val z)) as (A & B & C). cbn [exact] in L.
  split; [|split]; split; auto; lra.
Qed.
(** a square root of a number near N^2 *)
Lemma root_near s N : 0 < N -> 0 <= s -> Rabs (s - N * N) <= 5 * uu * (N * N) -> Rabs (sqrt s - N) <= 5 * uu * N.
Proof.
  intros HN HS E. pose proof (sqrt_pos s) as P. assert (Q : (sqrt s - N) * (sqrt s + N) = s - N * N) by (ring_simplify; rewrite <- Rsqr_pow2, Rsqr_sqrt by exact HS; ring).
  apply Rmult_le_reg_r with (sqrt s + N); [lra|]. rewrite <- (Rabs_pos_eq (sqrt s + N)) at 1 by lra. rewrite <- Rabs_mult, Q. eapply Rle_trans; [exact E|].
  pose proof uu_pos. assert (0 <= 5 * uu * N * sqrt s) by (repeat apply Rmult_le_pos; lra). lra.
Qed.
Lemma norm_close a : vec_fin a -> / 2 ^ 500 <= rlength (exact a) <= 2 ^ 200 -> within (fvec_norm a) (rlength (exact a)) (/ 2 ^ 50 * rlength (exact a)).
Proof.
  intros F (LO & HI). pose proof (length_bounded a _ F HI) as B. destruct (dot_close a a B B) as ((FD & E) & SZ). rewrite rsize_self, <- rlength_sq in E.
  set (N := rlength (exact a)) in *. assert (NP : 0 < N) by (pose proof (Rinv_0_lt_compat _ (p2 500)); lra).
  assert (T : 4 * tiny <= uu * (N * N)).
  { apply Rle_trans with (uu * (/ 2 ^ 500 * / 2 ^ 500)).
    - rewrite tiny_eq, <- Rinv_mult, <- pow_add. change (500 + 500)%nat with 1000%nat. replace (/ 2 ^ 1075) with (/ 2 ^ 75 * / 2 ^ 1000) by (rewrite <- Rinv_mult, <- pow_add; reflexivity).
      rewrite <- Rmult_assoc. apply Rmult_le_compat_r; [apply Rlt_le, Rinv_0_lt_compat, p2|]. unfold uu. cbn [pow]. lra.
    - apply Rmult_le_compat_l; [apply Rlt_le, uu_pos|]. apply Rmult_le_compat; try lra; apply Rlt_le, Rinv_0_lt_compat, p2. }
  replace (/ 2 ^ 51) with (4 * uu) in E by (unfold uu; cbn [pow]; lra).
  assert (E5 : Rabs (val (fvec_dot a a) - N * N) <= 5 * uu * (N * N)) by lra.
  assert (NN : 0 < N * N) by now apply Rmult_lt_0_compat.
  assert (SP : / 4 * (N * N) <= val (fvec_dot a a)). { apply Rabs_le_inv in E5. unfold uu in E5. lra. }
  assert (SP0 : 0 <= val (fvec_dot a a)) by lra. pose proof (root_near _ N NP SP0 E5) as R.
  assert (RL : N / 2 <= sqrt (val (fvec_dot a a))). { apply Rabs_le_inv in R. unfold uu in R. lra. }
  destruct (sqrt_close (fvec_dot a a) FD SP0) as (FQ & EQ).
  { apply Rle_trans with (N / 2); [|exact RL]. apply Rle_trans with (/ 2 ^ 501); [|change (2 ^ 501) with (2 * 2 ^ 500); rewrite Rinv_mult; lra].
    change (-1022)%Z with (- Z.of_nat 1022)%Z. rewrite bpow_neg. apply inv_le. lia. }
  split; [exact FQ|]. unfold fvec_norm. set (q := sqrt (val (fvec_dot a a))) in *. set (v := val (fsqrt (fvec_dot a a))) in *. clearbody q v. clear - R EQ NP.
  replace (/ 2 ^ 50) with (8 * uu) by (unfold uu; cbn [pow]; lra). apply Rabs_le_inv in R, EQ. apply Rabs_le. unfold uu in *. lra.
Qed.

(** ---- differences ---- *)
Lemma vsub_close a b : vec_bounded a (2 ^ 198) -> vec_bounded b (2 ^ 198) ->
  vec_fin (fvec_subt a b) /\
  (let '(d0, d1, d2) := exact (fvec_subt a b) in let '(e0, e1, e2) := rminus (exact a) (exact b) in
   Rabs (d0 - e0) <= uu * Rabs e0 /\ Rabs (d1 - e1) <= uu * Rabs e1 /\ Rabs (d2 - e2) <= uu * Rabs e2).
Proof.
  destruct a as [[a0 a1] a2], b as [[b0 b1] b2]. intros ((A0 & B0) & (A1 & B1) & (A2 & B2)) ((C0 & D0) & (C1 & D1) & (C2 & D2)). cbn [fvec_subt fmap2 exact rminus vec_fin].
  assert (S : 2 ^ 198 + 2 ^ 198 <= huge) by (replace (2 ^ 198 + 2 ^ 198) with (2 ^ 199) by (change (2 ^ 199) with (2 * 2 ^ 198); ring); apply pow_huge; lia).
  destruct (sub_close a0 b0 A0 C0) as (F0 & E0); [eapply Rle_trans; [apply (abs_sub _ _ _ _ B0 D0)|exact S]|].
  destruct (sub_close a1 b1 A1 C1) as (F1 & E1); [eapply Rle_trans; [apply (abs_sub _ _ _ _ B1 D1)|exact S]|].
  destruct (sub_close a2 b2 A2 C2) as (F2 & E2); [eapply Rle_trans; [apply (abs_sub _ _ _ _ B2 D2)|exact S]|]. tauto.
Qed.
Lemma sq_near d e : Rabs (d - e) <= uu * Rabs e -> (1 - uu) * (1 - uu) * (e * e) <= d * d <= (1 + uu) * (1 + uu) * (e * e).
Proof.
  intros H. pose proof (Rabs_pos e) as P. assert (U : 0 < uu < 1) by (unfold uu; lra).
  assert (N : Rabs d <= (1 + uu) * Rabs e). { pose proof (abs_near _ _ _ H). lra. }
  assert (M : (1 - uu) * Rabs e <= Rabs d). { rewrite Rabs_minus_sym in H. pose proof (abs_near _ _ _ H). lra. }
  pose proof (Rsqr_abs d) as SD. pose proof (Rsqr_abs e) as SE. unfold Rsqr in SD, SE. rewrite SD, SE. pose proof (Rabs_pos d) as Q.
  assert (0 <= (1 - uu) * Rabs e) by (apply Rmult_le_pos; lra). split.
  - replace ((1 - uu) * (1 - uu) * (Rabs e * Rabs e)) with (((1 - uu) * Rabs e) * ((1 - uu) * Rabs e)) by ring. apply Rmult_le_compat; lra.
  - replace ((1 + uu) * (1 + uu) * (Rabs e * Rabs e)) with (((1 + uu) * Rabs e) * ((1 + uu) * Rabs e)) by ring. apply Rmult_le_compat; lra.
Qed.
Lemma length_near d e : (let '(d0, d1, d2) := d in let '(e0, e1, e2) := e in
   Rabs (d0 - e0) <= uu * Rabs e0 /\ Rabs (d1 - e1) <= uu * Rabs e1 /\ Rabs (d2 - e2) <= uu * Rabs e2) ->
  (1 - uu) * rlength e <= rlength d <= (1 + uu) * rlength e.
Proof.
  destruct d as [[d0 d1] d2], e as [[e0 e1] e2]. intros (H0 & H1 & H2). apply sq_near in H0, H1, H2. assert (U : 0 < uu < 1) by (unfold uu; lra).
  assert (K : forall k, 0 <= k -> k * rlength (e0, e1, e2) = sqrt (k * k * rdot (e0, e1, e2) (e0, e1, e2))).
  { intros k Hk. rewrite sqrt_mult; [|nra|apply rdot_pos]. rewrite sqrt_square by exact Hk. reflexivity. }
  rewrite !K by lra. unfold rlength. split; apply sqrt_le_1_alt; unfold rdot; lra.
Qed.
Lemma rlength_nonneg a : 0 <= rlength a. Proof. apply sqrt_pos. Qed.
Lemma diff_norm_close a b : vec_bounded a (2 ^ 198) -> vec_bounded b (2 ^ 198) -> / 2 ^ 499 <= rlength (rminus (exact a) (exact b)) <= 2 ^ 199 ->
  within (fvec_diff_norm a b) (rlength (rminus (exact a) (exact b))) (/ 2 ^ 49 * rlength (rminus (exact a) (exact b))).
Proof.
  intros A B L. destruct (vsub_close a b A B) as (F & E). apply length_near in E. set (n := rlength (rminus (exact a) (exact b))) in *.
  set (m := rlength (exact (fvec_subt a b))) in *. assert (H500 : / 2 ^ 499 = 2 * / 2 ^ 500) by (change (2 ^ 500) with (2 * 2 ^ 499); field; apply Rgt_not_eq, p2).
  assert (H200 : 2 ^ 200 = 2 * 2 ^ 199) by reflexivity. assert (P : 0 < / 2 ^ 500) by apply Rinv_0_lt_compat, p2. pose proof (p2 199) as P2.
  assert (R : / 2 ^ 500 <= m <= 2 ^ 200). { rewrite H200. unfold uu in E. lra. }
  destruct (norm_close (fvec_subt a b) F R) as (G & N). fold m in N. split; [exact G|]. unfold fvec_diff_norm. set (v := val (fvec_norm (fvec_subt a b))) in *. clearbody v m n.
  clear - N E L P H500. replace (/ 2 ^ 50) with (8 * uu) in N by (unfold uu; cbn [pow]; lra). replace (/ 2 ^ 49) with (16 * uu) by (unfold uu; cbn [pow]; lra).
  apply Rabs_le_inv in N. apply Rabs_le. unfold uu in *. lra.
Qed.

(** ---- unit vectors ---- *)
Lemma quot_near x m N : Rabs x <= N -> 0 < N -> Rabs (m - N) <= 8 * uu * N -> Rabs (x / m - x / N) <= 9 * uu /\ Rabs (x / m) <= 2 /\ N / 2 <= m.
Proof.
  intros X P E. assert (U : 0 < uu < / 1000) by (unfold uu; lra). apply Rabs_le_inv in E.
  assert (M : (1 - 8 * uu) * N <= m <= (1 + 8 * uu) * N) by lra. assert (HU : 8 * uu * N <= N / 2) by (unfold uu; lra).
  assert (M0 : N / 2 <= m) by lra. assert (MP : 0 < m) by lra.
  assert (Q : Rabs (x / m) <= 2).
  { rewrite div_pos_abs by lra. rewrite (Rabs_pos_eq m) by lra. apply Rmult_le_reg_r with m; [exact MP|]. unfold Rdiv. rewrite Rmult_assoc, Rinv_l by lra. lra. }
  split; [|split; [exact Q|exact M0]].
  replace (x / m - x / N) with (x * ((N - m) / (m * N))) by (field; lra). rewrite Rabs_mult, div_pos_abs by (apply Rgt_not_eq, Rmult_lt_0_compat; lra).
  rewrite (Rabs_pos_eq (m * N)) by (apply Rlt_le, Rmult_lt_0_compat; lra).
  apply Rle_trans with (N * (8 * uu * N / (m * N))).
  - apply Rmult_le_compat; auto using Rabs_pos. { apply Rmult_le_pos; [apply Rabs_pos|]. apply Rlt_le, Rinv_0_lt_compat, Rmult_lt_0_compat; lra. }
    apply Rmult_le_compat_r; [apply Rlt_le, Rinv_0_lt_compat, Rmult_lt_0_compat; lra|]. apply Rabs_le. lra.
  - replace (N * (8 * uu * N / (m * N))) with (8 * uu * N / m) by (field; lra). apply Rmult_le_reg_r with m; [exact MP|]. unfold Rdiv. rewrite Rmult_assoc, Rinv_l by lra.
    apply Rle_trans with (9 * uu * ((1 - 8 * uu) * N)); [|apply Rmult_le_compat_l; lra]. unfold uu. lra.
Qed.
Lemma unit_comp x m N : fin x -> fin m -> Rabs (val x) <= N -> 0 < N -> Rabs (val m - N) <= 8 * uu * N -> within (fdiv x m) (val x / N) (/ 2 ^ 49).
Proof.
  intros F G X P E. destruct (quot_near _ _ _ X P E) as (Q & B & M). assert (NZ : val m <> 0) by lra.
  destruct (div_close x m F G NZ) as (A & D); [eapply Rle_trans; [exact B|]; apply Rle_trans with (2 ^ 1); [cbn; lra|apply pow_huge; lia]|].
  split; [exact A|]. eapply Rle_trans; [apply (near3 _ _ _ _ _ D Q)|].
  assert (T : tiny <= uu). { rewrite tiny_eq. replace uu with (/ 2 ^ 53) by (unfold uu; cbn [pow]; lra). apply inv_le. lia. }
  pose proof (Rmult_le_compat_l uu _ _ (Rlt_le _ _ uu_pos) B). replace (/ 2 ^ 49) with (16 * uu) by (unfold uu; cbn [pow]; lra). pose proof uu_pos. lra.
Qed.
Lemma unit_close a : vec_fin a -> / 2 ^ 500 <= rlength (exact a) <= 2 ^ 200 ->
  let n := rlength (exact a) in
  let '(x, y, z) := a in let '(u, v, w) := funit_vector a in
  within u (val x / n) (/ 2 ^ 49) /\ within v (val y / n) (/ 2 ^ 49) /\ within w (val z / n) (/ 2 ^ 49).
Proof.
  intros F L. destruct (norm_close a F L) as (G & E). cbv zeta. unfold funit_vector. set (N := rlength (exact a)) in *.
  assert (P : 0 < N) by (pose proof (Rinv_0_lt_compat _ (p2 500)); lra). replace (/ 2 ^ 50) with (8 * uu) in E by (unfold uu; cbn [pow]; lra).
  assert (NZ : feq (fvec_norm a) fzero = false).
  { rewrite feq_correct by (auto; split; reflexivity). apply Req_bool_false. change (val fzero) with 0. apply Rabs_le_inv in E. unfold uu in E. lra. }
  rewrite NZ. subst N. destruct a as [[x y] z]. destruct F as (F0 & F1 & F2). destruct (comp_length (val x) (val y) (val z)) as (C0 & C1 & C2).
  split; [|split]; apply unit_comp; auto.
Qed.

(** ---- cross products ---- *)
Lemma two_close x y z w : bounded x (2 ^ 200) -> bounded y (2 ^ 200) -> bounded z (2 ^ 200) -> bounded w (2 ^ 200) ->
  within (fsub (fmul x y) (fmul z w)) (val x * val y - val z * val w) (/ 2 ^ 51 * (Rabs (val x * val y) + Rabs (val z * val w)) + 3 * tiny).
Proof.
  intros X Y Z W. destruct (prod_close _ _ X Y) as (F0 & E0 & S0 & L0). destruct (prod_close _ _ Z W) as (F1 & E1 & S1 & L1).
  destruct (sub_close _ _ F0 F1) as (FS & ES); [eapply Rle_trans; [apply (abs_sub _ _ _ _ L0 L1)|]; apply Rle_trans with (2 ^ 402); [change (2 ^ 402) with (2 * 2 ^ 401); lra|apply pow_huge; lia]|].
  split; [exact FS|]. pose proof (abs_near _ _ _ E0) as N0. pose proof (abs_near _ _ _ E1) as N1. pose proof tiny_pos as TP.
  assert (AS : Rabs (val (fmul x y) - val (fmul z w)) <= Rabs (val (fmul x y)) + Rabs (val (fmul z w))) by (apply abs_sub; lra).
  set (t0 := val x * val y) in *. set (t1 := val z * val w) in *. set (p0 := val (fmul x y)) in *. set (p1 := val (fmul z w)) in *. set (r := val (fsub (fmul x y) (fmul z w))) in *. clearbody t0 t1 p0 p1 r.
  clear - E0 E1 N0 N1 ES AS TP. pose proof (Rabs_pos t0). pose proof (Rabs_pos t1). pose proof (Rabs_pos (p0 - p1)).
  apply Rabs_le_inv in E0, E1, ES. apply Rabs_le. replace (/ 2 ^ 51) with (4 * uu) by (unfold uu; cbn [pow]; lra). unfold uu in *. lra.
Qed.

(** ---- kinematics ---- *)
Lemma twice_exact x : bounded x (2 ^ 200) -> fin (fmul x (f_of_Z 2)) /\ val (fmul x (f_of_Z 2)) = 2 * val x.
Proof.
  intros (F & B). destruct (f_of_Z_exact 2) as (F2 & V2); [lia|].
  assert (FM : rnd (val x * 2) = val x * 2).
  { unfold rnd. apply round_generic; [typeclasses eauto|]. apply fin_format in F. change 2 with (bpow radix2 1) at 1. apply (mult_bpow_pos_exact_FLT radix2 (-1074) 53); [exact F|lia]. }
  destruct (fmul_correct x (f_of_Z 2) F F2) as (A & V); rewrite V2 in *; [|rewrite FM in V; split; [exact A|lra]].
  apply rnd_huge. rewrite Rabs_mult, (Rabs_pos_eq 2) by lra. apply Rle_trans with (2 ^ 201); [change (2 ^ 201) with (2 * 2 ^ 200); lra|apply pow_huge; lia].
Qed.
Lemma moving_comp c p : bounded c (2 ^ 200) -> bounded p (2 ^ 200) ->
  fin (fsub (fmul c (f_of_Z 2)) p) /\ val (fsub (fmul c (f_of_Z 2)) p) = rnd (2 * val c - val p) /\
  Rabs (val (fsub (fmul c (f_of_Z 2)) p) - (2 * val c - val p)) <= uu * Rabs (2 * val c - val p).
Proof.
  intros C P. destruct (twice_exact c C) as (F & V). destruct C as (FC & BC), P as (FP & BP).
  assert (S : Rabs (2 * val c - val p) <= huge).
  { eapply Rle_trans; [apply (abs_sub _ _ (2 * 2 ^ 200) (2 ^ 200)); [|exact BP]|].
    - rewrite Rabs_mult, (Rabs_pos_eq 2) by lra. lra.
    - apply Rle_trans with (2 ^ 202); [change (2 ^ 202) with (2 * (2 * 2 ^ 200)); pose proof (p2 200); lra|apply pow_huge; lia]. }
  destruct (sub_close _ p F FP) as (A & E); [rewrite V; exact S|]. rewrite V in E. split; [exact A|]. split; [|exact E].
  destruct (fsub_correct _ p F FP) as (_ & V'); [rewrite V; apply rnd_huge, S|]. now rewrite V', V.
Qed.
