(** Rounding errors of the binary64 operations: relative error 2^-53, and the smallest positive numbers. *)
From Coq Require Import ZArith Reals Psatz Bool.
From Flocq Require Import Core.Core IEEE754.BinarySingleNaN.
Require Import Flocq.Prop.Relative.
From Verif Require Import F64 F64R.
Local Open Scope R_scope.

Definition uu : R := / 9007199254740992.   (* 2^-53 *)
Definition tiny : R := bpow radix2 (-1075).
Lemma uu_eq : / 2 * bpow radix2 (- (53) + 1) = uu. Proof. unfold uu. cbn. lra. Qed.
Lemma uu_pos : 0 < uu. Proof. unfold uu. lra. Qed.
Lemma tiny_pos : 0 < tiny. Proof. apply bpow_gt_0. Qed.

Lemma rnd_rel r : bpow radix2 (-1022) <= Rabs r -> Rabs (rnd r - r) <= uu * Rabs r.
Proof.
  intros H. rewrite <- uu_eq. pose proof (@relative_error_N_FLT radix2 (-1074) 53 Hprec64 (fun x => negb (Z.even x)) r H) as E. exact E.
Qed.
Lemma rnd_abs r : Rabs (rnd r - r) <= uu * Rabs r + tiny.
Proof.
  pose proof (Rabs_pos r) as P. pose proof uu_pos as U. pose proof tiny_pos as T.
  destruct (Rle_or_lt (bpow radix2 (-1022)) (Rabs r)) as [H|H]; [pose proof (rnd_rel r H); lra|].
  apply Rle_trans with tiny; [|pose proof (Rmult_le_pos _ _ (Rlt_le _ _ U) P); lra].
  eapply Rle_trans; [unfold rnd; apply error_le_half_ulp; typeclasses eauto|].
  assert (M : Monotone_exp (SpecFloat.fexp 53 1024)) by exact (FLT_exp_monotone (SpecFloat.emin 53 1024) 53).
  apply Rle_trans with (/ 2 * ulp radix2 (SpecFloat.fexp 53 1024) (bpow radix2 (-1022))).
  - apply Rmult_le_compat_l; [lra|]. apply ulp_le; [typeclasses eauto|exact M|]. rewrite (Rabs_pos_eq (bpow _ _)) by apply bpow_ge_0. lra.
  - rewrite ulp_bpow. unfold SpecFloat.fexp, SpecFloat.emin, tiny. change (Z.max (-1022 + 1 - 53) (3 - 1024 - 53)) with (-1074)%Z.
    change (-1075)%Z with (-1 + -1074)%Z. rewrite bpow_plus. cbn [bpow]. simpl. lra.
Qed.
(** every finite number is a multiple of 2^-1074 *)
Lemma fin_format x : fin x -> generic_format radix2 (SpecFloat.fexp 53 1024) (val x).
Proof. intros F. destruct (fin_B x F) as (b & _ & _ & <-). apply generic_format_B2R. Qed.
Lemma rnd_val x : fin x -> rnd (val x) = val x.
Proof. intros F. apply round_generic; [typeclasses eauto|now apply fin_format]. Qed.
Lemma fin_mult x : fin x -> exists m, val x = F2R (Float radix2 m (-1074)).
Proof.
  intros F. apply fin_format in F. apply (generic_format_FIX_FLT radix2 (-1074) 53) in F.
  apply FIX_format_generic in F. destruct F as [[m e] F1 F2]. exists m. cbn in F2. now rewrite F1, <- F2.
Qed.
Lemma rnd_mult m : Rabs (rnd (F2R (Float radix2 m (-1074))) - F2R (Float radix2 m (-1074))) <= uu * Rabs (F2R (Float radix2 m (-1074))).
Proof. rewrite <- uu_eq. exact (@relative_error_N_FLT_F2R_emin radix2 (-1074) 53 Hprec64 (fun x => negb (Z.even x)) m). Qed.
Lemma rnd_sum x y : fin x -> fin y -> Rabs (rnd (val x + val y) - (val x + val y)) <= uu * Rabs (val x + val y).
Proof.
  intros F G. destruct (fin_mult x F) as (m & ->). destruct (fin_mult y G) as (n & ->).
  replace (F2R (Float radix2 m (-1074)) + F2R (Float radix2 n (-1074))) with (F2R (Float radix2 (m + n) (-1074))); [apply rnd_mult|].
  unfold F2R. cbn [Fnum Fexp]. rewrite plus_IZR. ring.
Qed.
Lemma rnd_dif x y : fin x -> fin y -> Rabs (rnd (val x - val y) - (val x - val y)) <= uu * Rabs (val x - val y).
Proof.
  intros F G. destruct (fin_fneg y G) as (G' & V). pose proof (rnd_sum x (fneg y) F G') as E. rewrite V in E. exact E.
Qed.
(** ---- finite results ---- *)
Definition huge : R := bpow radix2 1000.
Lemma rnd_huge r : Rabs r <= huge -> Rabs (rnd r) < big.
Proof.
  intros H. apply Rle_lt_trans with huge.
  - apply rnd_abs_le; [|exact H]. apply round_generic; [typeclasses eauto|]. apply generic_format_bpow. unfold SpecFloat.fexp, SpecFloat.emin. lia.
  - apply bpow_lt. lia.
Qed.
Lemma add_close x y : fin x -> fin y -> Rabs (val x + val y) <= huge ->
  fin (fadd x y) /\ Rabs (val (fadd x y) - (val x + val y)) <= uu * Rabs (val x + val y).
Proof. intros F G H. destruct (fadd_correct x y F G (rnd_huge _ H)) as (A & ->). split; [exact A|now apply rnd_sum]. Qed.
Lemma sub_close x y : fin x -> fin y -> Rabs (val x - val y) <= huge ->
  fin (fsub x y) /\ Rabs (val (fsub x y) - (val x - val y)) <= uu * Rabs (val x - val y).
Proof. intros F G H. destruct (fsub_correct x y F G (rnd_huge _ H)) as (A & ->). split; [exact A|now apply rnd_dif]. Qed.
Lemma mul_close x y : fin x -> fin y -> Rabs (val x * val y) <= huge ->
  fin (fmul x y) /\ Rabs (val (fmul x y) - val x * val y) <= uu * Rabs (val x * val y) + tiny.
Proof. intros F G H. destruct (fmul_correct x y F G (rnd_huge _ H)) as (A & ->). split; [exact A|apply rnd_abs]. Qed.
Lemma div_close x y : fin x -> fin y -> val y <> 0 -> Rabs (val x / val y) <= huge ->
  fin (fdiv x y) /\ Rabs (val (fdiv x y) - val x / val y) <= uu * Rabs (val x / val y) + tiny.
Proof. intros F G N H. destruct (fdiv_correct x y F G N (rnd_huge _ H)) as (A & ->). split; [exact A|apply rnd_abs]. Qed.
Lemma sqrt_close x : fin x -> 0 <= val x -> bpow radix2 (-1022) <= sqrt (val x) ->
  fin (fsqrt x) /\ Rabs (val (fsqrt x) - sqrt (val x)) <= uu * sqrt (val x).
Proof.
  intros F P L. destruct (fsqrt_correct x F P) as (A & ->). split; [exact A|]. pose proof (sqrt_pos (val x)).
  rewrite <- (Rabs_pos_eq (sqrt (val x))) at 3 by lra. apply rnd_rel. rewrite Rabs_pos_eq; lra.
Qed.
