(** Real-number meaning of the binary64 operations of F64.v, from Flocq.
    (Flocq rests only on the axioms of the standard library's Reals.) *)
From Coq Require Import ZArith Reals Psatz Bool.
From Flocq Require Import Core.Core IEEE754.BinarySingleNaN.
From Verif Require Import F64.
Local Open Scope R_scope.

Lemma Hprec64 : FLX.Prec_gt_0 53. Proof. reflexivity. Qed.
Lemma Hmax64 : Prec_lt_emax 53 1024. Proof. reflexivity. Qed.

Notation b64 := (binary_float 53 1024).
Definition val (x : f64) : R := SF2R radix2 x.
Definition fin (x : f64) : Prop := is_finite_SF x = true /\ SpecFloat.valid_binary 53 1024 x = true.
Definition rnd (r : R) : R := round radix2 (SpecFloat.fexp 53 1024) ZnearestE r.
Definition big : R := bpow radix2 1024.

Lemma fin_B x : fin x -> exists b : b64, B2SF b = x /\ is_finite b = true /\ B2R b = val x.
Proof.
  intros (F & V). exists (SF2B x V). split; [apply B2SF_SF2B|]. split.
  - now rewrite is_finite_SF2B.
  - unfold val. now rewrite B2R_SF2B.
Qed.
Lemma B_fin (b : b64) : is_finite b = true -> fin (B2SF b) /\ val (B2SF b) = B2R b.
Proof.
  intros H. split; [split|].
  - now rewrite is_finite_SF_B2SF.
  - apply valid_binary_B2SF.
  - apply SF2R_B2SF.
Qed.

Lemma round_nearest_even_equiv s m l : round_nearest_even m l = choice_mode mode_NE s m l.
Proof.
  case l; [reflexivity|intro c]. case c; [ | reflexivity..].
  now simpl; unfold Round.cond_incr; case Z.even.
Qed.
Lemma binary_round_aux_equiv sx mx ex lx :
  SpecFloat.binary_round_aux 53 1024 sx mx ex lx = BinarySingleNaN.binary_round_aux 53 1024 mode_NE sx mx ex lx.
Proof.
  unfold SpecFloat.binary_round_aux, BinarySingleNaN.binary_round_aux.
  set (mrse' := shr_fexp _ _ _ _ _). case mrse'; intros mrs' e'; simpl.
  now rewrite (round_nearest_even_equiv sx).
Qed.
Lemma binary_round_equiv s m e :
  SpecFloat.binary_round 53 1024 s m e = BinarySingleNaN.binary_round 53 1024 mode_NE s m e.
Proof.
  unfold SpecFloat.binary_round, BinarySingleNaN.binary_round, shl_align_fexp.
  set (mez := shl_align _ _ _); case mez as [mz ez]. apply binary_round_aux_equiv.
Qed.
Lemma binary_normalize_equiv m e szero :
  SpecFloat.binary_normalize 53 1024 m e szero = B2SF (BinarySingleNaN.binary_normalize 53 1024 Hprec64 Hmax64 mode_NE m e szero).
Proof.
  case m as [ | p | p].
  - now simpl.
  - simpl; rewrite B2SF_SF2B; apply binary_round_equiv.
  - simpl; rewrite B2SF_SF2B; apply binary_round_equiv.
Qed.

Lemma fadd_B (x y : b64) : fadd (B2SF x) (B2SF y) = B2SF (Bplus (prec_gt_0_:=Hprec64) (prec_lt_emax_:=Hmax64) mode_NE x y).
Proof.
  unfold fadd. case x as [sx|sx| |sx mx ex Bx]; case y as [sy|sy| |sy my ey By];
  [now (trivial || simpl; case Bool.eqb).. | ]. apply binary_normalize_equiv.
Qed.
Lemma fsub_B (x y : b64) : fsub (B2SF x) (B2SF y) = B2SF (Bminus (prec_gt_0_:=Hprec64) (prec_lt_emax_:=Hmax64) mode_NE x y).
Proof.
  unfold fsub. case x as [sx|sx| |sx mx ex Bx]; case y as [sy|sy| |sy my ey By];
  [now (trivial || simpl; case Bool.eqb).. | ].
  simpl. unfold Zminus. rewrite <- cond_Zopp_negb. apply binary_normalize_equiv.
Qed.
Lemma fmul_B (x y : b64) : fmul (B2SF x) (B2SF y) = B2SF (Bmult (prec_gt_0_:=Hprec64) (prec_lt_emax_:=Hmax64) mode_NE x y).
Proof.
  unfold fmul. case x as [sx|sx| |sx mx ex Bx]; case y as [sy|sy| |sy my ey By]; [now trivial.. | ].
  simpl. rewrite B2SF_SF2B. apply binary_round_aux_equiv.
Qed.
Lemma fdiv_B (x y : b64) : fdiv (B2SF x) (B2SF y) = B2SF (Bdiv (prec_gt_0_:=Hprec64) (prec_lt_emax_:=Hmax64) mode_NE x y).
Proof.
  unfold fdiv. case x as [sx|sx| |sx mx ex Bx]; case y as [sy|sy| |sy my ey By];
  [now (trivial || simpl; case Bool.eqb).. | ].
  simpl. rewrite B2SF_SF2B. set (melz := SFdiv_core_binary _ _ _ _ _ _).
  unfold prec64, emax64. fold melz. case melz as [[mz ez] lz]. apply binary_round_aux_equiv.
Qed.
Lemma fsqrt_B (x : b64) : fsqrt (B2SF x) = B2SF (Bsqrt (prec_gt_0_:=Hprec64) (prec_lt_emax_:=Hmax64) mode_NE x).
Proof.
  unfold fsqrt. case x as [sx|sx| |sx mx ex Bx]; [now (trivial || case sx).. | ].
  case sx; [reflexivity | ]. simpl. rewrite B2SF_SF2B.
  set (melz := SFsqrt_core_binary _ _ _ _). unfold prec64, emax64. fold melz.
  case melz as [[mz ez] lz]. apply binary_round_aux_equiv.
Qed.

Lemma fadd_correct x y : fin x -> fin y -> Rabs (rnd (val x + val y)) < big ->
  fin (fadd x y) /\ val (fadd x y) = rnd (val x + val y).
Proof.
  intros (bx & <- & Fx & Vx)%fin_B (b & <- & Fy & Vy)%fin_B H. rewrite fadd_B.
  pose proof (Bplus_correct 53 1024 Hprec64 Hmax64 mode_NE bx b Fx Fy) as P.
  rewrite Vx, Vy in P. unfold rnd, big in H. rewrite Rlt_bool_true in P by exact H.
  destruct P as (P1 & P2 & _). destruct (B_fin _ P2) as (P3 & P4). split; auto. rewrite P4. exact P1.
Qed.
Lemma fsub_correct x y : fin x -> fin y -> Rabs (rnd (val x - val y)) < big ->
  fin (fsub x y) /\ val (fsub x y) = rnd (val x - val y).
Proof.
  intros (bx & <- & Fx & Vx)%fin_B (b & <- & Fy & Vy)%fin_B H. rewrite fsub_B.
  pose proof (Bminus_correct 53 1024 Hprec64 Hmax64 mode_NE bx b Fx Fy) as P.
  rewrite Vx, Vy in P. unfold rnd, big in H. rewrite Rlt_bool_true in P by exact H.
  destruct P as (P1 & P2 & _). destruct (B_fin _ P2) as (P3 & P4). split; auto. rewrite P4. exact P1.
Qed.
Lemma fmul_correct x y : fin x -> fin y -> Rabs (rnd (val x * val y)) < big ->
  fin (fmul x y) /\ val (fmul x y) = rnd (val x * val y).
Proof.
  intros (bx & <- & Fx & Vx)%fin_B (b & <- & Fy & Vy)%fin_B H. rewrite fmul_B.
  pose proof (Bmult_correct 53 1024 Hprec64 Hmax64 mode_NE bx b) as P.
  rewrite Vx, Vy in P. unfold rnd, big in H. rewrite Rlt_bool_true in P by exact H.
  destruct P as (P1 & P2 & _). rewrite Fx, Fy in P2. destruct (B_fin _ P2) as (P3 & P4). split; auto. rewrite P4. exact P1.
Qed.
Lemma fdiv_correct x y : fin x -> fin y -> val y <> 0 -> Rabs (rnd (val x / val y)) < big ->
  fin (fdiv x y) /\ val (fdiv x y) = rnd (val x / val y).
Proof.
  intros (bx & <- & Fx & Vx)%fin_B (b & <- & Fy & Vy)%fin_B Hy H. rewrite fdiv_B. rewrite <- Vy in Hy.
  pose proof (Bdiv_correct 53 1024 Hprec64 Hmax64 mode_NE bx b Hy) as P.
  rewrite Vx, Vy in P. unfold rnd, big in H. rewrite Rlt_bool_true in P by exact H.
  destruct P as (P1 & P2 & _). rewrite Fx in P2. destruct (B_fin _ P2) as (P3 & P4). split; auto. rewrite P4. exact P1.
Qed.
Lemma fsqrt_correct x : fin x -> 0 <= val x ->
  fin (fsqrt x) /\ val (fsqrt x) = rnd (sqrt (val x)).
Proof.
  intros (bx & <- & Fx & Vx)%fin_B H. rewrite fsqrt_B.
  pose proof (Bsqrt_correct 53 1024 Hprec64 Hmax64 mode_NE bx) as (P1 & P2 & _).
  rewrite Vx in P1.
  assert (Hf : is_finite (Bsqrt (prec_gt_0_:=Hprec64) (prec_lt_emax_:=Hmax64) mode_NE bx) = true).
  { rewrite P2. destruct bx as [s|s| |s m e Hb]; auto. destruct s; auto.
    exfalso. rewrite <- Vx in H. simpl in H.
    assert (F2R (Float radix2 (Z.neg m) e) < 0) by (apply F2R_lt_0; reflexivity). simpl in *. lra. }
  destruct (B_fin _ Hf) as (P3 & P4). split; auto. rewrite P4. exact P1.
Qed.

Lemma flt_correct x y : fin x -> fin y -> flt x y = Rlt_bool (val x) (val y).
Proof.
  intros (bx & <- & Fx & Vx)%fin_B (b & <- & Fy & Vy)%fin_B. rewrite <- Vx, <- Vy.
  change (flt (B2SF bx) (B2SF b)) with (Bltb bx b). apply Bltb_correct; auto.
Qed.
Lemma fle_correct x y : fin x -> fin y -> fle x y = Rle_bool (val x) (val y).
Proof.
  intros (bx & <- & Fx & Vx)%fin_B (b & <- & Fy & Vy)%fin_B. rewrite <- Vx, <- Vy.
  change (fle (B2SF bx) (B2SF b)) with (Bleb bx b). apply Bleb_correct; auto.
Qed.
Lemma feq_correct x y : fin x -> fin y -> feq x y = Req_bool (val x) (val y).
Proof.
  intros (bx & <- & Fx & Vx)%fin_B (b & <- & Fy & Vy)%fin_B. rewrite <- Vx, <- Vy.
  change (feq (B2SF bx) (B2SF b)) with (Beqb bx b). apply Beqb_correct; auto.
Qed.
Lemma fin_fabs x : fin x -> fin (fabs x) /\ val (fabs x) = Rabs (val x).
Proof.
  intros (F & V). destruct x as [s|s| |s m e]; try discriminate.
  - split; [split; auto|]. unfold val; simpl. now rewrite Rabs_R0.
  - split; [split; auto|]. unfold val; simpl. rewrite <- F2R_Zabs. f_equal. destruct s; reflexivity.
Qed.
Lemma fin_fneg x : fin x -> fin (fneg x) /\ val (fneg x) = - val x.
Proof.
  intros (F & V). destruct x as [s|s| |s m e]; try discriminate.
  - split; [split; auto|]. unfold val; simpl. lra.
  - split; [split; auto|]. unfold val; simpl. rewrite <- F2R_Zopp. f_equal. destruct s; reflexivity.
Qed.

(** ---- rounding ---- *)
Global Instance fexp64_valid : Valid_exp (SpecFloat.fexp 53 1024).
Proof. exact (@FLT_exp_valid (SpecFloat.emin 53 1024) 53 Hprec64). Qed.
Lemma rnd_le r1 r2 : r1 <= r2 -> rnd r1 <= rnd r2.
Proof. intros H. apply round_le; auto; typeclasses eauto. Qed.
Lemma rnd_0 : rnd 0 = 0.
Proof. apply round_0. typeclasses eauto. Qed.
Lemma rnd_pos r : 0 <= r -> 0 <= rnd r.
Proof. intros H. rewrite <- rnd_0. now apply rnd_le. Qed.
Lemma rnd_opp r : rnd (- r) = - rnd r.
Proof. unfold rnd. apply round_NE_opp. Qed.
Lemma rnd_abs_le r b : rnd b = b -> Rabs r <= b -> Rabs (rnd r) <= b.
Proof.
  intros Hb H. apply Rabs_le_inv in H as (H1 & H2). apply Rabs_le. split.
  - rewrite <- Hb, <- rnd_opp. now apply rnd_le.
  - rewrite <- Hb. now apply rnd_le.
Qed.

(** integers of at most 53 bits are exact *)
Lemma rnd_int z : (Z.abs z <= 2 ^ 53)%Z -> rnd (IZR z) = IZR z.
Proof.
  intros H. unfold rnd. apply round_generic; [typeclasses eauto|].
  destruct (Z.eq_dec (Z.abs z) (2 ^ 53)) as [E|E].
  - assert (G : generic_format radix2 (SpecFloat.fexp 53 1024) (bpow radix2 53)).
    { apply generic_format_bpow. unfold SpecFloat.fexp, SpecFloat.emin. lia. }
    assert (E2 : IZR (Z.abs z) = bpow radix2 53) by (rewrite E; reflexivity).
    destruct (Z_le_gt_dec 0 z).
    + rewrite Z.abs_eq in E2 by lia. rewrite E2. exact G.
    + rewrite Z.abs_neq in E2 by lia. rewrite opp_IZR in E2.
      replace (IZR z) with (- bpow radix2 53) by lra. now apply generic_format_opp.
  - apply (generic_format_FLT radix2 (SpecFloat.emin 53 1024) 53).
    exists (Float radix2 z 0); simpl.
    + unfold F2R; simpl. lra.
    + lia.
    + unfold SpecFloat.emin. lia.
Qed.

Lemma f_of_Z_correct z : Rabs (rnd (IZR z)) < big ->
  fin (f_of_Z z) /\ val (f_of_Z z) = rnd (IZR z).
Proof.
  intros H.
  assert (E : f_of_Z z = SpecFloat.binary_normalize 53 1024 z 0 false).
  { destruct z; try reflexivity. }
  rewrite E, binary_normalize_equiv.
  pose proof (binary_normalize_correct 53 1024 Hprec64 Hmax64 mode_NE z 0 false) as P.
  assert (EF : F2R (Float radix2 z 0) = IZR z) by (unfold F2R; simpl; lra).
  rewrite EF in P. cbv zeta in P. unfold rnd, big in H. rewrite Rlt_bool_true in P by exact H.
  destruct P as (P1 & P2 & _). destruct (B_fin _ P2) as (P3 & P4). split; auto. rewrite P4. exact P1.
Qed.

Lemma int_lt_big z : (Z.abs z <= 2 ^ 53)%Z -> Rabs (IZR z) < big.
Proof.
  intros H. rewrite <- abs_IZR. unfold big.
  apply Rle_lt_trans with (IZR (2 ^ 53)); [now apply IZR_le|].
  change (IZR (2 ^ 53)) with (bpow radix2 53). apply bpow_lt. lia.
Qed.
Lemma f_of_Z_exact z : (Z.abs z <= 2 ^ 53)%Z -> fin (f_of_Z z) /\ val (f_of_Z z) = IZR z.
Proof.
  intros H. rewrite <- (rnd_int z H) at 1. apply f_of_Z_correct. rewrite rnd_int by auto. now apply int_lt_big.
Qed.
