(** Fixed-point printing and reading back: value, error and stability. *)
From Coq Require Import Reals Psatz.
From Flocq Require Import Core.Core IEEE754.BinarySingleNaN.
From Verif Require Import F64 F64R Model_text Proof_text Base.
Local Open Scope R_scope.

Definition pow10 (k : nat) : R := IZR (10 ^ Z.of_nat k).
Lemma pow10_gt k : 0 < pow10 k.
Proof. unfold pow10. apply IZR_lt. apply pow10_pos. Qed.

(** round half even *)
Lemma near_tie_up q : ZnearestE (IZR q + / 2) = if Z.even q then q else (q + 1)%Z.
Proof.
  unfold Znearest. assert (F : Zfloor (IZR q + / 2) = q) by (apply Zfloor_imp; rewrite plus_IZR; lra). rewrite F.
  rewrite Rcompare_Eq by lra. rewrite Zceil_floor_neq by (rewrite F; lra). rewrite F. now destruct (Z.even q).
Qed.
Lemma near_tie_even y q : Rabs (y - IZR q) = / 2 -> (ZnearestE y = q <-> Z.even q = true).
Proof.
  intros H. assert (E : y = IZR q + / 2 \/ y = IZR (q - 1) + / 2) by (rewrite minus_IZR; unfold Rabs in H; destruct (Rcase_abs _); lra).
  destruct E as [->| ->]; rewrite near_tie_up.
  - destruct (Z.even q); split; intros; try reflexivity; try lia; discriminate.
  - replace (Z.even (q - 1)) with (negb (Z.even q)).
    + destruct (Z.even q); cbn [negb]; split; intros; try reflexivity; try lia; discriminate.
    + rewrite Z.even_sub. destruct (Z.even q); reflexivity.
Qed.
Lemma rhe_near a b : (0 < b)%Z -> rhe a b = ZnearestE (IZR a / IZR b).
Proof.
  intros B. unfold rhe. assert (BR : 0 < IZR b) by (now apply IZR_lt). assert (F : Zfloor (IZR a / IZR b) = (a / b)%Z) by (apply Zfloor_div; lia).
  pose proof (Z.div_mod a b ltac:(lia)) as DM. pose proof (Z.mod_pos_bound a b B) as MB.
  assert (D : IZR a / IZR b - IZR (a / b) = IZR (a mod b) / IZR b).
  { rewrite DM at 1. rewrite plus_IZR, mult_IZR. field. lra. }
  unfold Znearest. rewrite F, D.
  assert (C : Rcompare (IZR (a mod b) / IZR b) (/ 2) = (2 * (a mod b) ?= b)%Z).
  { destruct (Z.compare_spec (2 * (a mod b)) b) as [E|L|L].
    - apply Rcompare_Eq. apply (f_equal IZR) in E. rewrite mult_IZR in E. apply Rmult_eq_reg_r with (IZR b); [|lra]. field_simplify; lra.
    - apply Rcompare_Lt. apply IZR_lt in L. rewrite mult_IZR in L. apply Rmult_lt_reg_r with (IZR b); [lra|]. field_simplify; lra.
    - apply Rcompare_Gt. apply IZR_lt in L. rewrite mult_IZR in L. apply Rmult_lt_reg_r with (IZR b); [lra|]. field_simplify; lra. }
  rewrite C. destruct (Z.compare_spec (2 * (a mod b)) b) as [E|L|L]; [| reflexivity |].
  - rewrite Zceil_floor_neq; [rewrite F; now destruct (Z.even (a / b))|]. rewrite F. intros H. assert (Z0 : IZR (a mod b) / IZR b = 0) by lra.
    assert (a mod b = 0)%Z; [|lia]. apply eq_IZR. apply Rmult_eq_reg_r with (/ IZR b); [|apply Rinv_neq_0_compat; lra]. unfold Rdiv in Z0. lra.
  - rewrite Zceil_floor_neq; [now rewrite F|]. rewrite F. intros H. assert (Z0 : IZR (a mod b) / IZR b = 0) by lra.
    assert (a mod b = 0)%Z; [|lia]. apply eq_IZR. apply Rmult_eq_reg_r with (/ IZR b); [|apply Rinv_neq_0_compat; lra]. unfold Rdiv in Z0. lra.
Qed.

(** a number that is not infinite and not NaN *)
Definition isfin (x : f64) : Prop := is_finite_SF x = true.
Lemma val_abs s m e : Rabs (val (S754_finite s m e)) = IZR (Zpos m) * bpow radix2 e.
Proof. unfold val. cbn [SF2R]. rewrite <- F2R_Zabs. rewrite abs_cond_Zopp. reflexivity. Qed.
Lemma val_sign x : isfin x -> val x = (if fsign x then - Rabs (val x) else Rabs (val x)).
Proof.
  intros H. destruct x as [s|s| |s m e]; try discriminate.
  - unfold val. cbn. rewrite Rabs_R0. destruct s; lra.
  - rewrite val_abs. unfold val. cbn [SF2R fsign]. destruct s; unfold F2R; cbn [Fnum Fexp SpecFloat.cond_Zopp]; [|reflexivity].
    change (Z.neg m) with (- Z.pos m)%Z. rewrite opp_IZR. ring.
Qed.
Lemma bpow_IZR e : (0 <= e)%Z -> bpow radix2 e = IZR (2 ^ e).
Proof. intros H. now rewrite <- (IZR_Zpower radix2). Qed.
Lemma near_int z : ZnearestE (IZR z) = z.
Proof. apply Znearest_imp. unfold Rminus. rewrite Rplus_opp_r, Rabs_R0. lra. Qed.
Lemma scaled_near k x : isfin x -> scaled k x = ZnearestE (Rabs (val x) * pow10 k).
Proof.
  intros H. destruct x as [s|s| |s m e]; try discriminate.
  - cbn [scaled]. unfold val. cbn [SF2R]. rewrite Rabs_R0, Rmult_0_l. symmetry. apply (near_int 0).
  - rewrite val_abs. cbn [scaled]. unfold pow10. destruct (Z.leb_spec 0 e) as [L|L].
    + rewrite bpow_IZR by assumption. rewrite <- !mult_IZR. now rewrite near_int.
    + rewrite rhe_near by (apply Z.pow_pos_nonneg; lia). f_equal. rewrite mult_IZR.
      replace (bpow radix2 e) with (/ IZR (2 ^ (- e))); [|rewrite <- bpow_IZR by lia; rewrite bpow_opp; now rewrite Rinv_inv].
      unfold Rdiv. ring.
Qed.

(** the value of a decimal literal *)
Lemma f_of_dec_correct s n k : (0 <= n)%Z -> Rabs (rnd (IZR n / pow10 k)) < big ->
  fin (f_of_dec s n (Z.of_nat k)) /\ Rabs (val (f_of_dec s n (Z.of_nat k))) = rnd (IZR n / pow10 k) /\ fsign (f_of_dec s n (Z.of_nat k)) = s.
Proof.
  intros N B. destruct n as [|p|p]; [| |lia].
  - cbn [f_of_dec]. split; [split; reflexivity|]. split; [|reflexivity]. unfold val. cbn [SF2R]. unfold Rdiv. rewrite Rmult_0_l, rnd_0. apply Rabs_R0.
  - unfold f_of_dec. destruct (Z.leb_spec 0 (Z.of_nat k)) as [_|L]; [|lia]. pose proof (pow10_pos k) as PK. unfold pow10 in *.
    destruct (10 ^ Z.of_nat k)%Z as [|q|q] eqn:E; try lia. clear E PK.
    pose proof (Bdiv_correct_aux 53 1024 Hprec64 Hmax64 mode_NE s p 0 false q 0) as H. cbv zeta in H. destruct H as (V & H).
    assert (Q : F2R (Float radix2 (SpecFloat.cond_Zopp s (Z.pos p)) 0) / F2R (Float radix2 (SpecFloat.cond_Zopp false (Z.pos q)) 0)
      = (if s then - (IZR (Z.pos p) / IZR (Z.pos q)) else IZR (Z.pos p) / IZR (Z.pos q))).
    { unfold F2R. cbn [Fnum Fexp bpow]. destruct s; cbn [SpecFloat.cond_Zopp Z.opp]; [|field; apply not_0_IZR; lia].
      change (Z.neg p) with (- Z.pos p)%Z. rewrite opp_IZR. field. apply not_0_IZR. lia. }
    rewrite Q in H. change (round_mode mode_NE) with ZnearestE in H.
    assert (PP : 0 <= IZR (Z.pos p) / IZR (Z.pos q)). { apply Rmult_le_pos; [apply IZR_le; lia|]. apply Rlt_le, Rinv_0_lt_compat, IZR_lt. lia. }
    assert (RR : round radix2 (SpecFloat.fexp 53 1024) ZnearestE (if s then - (IZR (Z.pos p) / IZR (Z.pos q)) else IZR (Z.pos p) / IZR (Z.pos q))
      = (if s then - rnd (IZR (Z.pos p) / IZR (Z.pos q)) else rnd (IZR (Z.pos p) / IZR (Z.pos q)))).
    { fold (rnd (if s then - (IZR (Z.pos p) / IZR (Z.pos q)) else IZR (Z.pos p) / IZR (Z.pos q))). destruct s; [apply rnd_opp|reflexivity]. }
    rewrite RR in H. rewrite Rlt_bool_true in H by (destruct s; [rewrite Rabs_Ropp|]; exact B). destruct H as (HV & HF & HS). rewrite xorb_false_r in *.
    assert (FD : fdiv (S754_finite s p 0) (S754_finite false q 0) =
      (let '(mz, ez, lz) := SpecFloat.SFdiv_core_binary 53 1024 (Z.pos p) 0 (Z.pos q) 0 in BinarySingleNaN.binary_round_aux 53 1024 mode_NE s mz ez lz)).
    { unfold fdiv, prec64, emax64. cbn [SFdiv]. destruct (SpecFloat.SFdiv_core_binary _ _ _ _ _ _) as [[mz ez] lz]. rewrite xorb_false_r. apply binary_round_aux_equiv. }
    rewrite FD. clear FD. destruct (SpecFloat.SFdiv_core_binary 53 1024 (Z.pos p) 0 (Z.pos q) 0) as [[mz ez] lz].
    split; [split; assumption|]. split.
    + unfold val. rewrite HV. destruct s; [rewrite Rabs_Ropp|]; apply Rabs_pos_eq, rnd_pos; exact PP.
    + destruct (BinarySingleNaN.binary_round_aux _ _ _ _ _ _ _) as [s'|s'| |s' m' e']; cbn [is_finite_SF sign_SF fsign] in HF, HS |- *; [exact HS|discriminate HF|discriminate HF|exact HS].
Qed.

Lemma fin_isfin x : fin x -> isfin x.
Proof. now intros []. Qed.
Lemma fin_format x : fin x -> generic_format radix2 (SpecFloat.fexp 53 1024) (val x).
Proof. intros H. destruct (fin_B x H) as (b & <- & _ & E). rewrite <- E. apply generic_format_B2R. Qed.
#[local] Instance vexp : Valid_exp (SpecFloat.fexp 53 1024) := @fexp_correct 53 1024 Hprec64.
Lemma rnd_near d g : generic_format radix2 (SpecFloat.fexp 53 1024) g -> Rabs (rnd d - d) <= Rabs (g - d).
Proof. intros G. unfold rnd. destruct (round_N_pt radix2 (SpecFloat.fexp 53 1024) (fun x => negb (Z.even x)) d) as [_ H]. apply H. exact G. Qed.
Lemma fin_big x : fin x -> Rabs (val x) <= bpow radix2 1024 - bpow radix2 (1024 - 53).
Proof. intros H. destruct (fin_B x H) as (b & <- & _ & E). rewrite <- E. apply abs_B2R_le_emax_minus_prec. exact Hprec64. Qed.

Section One.
Variables (k : nat) (x : f64).
Hypothesis F : fin x.
Let a := Rabs (val x).
Let q := scaled k x.
Let d := IZR q / pow10 k.
Lemma q_near : q = ZnearestE (a * pow10 k).
Proof. apply scaled_near. now apply fin_isfin. Qed.
Lemma dec_half : Rabs (a - d) <= / 2 / pow10 k.
Proof.
  pose proof (pow10_gt k) as P. pose proof (Znearest_half (fun z => negb (Z.even z)) (a * pow10 k)) as H. rewrite <- q_near in H.
  replace (a - d) with ((a * pow10 k - IZR q) / pow10 k) by (unfold d; field; lra). unfold Rdiv at 1. rewrite Rabs_mult, (Rabs_pos_eq (/ pow10 k)).
  - apply Rmult_le_compat_r; [apply Rlt_le, Rinv_0_lt_compat; lra|exact H].
  - apply Rlt_le, Rinv_0_lt_compat; lra.
Qed.
Lemma a_format : generic_format radix2 (SpecFloat.fexp 53 1024) a.
Proof. apply generic_format_abs. now apply fin_format. Qed.
Lemma q_pos : (0 <= q)%Z. Proof. apply scaled_nonneg. Qed.
Lemma d_pos : 0 <= d.
Proof. unfold d. apply Rmult_le_pos; [apply IZR_le, q_pos|]. apply Rlt_le, Rinv_0_lt_compat, pow10_gt. Qed.
Lemma a_lim : 0 <= a <= bpow radix2 1024 - bpow radix2 (1024 - 53).
Proof. split; [apply Rabs_pos|]. now apply fin_big. Qed.
Lemma back_big : Rabs (rnd d) < big.
Proof.
  pose proof dec_half as H. pose proof a_lim as A. pose proof (rnd_near d a a_format) as N. unfold big. rewrite (Rabs_pos_eq (rnd d)) by apply rnd_pos, d_pos.
  assert (K : / 2 / pow10 k <= / 2).
  { pose proof (pow10_gt k). unfold Rdiv. rewrite <- (Rmult_1_r (/ 2)) at 2. apply Rmult_le_compat_l; [lra|]. rewrite <- Rinv_1. apply Rinv_le_contravar; [lra|].
    unfold pow10. apply IZR_le. pose proof (pow10_pos k). lia. }
  assert (B2 : 2 <= bpow radix2 (1024 - 53)). { change 2 with (bpow radix2 1). apply bpow_le. lia. }
  assert (rnd d - a <= 1); [|lra]. apply Rle_trans with (Rabs (rnd d - d) + Rabs (a - d)); [|lra].
  pose proof (Rle_abs (rnd d - d)). pose proof (Rle_abs (d - a)). rewrite (Rabs_minus_sym d a) in *. lra.
Qed.
Lemma back_correct : fin (read_back k x) /\ Rabs (val (read_back k x)) = rnd d /\ fsign (read_back k x) = fsign x.
Proof.
  assert (E : read_back k x = f_of_dec (fsign x) q (Z.of_nat k)). { destruct F as [I _]. destruct x as [s|s| |s m e]; try discriminate; reflexivity. }
  rewrite E. apply f_of_dec_correct; [apply q_pos|exact back_big].
Qed.
Lemma back_scaled : scaled k (read_back k x) = q.
Proof.
  destruct back_correct as (B1 & B2 & _). rewrite scaled_near by now apply fin_isfin. rewrite B2. pose proof (pow10_gt k) as P.
  set (b := rnd d). pose proof (rnd_near d a a_format) as N. fold b in N.
  assert (S1 : forall u, u * pow10 k - IZR q = (u - d) * pow10 k) by (intros u; unfold d; field; lra).
  assert (S2 : forall u, Rabs (u * pow10 k - IZR q) = Rabs (u - d) * pow10 k) by (intros u; rewrite S1, Rabs_mult, (Rabs_pos_eq (pow10 k)) by lra; reflexivity).
  assert (H1 : Rabs (a * pow10 k - IZR q) <= / 2). { rewrite q_near. apply Znearest_half. }
  assert (H2 : Rabs (b * pow10 k - IZR q) <= Rabs (a * pow10 k - IZR q)). { rewrite !S2. apply Rmult_le_compat_r; lra. }
  destruct (Rle_lt_or_eq_dec _ _ (Rle_trans _ _ _ H2 H1)) as [L|E]; [apply Znearest_imp; exact L|].
  apply near_tie_even; [exact E|]. apply (near_tie_even (a * pow10 k)); [lra|]. symmetry. apply q_near.
Qed.
End One.

(** the text of the number read back is the text read *)
Theorem print_stable k x : x = S754_nan \/ (exists s, x = S754_infinity s) \/ fin x -> print_fixed k (read_back k x) = print_fixed k x.
Proof.
  intros [->|[[s ->]|F]]; [reflexivity|reflexivity|]. destruct (back_correct k x F) as (B1 & _ & B3). pose proof (back_scaled k x F) as S.
  assert (FF : forall y, fin y -> print_fixed k y = (if fsign y then ["-"%char] else []) ++ finite_body k (scaled k y)).
  { intros y [I _]. destruct y; try discriminate; reflexivity. }
  rewrite !FF, B3, S by assumption. reflexivity.
Qed.
Corollary read_back_idem k x : x = S754_nan \/ (exists s, x = S754_infinity s) \/ fin x -> read_back k (read_back k x) = read_back k x.
Proof.
  intros H. pose proof (print_stable k x H) as P. pose proof (parse_print_fixed k (read_back k x)) as A. rewrite P, parse_print_fixed in A. congruence.
Qed.
