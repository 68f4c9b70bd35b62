(** Rounding errors of the rotation matrix and of the comparison of matrices. *)
From Coq Require Import Reals Psatz.
From Flocq Require Import Core.
From Verif Require Import F64 F64R Model_text Proof_text2 Model_par Spec_par Base.
From Verif Require Spec_geo Model_geo Proof_geo.
Local Open Scope R_scope.

Lemma rnd_err r e : Rabs r <= bpow radix2 e -> (-1000 <= e)%Z -> Rabs (rnd r - r) <= / 2 * bpow radix2 (e - 52).
Proof.
  intros H E. eapply Rle_trans; [unfold rnd; apply error_le_half_ulp; typeclasses eauto|].
  apply Rmult_le_compat_l; [lra|].
  assert (M : Monotone_exp (SpecFloat.fexp 53 1024)) by exact (FLT_exp_monotone (SpecFloat.emin 53 1024) 53).
  apply Rle_trans with (ulp radix2 (SpecFloat.fexp 53 1024) (bpow radix2 e)).
  - apply ulp_le; [typeclasses eauto|exact M|]. rewrite (Rabs_pos_eq (bpow _ _)) by apply bpow_ge_0. exact H.
  - rewrite ulp_bpow. apply bpow_le. unfold SpecFloat.fexp, SpecFloat.emin. lia.
Qed.
Definition u53 : R := / 9007199254740992.
Lemma err1 r : Rabs r <= 1 -> Rabs (rnd r - r) <= u53.
Proof. intros H. pose proof (rnd_err r 0 H ltac:(lia)) as E. cbn in E. unfold u53. lra. Qed.
Lemma err2 r : Rabs r <= 2 -> Rabs (rnd r - r) <= 2 * u53.
Proof. intros H. pose proof (rnd_err r 1 H ltac:(lia)) as E. cbn in E. unfold u53. lra. Qed.
Lemma err4 r : Rabs r <= 4 -> Rabs (rnd r - r) <= 4 * u53.
Proof. intros H. pose proof (rnd_err r 2 H ltac:(lia)) as E. cbn in E. unfold u53. lra. Qed.
Lemma u53_pos : 0 < u53. Proof. unfold u53. lra. Qed.
Lemma small_big r z : Rabs r <= IZR z -> (0 <= z <= 2 ^ 53)%Z -> Rabs (rnd r) < big.
Proof.
  intros H Z. apply Rle_lt_trans with (IZR z).
  - apply rnd_abs_le; [apply rnd_int; lia|exact H].
  - pose proof (int_lt_big z ltac:(lia)) as B. rewrite Rabs_pos_eq in B by (apply IZR_le; lia). exact B.
Qed.
Definition unitish (x : f64) : Prop := fin x /\ Rabs (val x) <= 1.
Lemma prod_le1 a b : Rabs a <= 1 -> Rabs b <= 1 -> Rabs (a * b) <= 1.
Proof. intros A B. rewrite Rabs_mult. pose proof (Rabs_pos a). pose proof (Rabs_pos b). nra. Qed.
Lemma mul_err x y : unitish x -> unitish y -> unitish (fmul x y) /\ Rabs (val (fmul x y) - val x * val y) <= u53.
Proof.
  intros (F & A) (G & B). pose proof (prod_le1 _ _ A B) as P.
  destruct (fmul_correct x y F G) as (V & R); [apply (small_big _ 1 P); lia|]. rewrite R. split; [|now apply err1].
  split; [exact V|]. rewrite R. apply rnd_abs_le; [apply (rnd_int 1); cbn; lia|exact P].
Qed.
Lemma add_err x y : unitish x -> unitish y -> fin (fadd x y) /\ Rabs (val (fadd x y) - (val x + val y)) <= 2 * u53.
Proof.
  intros (F & A) (G & B). assert (P : Rabs (val x + val y) <= 2) by (eapply Rle_trans; [apply Rabs_triang|lra]).
  destruct (fadd_correct x y F G) as (V & R); [apply (small_big _ 2 P); lia|]. rewrite R. split; [exact V|now apply err2].
Qed.
Lemma sub_err x y : unitish x -> unitish y -> fin (fsub x y) /\ Rabs (val (fsub x y) - (val x - val y)) <= 2 * u53.
Proof.
  intros (F & A) (G & B). assert (P : Rabs (val x - val y) <= 2) by (unfold Rminus; eapply Rle_trans; [apply Rabs_triang|rewrite Rabs_Ropp; lra]).
  destruct (fsub_correct x y F G) as (V & R); [apply (small_big _ 2 P); lia|]. rewrite R. split; [exact V|now apply err2].
Qed.
Lemma neg_unit x : unitish x -> unitish (fneg x) /\ val (fneg x) = - val x.
Proof. intros (F & A). destruct (fin_fneg x F) as (G & V). split; [split; [exact G|rewrite V, Rabs_Ropp; exact A]|exact V]. Qed.

(** approximate products over the reals *)
Definition near (d a b : R) : Prop := Rabs (a - b) <= d.
Lemma near_mul d e a b A B : near d a A -> near e b B -> Rabs a <= 1 -> Rabs B <= 1 -> near (d + e) (a * b) (A * B).
Proof.
  unfold near. intros H K LA LB. replace (a * b - A * B) with ((a - A) * B + a * (b - B)) by ring.
  eapply Rle_trans; [apply Rabs_triang|]. rewrite !Rabs_mult. pose proof (Rabs_pos (a - A)). pose proof (Rabs_pos (b - B)). pose proof (Rabs_pos a). pose proof (Rabs_pos B). nra.
Qed.
Lemma near_add d e a b A B : near d a A -> near e b B -> near (d + e) (a + b) (A + B).
Proof. unfold near. intros H K. replace (a + b - (A + B)) with ((a - A) + (b - B)) by ring. eapply Rle_trans; [apply Rabs_triang|lra]. Qed.
Lemma near_opp d a A : near d a A -> near d (- a) (- A).
Proof. unfold near. intros H. replace (- a - - A) with (- (a - A)) by ring. now rewrite Rabs_Ropp. Qed.
Lemma near_trans d e a b c : near d a b -> near e b c -> near (d + e) a c.
Proof. unfold near. intros H K. replace (a - c) with ((a - b) + (b - c)) by ring. eapply Rle_trans; [apply Rabs_triang|lra]. Qed.
Lemma near_le d e a b : near d a b -> d <= e -> near e a b.
Proof. unfold near. intros; lra. Qed.

(** f approximates the value r *)
Definition appr (d : R) (f : f64) (r : R) : Prop := unitish f /\ Rabs r <= 1 /\ near d (val f) r.
Lemma appr_mul d e f g a b : appr d f a -> appr e g b -> appr (d + e + u53) (fmul f g) (a * b).
Proof.
  intros (U & A & N) (W & B & M). destruct (mul_err f g U W) as (P & E). split; [exact P|]. split; [now apply prod_le1|].
  eapply near_le; [eapply near_trans; [exact E|]|]; [|instantiate (1 := d + e); lra]. apply near_mul; auto. apply U.
Qed.
Lemma appr_neg d f a : appr d f a -> appr d (fneg f) (- a).
Proof. intros (U & A & N). destruct (neg_unit f U) as (P & E). split; [exact P|]. split; [now rewrite Rabs_Ropp|]. rewrite E. now apply near_opp. Qed.
Definition good (d : R) (f : f64) (r : R) : Prop := fin f /\ Rabs (val f - r) <= d.
Lemma appr_good d e f r : appr d f r -> d <= e -> good e f r.
Proof. intros ((F & _) & _ & N) L. split; [exact F|]. unfold near in N. lra. Qed.
Lemma appr_add d e f g a b : appr d f a -> appr e g b -> good (d + e + 2 * u53) (fadd f g) (a + b).
Proof.
  intros (U & A & N) (W & B & M). destruct (add_err f g U W) as (P & E). split; [exact P|].
  pose proof (near_trans _ _ _ _ _ E (near_add _ _ _ _ _ _ N M)) as Q. unfold near in Q. lra.
Qed.
Lemma appr_sub d e f g a b : appr d f a -> appr e g b -> good (d + e + 2 * u53) (fsub f g) (a - b).
Proof.
  intros (U & A & N) (W & B & M). destruct (sub_err f g U W) as (P & E). split; [exact P|].
  pose proof (near_trans _ _ _ _ _ E (near_add _ _ _ _ _ _ N (near_opp _ _ _ M))) as Q. unfold near in Q. unfold Rminus in *. lra.
Qed.
Lemma good_le d e f r r' : good d f r -> d <= e -> r = r' -> good e f r'.
Proof. intros (F & H) L <-. split; [exact F|lra]. Qed.

Lemma trig_sin fsin fcos d x : trig_ok fsin fcos d x -> appr d (fsin x) (sin (val x)).
Proof. intros (A & B & C & D & E & F). split; [split; assumption|]. split; [|exact E]. apply Rabs_le. pose proof (SIN_bound (val x)). lra. Qed.
Lemma trig_cos fsin fcos d x : trig_ok fsin fcos d x -> appr d (fcos x) (cos (val x)).
Proof. intros (A & B & C & D & E & F). split; [split; assumption|]. split; [|exact F]. apply Rabs_le. pose proof (COS_bound (val x)). lra. Qed.
Lemma frotation_near fsin fcos omega phi kappa d : 0 <= d -> trig_ok fsin fcos d omega -> trig_ok fsin fcos d phi -> trig_ok fsin fcos d kappa ->
  Forall2 (Forall2 (fun x r => fin x /\ Rabs (val x - r) <= 5 * d + / 2 ^ 50)) (frotation fsin fcos omega phi kappa)
    (entries (Spec_geo.mmul (Spec_geo.mmul (Spec_geo.rot_x (val omega)) (Spec_geo.rot_y (val phi))) (Spec_geo.rot_z (val kappa)))).
Proof.
  intros D TO TP TK.
  pose proof (trig_sin _ _ _ _ TO) as so. pose proof (trig_cos _ _ _ _ TO) as co. pose proof (trig_sin _ _ _ _ TP) as sp. pose proof (trig_cos _ _ _ _ TP) as cp.
  pose proof (trig_sin _ _ _ _ TK) as sk. pose proof (trig_cos _ _ _ _ TK) as ck.
  assert (U : 8 * u53 = / 2 ^ 50) by (unfold u53; lra). pose proof u53_pos as UP. rewrite <- U.
  unfold frotation, entries, Spec_geo.mmul, Spec_geo.rot_x, Spec_geo.rot_y, Spec_geo.rot_z, Model_geo.col1, Model_geo.col2, Model_geo.col3, Model_geo.dot. cbn [map Model_geo.row1 Model_geo.row2 Model_geo.row3 Model_geo.vx Model_geo.vy Model_geo.vz].
  assert (K : forall f r r' e, good e f r -> e <= 5 * d + 8 * u53 -> r = r' -> fin f /\ Rabs (val f - r') <= 5 * d + 8 * u53).
  { intros f r r' e G L E. exact (good_le _ _ _ _ _ G L E). }
  repeat (apply Forall2_cons; [|]); try apply Forall2_nil.
  - eapply K; [eapply appr_good; [apply (appr_mul _ _ _ _ _ _ cp ck)|apply Rle_refl]|lra|ring].
  - eapply K; [eapply appr_good; [apply (appr_mul _ _ _ _ _ _ (appr_neg _ _ _ cp) sk)|apply Rle_refl]|lra|ring].
  - eapply K; [eapply appr_good; [exact sp|apply Rle_refl]|lra|ring].
  - eapply K; [apply (appr_add _ _ _ _ _ _ (appr_mul _ _ _ _ _ _ co sk) (appr_mul _ _ _ _ _ _ (appr_mul _ _ _ _ _ _ so sp) ck))|lra|ring].
  - eapply K; [apply (appr_sub _ _ _ _ _ _ (appr_mul _ _ _ _ _ _ co ck) (appr_mul _ _ _ _ _ _ (appr_mul _ _ _ _ _ _ so sp) sk))|lra|ring].
  - eapply K; [eapply appr_good; [apply (appr_mul _ _ _ _ _ _ (appr_neg _ _ _ so) cp)|apply Rle_refl]|lra|ring].
  - eapply K; [apply (appr_sub _ _ _ _ _ _ (appr_mul _ _ _ _ _ _ so sk) (appr_mul _ _ _ _ _ _ (appr_mul _ _ _ _ _ _ co sp) ck))|lra|ring].
  - eapply K; [apply (appr_add _ _ _ _ _ _ (appr_mul _ _ _ _ _ _ so ck) (appr_mul _ _ _ _ _ _ (appr_mul _ _ _ _ _ _ co sp) sk))|lra|ring].
  - eapply K; [eapply appr_good; [apply (appr_mul _ _ _ _ _ _ co cp)|apply Rle_refl]|lra|ring].
Qed.

(** np.allclose(atol = 1e-6, rtol = 1e-5) on numbers of size at most 2 *)
Lemma dec_near k : (k = 5 \/ k = 6)%nat -> fin (f_of_dec false 1 (Z.of_nat k)) /\ Rabs (val (f_of_dec false 1 (Z.of_nat k)) - / pow10 k) <= u53 /\ 0 <= val (f_of_dec false 1 (Z.of_nat k)) <= 1.
Proof.
  intros K. assert (P : 0 <= 1 / pow10 k <= 1). { unfold pow10. destruct K as [-> | ->]; cbn; lra. }
  destruct (f_of_dec_correct false 1 k) as (F & V & S); [lia|apply (small_big _ 1); [rewrite Rabs_pos_eq by lra; lra|lia]|].
  assert (V0 : 0 <= val (f_of_dec false 1 (Z.of_nat k))).
  { revert S F. generalize (f_of_dec false 1 (Z.of_nat k)). intros [s|s| |s m e] S F; cbn in S; subst; unfold val; cbn; try lra. apply F2R_ge_0. cbn. lia. }
  rewrite Rabs_pos_eq in V by exact V0. split; [exact F|]. rewrite V in *. split.
  - replace (/ pow10 k) with (1 / pow10 k) by (unfold Rdiv; ring). apply err1. rewrite Rabs_pos_eq; lra.
  - split; [apply rnd_pos; lra|]. apply Rle_trans with (Rabs (rnd (1 / pow10 k))); [apply Rle_abs|]. apply (rnd_abs_le _ 1); [apply (rnd_int 1); cbn; lia|]. rewrite Rabs_pos_eq; lra.
Qed.
Lemma close_spec x y : fin x -> fin y -> Rabs (val x) <= 2 -> Rabs (val y) <= 2 ->
  (Rabs (val x - val y) <= / 1000000 + Rabs (val y) / 100000 - / 10 ^ 14 -> close x y = true) /\
  (close x y = true -> Rabs (val x - val y) <= / 1000000 + Rabs (val y) / 100000 + / 10 ^ 14).
Proof.
  intros F G A B.
  destruct (dec_near 6 ltac:(now right)) as (F6 & E6 & R6). destruct (dec_near 5 ltac:(now left)) as (F5 & E5 & R5).
  change (Z.of_nat 6) with 6%Z in *. change (Z.of_nat 5) with 5%Z in *.
  assert (P6 : / pow10 6 = / 1000000) by (unfold pow10; cbn; lra). assert (P5 : / pow10 5 = / 100000) by (unfold pow10; cbn; lra).
  rewrite P6 in E6. rewrite P5 in E5.
  destruct (fin_fabs y G) as (GY & VY).
  assert (S4 : Rabs (val x - val y) <= 4) by (unfold Rminus; eapply Rle_trans; [apply Rabs_triang|rewrite Rabs_Ropp; lra]).
  destruct (fsub_correct x y F G ltac:(apply (small_big _ 4 S4); lia)) as (FD & VD). pose proof (err4 _ S4) as ED. rewrite <- VD in ED.
  destruct (fin_fabs _ FD) as (FA & VA).
  set (t5 := f_of_dec false 1 5) in *. set (t6 := f_of_dec false 1 6) in *.
  assert (UP := u53_pos). assert (US : u53 <= / 10 ^ 15) by (unfold u53; lra).
  assert (ay := Rabs_pos (val y)).
  assert (M2 : Rabs (val t5 * val (fabs y)) <= 2) by (rewrite VY, Rabs_mult, Rabs_Rabsolu, Rabs_pos_eq by lra; nra).
  destruct (fmul_correct t5 (fabs y) F5 GY ltac:(apply (small_big _ 2 M2); lia)) as (FM & VM). pose proof (err2 _ M2) as EM. rewrite <- VM in EM.
  assert (MV : Rabs (val (fmul t5 (fabs y))) <= 2) by (rewrite VM; apply rnd_abs_le; [apply (rnd_int 2); cbn; lia|exact M2]).
  assert (S3 : Rabs (val t6 + val (fmul t5 (fabs y))) <= 4) by (eapply Rle_trans; [apply Rabs_triang|rewrite (Rabs_pos_eq (val t6)) by lra; lra]).
  destruct (fadd_correct t6 (fmul t5 (fabs y)) F6 FM ltac:(apply (small_big _ 4 S3); lia)) as (FS & VS). pose proof (err4 _ S3) as ES. rewrite <- VS in ES.
  assert (FC : match y with S754_finite _ _ _ | S754_zero _ => true | _ => false end = true) by (destruct G as (G & _); destruct y; cbn in G |- *; congruence).
  assert (LE : fle (fabs (fsub x y)) (fadd t6 (fmul t5 (fabs y))) = Rle_bool (val (fabs (fsub x y))) (val (fadd t6 (fmul t5 (fabs y))))) by (now apply fle_correct).
  assert (BND : Rabs (val (fadd t6 (fmul t5 (fabs y))) - (/ 1000000 + Rabs (val y) / 100000)) <= 9 * u53).
  { rewrite VY in EM. assert (H5 : Rabs (val t5 * Rabs (val y) - / 100000 * Rabs (val y)) <= 2 * u53).
    { replace (val t5 * Rabs (val y) - / 100000 * Rabs (val y)) with ((val t5 - / 100000) * Rabs (val y)) by ring. rewrite Rabs_mult, Rabs_Rabsolu. pose proof (Rabs_pos (val t5 - / 100000)). nra. }
    apply Rabs_le_inv in H5. apply Rabs_le_inv in EM. apply Rabs_le_inv in ES. apply Rabs_le_inv in E6. apply Rabs_le. unfold Rdiv. lra. }
  assert (DD : Rabs (Rabs (val (fsub x y)) - Rabs (val x - val y)) <= 4 * u53) by (eapply Rle_trans; [apply Rabs_triang_inv2|exact ED]).
  apply Rabs_le_inv in BND. apply Rabs_le_inv in DD. rewrite VA in LE.
  assert (U14 : 13 * u53 <= / 10 ^ 14) by (unfold u53; lra). generalize dependent (/ 10 ^ 14). intros e14 U14.
  unfold close. fold t5 t6. rewrite FC, LE. split.
  - intros H. assert (Q : Rle_bool (Rabs (val (fsub x y))) (val (fadd t6 (fmul t5 (fabs y)))) = true) by (apply Rle_bool_true; lra). rewrite Q. reflexivity.
  - intros H. apply Bool.orb_true_iff in H. destruct H as [H|H].
    + apply Bool.andb_true_iff in H. destruct H as (_ & H). destruct (Rle_bool_spec (Rabs (val (fsub x y))) (val (fadd t6 (fmul t5 (fabs y))))); [lra|discriminate].
    + rewrite feq_correct in H by assumption. destruct (Req_bool_spec (val x) (val y)) as [Q|]; [|discriminate]. rewrite Q, Rminus_diag_eq, Rabs_R0 by reflexivity. unfold Rdiv. lra.
Qed.
