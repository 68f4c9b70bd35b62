(** Proofs for C87: round trips, extrapolation, cosines. *)
From Coq Require Import ZArith Reals Psatz.
From Flocq Require Import Core.Core.
From Verif Require Import F64 F64R F64E Model_track Model_f64 Spec_f64 Proof_f64 Base.
Local Open Scope R_scope.

(** ---- round trip ---- *)
Lemma back_quot m D p : bounded m (2 ^ 300) -> fin p -> / 2 ^ 100 <= Rabs (val p) -> Rabs (val m - D * val p) <= (2 * uu + uu * uu) * Rabs (D * val p) + tiny ->
  fin (fdiv m p) /\ Rabs (val (fdiv m p) - D) <= 4 * uu * Rabs D + 3 * T975 /\ Rabs (val (fdiv m p)) <= 2 ^ 401.
Proof.
  intros M F P E. destruct (quot_close m p M F P) as (A & B & _ & C). destruct (p_nz _ P) as (N & _). pose proof (undo _ _ _ N P E) as U. split; [exact A|]. split; [|exact C].
  pose proof (near3 _ _ _ _ _ B U) as T. eapply Rle_trans; [exact T|]. pose proof (abs_near _ _ _ U) as Q. pose proof tiny_T. pose proof T_pos. pose proof (Rabs_pos D).
  clear - Q H H0 H1. set (q := Rabs (val m / val p)) in *. set (d := Rabs D) in *. clearbody q d. unfold uu in *. lra.
Qed.
Lemma scaled_bound v D p : Rabs (v - D * p) <= (2 * uu + uu * uu) * Rabs (D * p) + tiny -> Rabs D <= 2 ^ 101 -> Rabs p <= 2 ^ 100 -> Rabs v <= 2 ^ 300.
Proof.
  intros E B P. pose proof (abs_near _ _ _ E) as N. pose proof (abs_mul _ _ _ _ B P) as M. rewrite <- pow_add in M. change (101 + 100)%nat with 201%nat in M.
  assert (T1 : tiny <= 1). { rewrite tiny_eq. rewrite <- Rinv_1. apply Rinv_le_contravar; [lra|]. change 1 with (2 ^ 0). apply p2_le. lia. }
  assert (O : 1 <= 2 ^ 201) by (change 1 with (2 ^ 0); apply p2_le; lia). pose proof (p2_le 203 300 ltac:(lia)) as L. change (2 ^ 203) with (2 * (2 * 2 ^ 201)) in L.
  pose proof (Rabs_pos (D * p)). set (x := Rabs (D * p)) in *. clearbody x. unfold uu in N. lra.
Qed.
Lemma D_bound x i : Rabs x <= 2 ^ 100 -> (Z.abs i <= 2 ^ 30)%Z -> Rabs (x - IZR i / 2) <= 2 ^ 101 /\ Rabs (IZR i / 2 - x) <= 2 ^ 101.
Proof. intros B I. pose proof (half_bound i I) as H. pose proof (p2_le 29 100 ltac:(lia)). change (2 ^ 101) with (2 * 2 ^ 100). split; [apply (Rle_trans _ _ _ (abs_sub _ _ _ _ B H))|apply (Rle_trans _ _ _ (abs_sub _ _ _ _ H B))]; lra. Qed.
Lemma final_x q x i v : Rabs (q - (x - i / 2)) <= 4 * uu * Rabs (x - i / 2) + 3 * T975 -> Rabs (v - (q + i / 2)) <= uu * Rabs (q + i / 2) -> Rabs (v - x) <= / 2 ^ 50 * (Rabs x + Rabs i) + / 2 ^ 900.
Proof.
  intros A B. pose proof T_900. pose proof T_pos. assert (D : Rabs (x - i / 2) <= Rabs x + Rabs i / 2). { apply abs_sub; [lra|]. unfold Rdiv. rewrite Rabs_mult, (Rabs_pos_eq (/ 2)) by lra. lra. }
  assert (C : Rabs (q + i / 2) <= Rabs x + (4 * uu * Rabs (x - i / 2) + 3 * T975)). { apply abs_near. replace (q + i / 2 - x) with (q - (x - i / 2)) by ring. exact A. }
  assert (E : Rabs (v - x) <= uu * Rabs (q + i / 2) + (4 * uu * Rabs (x - i / 2) + 3 * T975)). { eapply near3; [exact B|]. replace (q + i / 2 - x) with (q - (x - i / 2)) by ring. exact A. }
  eapply Rle_trans; [exact E|]. replace (/ 2 ^ 50) with (8 * uu) by (unfold uu; cbn [pow]; lra). pose proof (Rabs_pos x). pose proof (Rabs_pos i). pose proof (Rabs_pos (x - i / 2)). pose proof (Rabs_pos (q + i / 2)).
  set (ax := Rabs x) in *. set (ai := Rabs i) in *. set (d := Rabs (x - i / 2)) in *. set (s := Rabs (q + i / 2)) in *. set (h := / 2 ^ 900) in *. clearbody ax ai d s h. clear A B E. unfold uu in *. lra.
Qed.
Lemma final_y q y i v : Rabs (q - (i / 2 - y)) <= 4 * uu * Rabs (i / 2 - y) + 3 * T975 -> Rabs (v - (i / 2 - q)) <= uu * Rabs (i / 2 - q) -> Rabs (v - y) <= / 2 ^ 50 * (Rabs y + Rabs i) + / 2 ^ 900.
Proof.
  intros A B. apply (final_x (- q) y i v).
  - replace (- q - (y - i / 2)) with (- (q - (i / 2 - y))) by ring. rewrite Rabs_Ropp, (Rabs_minus_sym y). exact A.
  - replace (- q + i / 2) with (i / 2 - q) by ring. exact B.
Qed.
Lemma round_x x i p : bounded x (2 ^ 100) -> (Z.abs i <= 2 ^ 30)%Z -> bounded p (2 ^ 100) -> / 2 ^ 100 <= Rabs (val p) ->
  within (fadd (fdiv (fmul (fsub x (fhalf i)) p) p) (fhalf i)) (val x) (/ 2 ^ 50 * (Rabs (val x) + Rabs (IZR i)) + / 2 ^ 900).
Proof.
  intros X I P L. destruct (p2m_x x i p X I P) as (F & E). destruct (D_bound (val x) i (proj2 X) I) as (DB & _). pose proof (scaled_bound _ _ _ E DB (proj2 P)) as B.
  destruct (back_quot _ _ p (conj F B) (proj1 P) L E) as (G & Q & QB). destruct (m2p_x _ i G QB I) as (H & V). split; [exact H|]. exact (final_x _ _ _ _ Q V).
Qed.
Lemma round_y y i p : bounded y (2 ^ 100) -> (Z.abs i <= 2 ^ 30)%Z -> bounded p (2 ^ 100) -> / 2 ^ 100 <= Rabs (val p) ->
  within (fsub (fhalf i) (fdiv (fmul (fsub (fhalf i) y) p) p)) (val y) (/ 2 ^ 50 * (Rabs (val y) + Rabs (IZR i)) + / 2 ^ 900).
Proof.
  intros X I P L. destruct (p2m_y y i p X I P) as (F & E). destruct (D_bound (val y) i (proj2 X) I) as (_ & DB). pose proof (scaled_bound _ _ _ E DB (proj2 P)) as B.
  destruct (back_quot _ _ p (conj F B) (proj1 P) L E) as (G & Q & QB). destruct (m2p_y _ i G QB I) as (H & V). split; [exact H|]. exact (final_y _ _ _ _ Q V).
Qed.
(** the back conversion by itself *)
Lemma metric_x x i p : bounded x (2 ^ 100) -> (Z.abs i <= 2 ^ 30)%Z -> bounded p (2 ^ 100) -> / 2 ^ 100 <= Rabs (val p) ->
  within (fadd (fdiv x p) (fhalf i)) (val x / val p + IZR i / 2) (/ 2 ^ 51 * (Rabs (val x / val p) + Rabs (IZR i)) + / 2 ^ 900).
Proof.
  intros (F & X) I (G & P) L. assert (X3 : Rabs (val x) <= 2 ^ 300) by (eapply Rle_trans; [exact X|apply p2_le; lia]). destruct (quot_close x p (conj F X3) G L) as (A & B & _ & C). destruct (m2p_x _ i A C I) as (H & V). split; [exact H|].
  pose proof T_900. pose proof tiny_T. pose proof T_pos. set (q := val (fdiv x p)) in *. set (d := val x / val p) in *. set (v := val (fadd (fdiv x p) (fhalf i))) in *. set (k := IZR i) in *. clearbody q d v k.
  assert (Q : Rabs (q + k / 2) <= Rabs d + uu * Rabs d + tiny + Rabs k / 2). { apply abs_add; [pose proof (abs_near _ _ _ B); lra|]. unfold Rdiv. rewrite Rabs_mult, (Rabs_pos_eq (/ 2)) by lra. lra. }
  replace (/ 2 ^ 51) with (4 * uu) by (unfold uu; cbn [pow]; lra). assert (E : Rabs (v - (d + k / 2)) <= uu * Rabs (q + k / 2) + (uu * Rabs d + tiny)). { eapply near3; [exact V|]. replace (q + k / 2 - (d + k / 2)) with (q - d) by ring. exact B. }
  eapply Rle_trans; [exact E|]. pose proof (Rabs_pos d). pose proof (Rabs_pos k). pose proof (Rabs_pos (q + k / 2)). pose proof tiny_pos. set (h := / 2 ^ 900) in *. clearbody h. clear E B V. unfold uu in *. lra.
Qed.
Lemma metric_y y i p : bounded y (2 ^ 100) -> (Z.abs i <= 2 ^ 30)%Z -> bounded p (2 ^ 100) -> / 2 ^ 100 <= Rabs (val p) ->
  within (fsub (fhalf i) (fdiv y p)) (IZR i / 2 - val y / val p) (/ 2 ^ 51 * (Rabs (val y / val p) + Rabs (IZR i)) + / 2 ^ 900).
Proof.
  intros (F & X) I (G & P) L. assert (X3 : Rabs (val y) <= 2 ^ 300) by (eapply Rle_trans; [exact X|apply p2_le; lia]). destruct (quot_close y p (conj F X3) G L) as (A & B & _ & C). destruct (m2p_y _ i A C I) as (H & V). split; [exact H|].
  pose proof T_900. pose proof tiny_T. pose proof T_pos. set (q := val (fdiv y p)) in *. set (d := val y / val p) in *. set (v := val (fsub (fhalf i) (fdiv y p))) in *. set (k := IZR i) in *. clearbody q d v k.
  assert (Q : Rabs (k / 2 - q) <= Rabs k / 2 + (Rabs d + uu * Rabs d + tiny)). { apply abs_sub; [|pose proof (abs_near _ _ _ B); lra]. unfold Rdiv. rewrite Rabs_mult, (Rabs_pos_eq (/ 2)) by lra. lra. }
  replace (/ 2 ^ 51) with (4 * uu) by (unfold uu; cbn [pow]; lra). assert (E : Rabs (v - (k / 2 - d)) <= uu * Rabs (k / 2 - q) + (uu * Rabs d + tiny)). { eapply near3; [exact V|]. replace (k / 2 - q - (k / 2 - d)) with (- (q - d)) by ring. rewrite Rabs_Ropp. exact B. }
  eapply Rle_trans; [exact E|]. pose proof (Rabs_pos d). pose proof (Rabs_pos k). pose proof (Rabs_pos (k / 2 - q)). pose proof tiny_pos. set (h := / 2 ^ 900) in *. clearbody h. clear E B V. unfold uu in *. lra.
Qed.
Lemma nearest v k : Rabs (v - IZR k) < / 2 -> forall j : Z, j <> k -> Rabs (v - IZR k) < Rabs (v - IZR j).
Proof.
  intros H j N. assert (D : 1 <= Rabs (IZR j - IZR k)). { rewrite <- minus_IZR, <- abs_IZR. apply IZR_le. lia. }
  assert (T : Rabs (IZR j - IZR k) <= Rabs (v - IZR k) + Rabs (v - IZR j)). { replace (IZR j - IZR k) with ((v - IZR k) - (v - IZR j)) by ring. apply abs_sub; lra. } lra.
Qed.

(** ---- extrapolation ---- *)
Lemma by_int x z : bounded x (2 ^ 200) -> (Z.abs z <= 8)%Z -> fin (fmul x (f_of_Z z)) /\ Rabs (val (fmul x (f_of_Z z)) - val x * IZR z) <= uu * Rabs (val x * IZR z) /\ Rabs (val x * IZR z) <= 2 ^ 203.
Proof.
  intros (F & B) Z. destruct (f_of_Z_exact z) as (G & V); [lia|]. assert (IB : Rabs (IZR z) <= 2 ^ 3). { rewrite <- abs_IZR. replace (2 ^ 3) with (IZR 8) by (cbn; lra). now apply IZR_le. }
  pose proof (abs_mul _ _ _ _ B IB) as M. rewrite <- pow_add in M. change (200 + 3)%nat with 203%nat in M.
  assert (H : Rabs (val x * val (f_of_Z z)) <= huge). { rewrite V. eapply Rle_trans; [exact M|apply pow_huge; lia]. }
  destruct (fmul_correct x (f_of_Z z) F G (rnd_huge _ H)) as (A & E). split; [exact A|]. split; [|exact M]. rewrite E, V.
  destruct (fin_mult x F) as (m & Hm). rewrite Hm. replace (F2R (Float radix2 m (-1074)) * IZR z) with (F2R (Float radix2 (m * z) (-1074))) by (unfold F2R; cbn [Fnum Fexp]; rewrite mult_IZR; ring). apply rnd_mult.
Qed.
Lemma extrap_comp x0 x1 x3 : bounded x0 (2 ^ 200) -> bounded x1 (2 ^ 200) -> bounded x3 (2 ^ 200) ->
  within (fmul (fadd (fsub (fmul x3 (f_of_Z 5)) (fmul x1 (f_of_Z 4))) x0) (fhalf 1)) ((5 * val x3 - 4 * val x1 + val x0) / 2)
    (/ 2 ^ 51 * (5 * Rabs (val x3) + 4 * Rabs (val x1) + Rabs (val x0)) + tiny).
Proof.
  intros (F0 & B0) B1 B3. destruct (by_int x3 5 B3) as (F5 & E5 & L5); [lia|]. destruct (by_int x1 4 B1) as (F4 & E4 & L4); [lia|]. destruct (half_exact 1) as (FH & VH); [lia|].
  assert (P204 : 2 ^ 204 = 2 * 2 ^ 203) by reflexivity. pose proof (p2_le 200 203 ltac:(lia)) as P203. pose proof (p2 203) as P0.
  pose proof (abs_near _ _ _ E5) as N5. pose proof (abs_near _ _ _ E4) as N4. assert (U : uu <= / 8) by (unfold uu; lra). pose proof uu_pos as UP.
  pose proof (Rabs_pos (val x3 * 5)) as Q5. pose proof (Rabs_pos (val x1 * 4)) as Q4. pose proof (Rmult_le_compat_r _ _ _ Q5 U). pose proof (Rmult_le_compat_r _ _ _ Q4 U).
  assert (M5 : Rabs (val (fmul x3 (f_of_Z 5))) <= 2 ^ 204) by lra. assert (M4 : Rabs (val (fmul x1 (f_of_Z 4))) <= 2 ^ 204) by lra.
  destruct (sub_close _ _ F5 F4) as (FS & ES). { eapply Rle_trans; [apply (abs_sub _ _ _ _ M5 M4)|]. apply Rle_trans with (2 ^ 205); [change (2 ^ 205) with (2 * 2 ^ 204); lra|apply pow_huge; lia]. }
  pose proof (abs_sub _ _ _ _ M5 M4) as SB. pose proof (abs_near _ _ _ ES) as NS. pose proof (Rabs_pos (val (fmul x3 (f_of_Z 5)) - val (fmul x1 (f_of_Z 4)))) as QS. pose proof (Rmult_le_compat_r _ _ _ QS U).
  assert (MS : Rabs (val (fsub (fmul x3 (f_of_Z 5)) (fmul x1 (f_of_Z 4)))) <= 2 ^ 206) by (change (2 ^ 206) with (2 * (2 * 2 ^ 204)); lra).
  assert (B0' : Rabs (val x0) <= 2 ^ 206) by (eapply Rle_trans; [exact B0|apply p2_le; lia]).
  destruct (add_close _ _ FS F0) as (FA & EA). { eapply Rle_trans; [apply (abs_add _ _ _ _ MS B0')|]. apply Rle_trans with (2 ^ 207); [change (2 ^ 207) with (2 * 2 ^ 206); lra|apply pow_huge; lia]. }
  pose proof (abs_add _ _ _ _ MS B0') as AB. pose proof (abs_near _ _ _ EA) as NA. pose proof (Rabs_pos (val (fsub (fmul x3 (f_of_Z 5)) (fmul x1 (f_of_Z 4))) + val x0)) as QA. pose proof (Rmult_le_compat_r _ _ _ QA U).
  set (a := fadd (fsub (fmul x3 (f_of_Z 5)) (fmul x1 (f_of_Z 4))) x0) in *.
  assert (HA : Rabs (val a * (1 / 2)) <= Rabs (val a)). { rewrite Rabs_mult, (Rabs_pos_eq (1 / 2)) by lra. pose proof (Rabs_pos (val a)). lra. }
  destruct (mul_close a (fhalf 1) FA FH) as (FM & EM). { rewrite VH. eapply Rle_trans; [exact HA|]. apply Rle_trans with (2 ^ 208); [change (2 ^ 208) with (2 * (2 * 2 ^ 206)); lra|apply pow_huge; lia]. }
  split; [exact FM|]. rewrite VH in EM.
  rewrite (Rabs_mult (val x3)), (Rabs_pos_eq 5) in * by lra. rewrite (Rabs_mult (val x1)), (Rabs_pos_eq 4) in * by lra.
  assert (SB' : Rabs (val (fmul x3 (f_of_Z 5)) - val (fmul x1 (f_of_Z 4))) <= Rabs (val (fmul x3 (f_of_Z 5))) + Rabs (val (fmul x1 (f_of_Z 4)))) by (apply abs_sub; lra).
  pose proof (Rabs_triang (val (fsub (fmul x3 (f_of_Z 5)) (fmul x1 (f_of_Z 4)))) (val x0)) as TA. pose proof tiny_pos.
  clear - N5 N4 NS NA TA SB' E5 E4 ES EA EM HA QS QA Q5 Q4 UP H3.
  set (A := val a) in *. set (w := val (fmul a (fhalf 1))) in *. set (s := val (fsub (fmul x3 (f_of_Z 5)) (fmul x1 (f_of_Z 4)))) in *. set (f5 := val (fmul x3 (f_of_Z 5))) in *. set (f4 := val (fmul x1 (f_of_Z 4))) in *. clearbody A w s f5 f4.
  set (y3 := val x3) in *. set (y1 := val x1) in *. set (y0 := val x0) in *. clearbody y3 y1 y0. pose proof (Rabs_pos y0). pose proof (Rabs_pos y1). pose proof (Rabs_pos y3).
  replace (/ 2 ^ 51) with (4 * uu) by (unfold uu; cbn [pow]; lra). apply Rabs_le_inv in E5, E4, ES, EA, EM. apply Rabs_le. unfold uu in *. lra.
Qed.
