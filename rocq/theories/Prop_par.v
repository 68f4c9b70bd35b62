(** Parameter and orientation files: the properties (vocabulary in Spec_par.v, Spec_io.v). *)
From Coq Require Import Reals Psatz.
From Verif Require Import F64 F64R Model_text Proof_text Proof_text2 Model_corr Model_track Model_io Spec_io Proof_io Model_par Spec_par Proof_par Proof_par2 Proof_par3 Proof_par4 Proof_par5 Lib Base.
From Verif Require Spec_geo Model_geo Proof_geo.
Local Open Scope Z_scope.

(** ===== C37: orientation files ===== *)
(** Everything is restored to the written digits, the rotation matrix is that of the
    restored angles; a second generation changes nothing any more; without the
    distortion file the default distortion is used.  np.sin and np.cos are arbitrary. *)
Theorem C37_round_trip : forall can_write fsin fcos fs c name add,
  can_write name = true -> can_write add = true -> name <> add -> cal_ok c ->
  let '(fs', r) := cal_write can_write fs c name (Some add) in
  r = Ok tt /\ (forall m, m <> name -> m <> add -> fs' m = fs m) /\
  exists c', cal_from_file fsin fcos fs' name (Some add) = Ok c' /\
    Forall2 (to_digits 8) (xf_pos (cf_ext c)) (xf_pos (cf_ext c')) /\ Forall2 (to_digits 8) (xf_ang (cf_ext c)) (xf_ang (cf_ext c')) /\
    (exists omega phi kappa, xf_ang (cf_ext c') = [omega; phi; kappa] /\ xf_dm (cf_ext c') = frotation fsin fcos omega phi kappa) /\
    Forall2 (to_digits 4) (cf_int c) (cf_int c') /\ Forall2 (to_digits 15) (cf_glass c) (cf_glass c') /\ Forall2 (to_digits 8) (cf_added c) (cf_added c') /\
    (let '(fs'', r'') := cal_write can_write fs' c' name (Some add) in r'' = Ok tt /\ cal_from_file fsin fcos fs'' name (Some add) = Ok c') /\
    cal_from_file fsin fcos fs' name None = Ok (mk_calf (cf_ext c') (cf_int c') (cf_glass c') added_default).
Proof.
  intros can_write fsin fcos fs c name add W1 W2 N H. pose proof (write_read can_write fsin fcos fs c name add W1 W2 N H) as WR.
  destruct (cal_write can_write fs c name (Some add)) as [fs' r]. destruct WR as (-> & O & R & (c0 & R0 & E1 & E2 & E3 & E4)).
  split; [reflexivity|]. split; [exact O|]. exists (back_cal fsin fcos c). split; [exact R|].
  pose proof (back_cal_ok fsin fcos c H) as H'. pose proof (back_cal_idem fsin fcos c H) as I.
  destruct H as (L1 & L2 & L3 & L4 & L5 & L6 & L7 & F1 & F2 & F3 & F4 & F5).
  split; [now apply map_digits|]. split; [now apply map_digits|]. split.
  { unfold back_cal. cbn [cf_ext xf_ang xf_dm]. destruct (xf_ang (cf_ext c)) as [|o [|p [|k [|]]]]; try discriminate. cbn [map rot_of]. do 3 eexists. split; reflexivity. }
  split; [now apply map_digits|]. split; [now apply map_digits|]. split; [now apply map_digits|]. split.
  - pose proof (write_read can_write fsin fcos fs' (back_cal fsin fcos c) name add W1 W2 N H') as WR.
    destruct (cal_write can_write fs' _ name (Some add)) as [fs'' r'']. destruct WR as (-> & _ & R' & _). split; [reflexivity|]. now rewrite I in R'.
  - rewrite R0. destruct c0 as [u1 u2 u3 u4]. cbn [cf_ext cf_int cf_glass cf_added] in *. congruence.
Qed.
(** The matrix of a calibration read from files is Rx(omega) Ry(phi) Rz(kappa) of its angles,
    up to the error of sine and cosine and the rounding of the products. *)
Theorem C37_rotation : forall fsin fcos fs name add c d, cal_from_file fsin fcos fs name add = Ok c ->
  exists omega phi kappa, xf_ang (cf_ext c) = [omega; phi; kappa] /\
  ((0 <= d)%R -> trig_ok fsin fcos d omega -> trig_ok fsin fcos d phi -> trig_ok fsin fcos d kappa ->
   Forall2 (Forall2 (fun x r => fin x /\ (Rabs (val x - r) <= 5 * d + / 2 ^ 50)%R)) (xf_dm (cf_ext c))
    (entries (Spec_geo.mmul (Spec_geo.mmul (Spec_geo.rot_x (val omega)) (Spec_geo.rot_y (val phi))) (Spec_geo.rot_z (val kappa))))).
Proof.
  intros fsin fcos fs name add c d. unfold cal_from_file. destruct (fs name) as [t|]; [|discriminate].
  destruct (shaped 3 (firstn 3 (fromstring t))) as [pos|]; [|discriminate]. cbn [bind]. destruct (shaped 3 (firstn 3 (skipn 3 (fromstring t)))) as [ang|]; [|discriminate]. cbn [bind].
  destruct ang as [|omega [|phi [|kappa [|? ?]]]]; try discriminate. destruct (shaped 3 (firstn 3 (skipn 15 (fromstring t)))) as [pp|]; [|discriminate]. cbn [bind].
  intros E. exists omega, phi, kappa.
  assert (G : cf_ext c = mk_extf pos [omega; phi; kappa] (frotation fsin fcos omega phi kappa)).
  { destruct add as [a|]; [|injection E as <-; reflexivity]. destruct (fs a) as [u|]; [|discriminate]. destruct (parse_floats _) as [xs|]; [|discriminate]. cbn [bind] in E.
    destruct (shaped 3 (firstn 3 xs)); [|discriminate]. cbn [bind] in E. destruct (shaped 2 (firstn 2 (skipn 3 xs))); [|discriminate]. cbn [bind] in E. destruct (shaped 2 (skipn 5 xs)); [|discriminate]. cbn [bind] in E. injection E as <-. reflexivity. }
  rewrite G. split; [reflexivity|]. intros D A B C. exact (frotation_near fsin fcos omega phi kappa d D A B C).
Qed.
Print Assumptions C37_rotation.
Example C37_rotation_example : trig_ok (fun _ => fzero) (fun _ => f_of_Z 1) 0 fzero.
Proof.
  destruct (f_of_Z_exact 1 ltac:(cbn; lia)) as (F & V). assert (Z0 : val fzero = 0%R) by reflexivity. unfold trig_ok. rewrite V, Z0, sin_0, cos_0. unfold Rminus. rewrite !Rplus_opp_r, Rabs_R0, Rabs_R1. repeat split; try lra; try exact F; try reflexivity.
Qed.
(** ===== C36: the matrix computed in double precision =====
    rows orthonormal and determinant 1 up to the error D = 5 d + 2^-50 of the entries, d the error of sine and cosine *)
Theorem C36_binary64 : forall fsin fcos omega phi kappa d, (0 <= d <= / 100)%R -> trig_ok fsin fcos d omega -> trig_ok fsin fcos d phi -> trig_ok fsin fcos d kappa ->
  let m := frotation fsin fcos omega phi kappa in let D := (5 * d + / 2 ^ 50)%R in
  length m = 3%nat /\ Forall (fun r => length r = 3%nat /\ Forall fin r) m /\
  (forall i j a b, nth_error m i = Some a -> nth_error m j = Some b -> (Rabs (vdot a b - (if Nat.eqb i j then 1 else 0)) <= 4 * D)%R) /\ (Rabs (vdet m - 1) <= 12 * D)%R.
Proof.
  intros fsin fcos omega phi kappa d B TO TP TK m D. pose proof (frotation_near fsin fcos omega phi kappa d (proj1 B) TO TP TK) as H. rewrite <- Proof_geo.rot_product in H.
  destruct (Proof_geo.rot_orthonormal (val omega) (val phi) (val kappa)) as (O & DT). apply (almost_orthonormal m _ D) with (2 := O) (3 := DT); [|exact H].
  unfold D. assert ((0 < / 2 ^ 50 <= / 20)%R) by (split; [apply Rinv_0_lt_compat; lra|apply Rinv_le_contravar; lra]). lra.
Qed.
Print Assumptions C36_binary64.
(** distortion coefficients below half a unit of the eighth digit are lost *)
Theorem C37_small_coefficient_refuted : forall can_write fsin fcos fs c name add k1 rest,
  can_write name = true -> can_write add = true -> name <> add -> cal_ok c -> cf_added c = k1 :: rest -> fin k1 -> (Rabs (val k1) < / 2 / IZR (10 ^ 8))%R ->
  let '(fs', r) := cal_write can_write fs c name (Some add) in
  exists c' k1' rest', cal_from_file fsin fcos fs' name (Some add) = Ok c' /\ cf_added c' = k1' :: rest' /\ val k1' = 0%R.
Proof.
  intros can_write fsin fcos fs c name add k1 rest W1 W2 N H A F S. pose proof (C37_round_trip can_write fsin fcos fs c name add W1 W2 N H) as RT.
  destruct (cal_write can_write fs c name (Some add)) as [fs' r]. destruct RT as (_ & _ & c' & R & _ & _ & _ & _ & _ & D & _). rewrite A in D.
  inversion D as [|? k1' ? rest' D1 D2 E1 E2]; subst. exists c', k1', rest'. split; [assumption|]. split; [now symmetry|].
  destruct D1 as [(-> & _)|[(s & -> & _)|(_ & _ & q & Q & ->)]]; [destruct F; discriminate|destruct F; discriminate|].
  replace q with 0; [unfold Rdiv; rewrite Rmult_0_l; apply rnd_0|]. change (Z.of_nat 8) with 8 in Q. revert Q S. generalize (val k1) as v. intros v Q S.
  assert (T : (IZR (10 ^ 8) > 0)%R) by (apply IZR_lt; reflexivity). set (t := IZR (10 ^ 8)) in *.
  assert (B : (Rabs (IZR q / t) < / t)%R). { replace (IZR q / t)%R with (v - (v - IZR q / t))%R by ring. eapply Rle_lt_trans; [apply Rabs_triang|]. rewrite Rabs_Ropp. replace (/ t)%R with (/ 2 / t + / 2 / t)%R by (field; lra). lra. }
  unfold Rdiv in B. rewrite Rabs_mult, (Rabs_pos_eq (/ t)) in B by (apply Rlt_le, Rinv_0_lt_compat; lra).
  assert (B' : (Rabs (IZR q) < 1)%R). { apply Rmult_lt_reg_r with (/ t)%R; [now apply Rinv_0_lt_compat|]. lra. }
  rewrite <- abs_IZR in B'. apply lt_IZR in B'. lia.
Qed.
(** writing without a distortion file name reports failure although the orientation was written *)
Theorem C37_no_added_refuted : forall can_write fs c name, can_write name = true -> cal_ok c ->
  exists t, cal_write can_write fs c name None = (put fs name t, Exn IOError).
Proof.
  intros can_write fs c name W (L1 & L2 & L3 & L4 & L5 & L6 & L7 & _). unfold cal_write, write_ori. rewrite W.
  destruct (cf_int c) as [|xh [|yh [|cc [|]]]]; try discriminate. destruct (cf_glass c) as [|g0 [|g1 [|g2 [|]]]]; try discriminate. eexists. reflexivity.
Qed.
(** too few values for the glass vector: the orientation file is left without its last line and the distortion file as it was; too few
    distortion values: the old distortion file is lost.  Both times IndexError *)
Theorem C37_short : forall can_write fs c name add, can_write name = true -> can_write add = true -> name <> add -> length (cf_int c) = 3%nat ->
  ((length (cf_glass c) < 3)%nat -> exists t, cal_write can_write fs c name (Some add) = (put fs name t, Exn IndexError) /\
     fromstring t = map (read_back 8) (xf_pos (cf_ext c)) ++ map (read_back 8) (xf_ang (cf_ext c)) ++ flat_map (map (read_back 7)) (xf_dm (cf_ext c)) ++ map (read_back 4) (cf_int c)) /\
  ((3 <= length (cf_glass c))%nat -> (length (cf_added c) < 7)%nat ->
     let '(fs', r) := cal_write can_write fs c name (Some add) in r = Exn IndexError /\ fs' add = Some []).
Proof.
  intros can_write fs c name add W1 W2 N L. unfold cal_write, write_ori. rewrite W1, W2. destruct (cf_int c) as [|xh [|yh [|cc [|]]]] eqn:EI; try discriminate. split.
  - intros G. destruct (cf_glass c) as [|g0 [|g1 [|g2 g]]]; cbn [length] in G; try lia; eexists; (split; [reflexivity|]);
      unfold fromstring, ori_head; rewrite !words_line, words_nl, words_lines, words_nl, words_line, <- (app_nil_r (line (row 4 [cc]))), words_line, !prefix_row, prefix_rows, !prefix_row; reflexivity.
  - intros G A. destruct (cf_glass c) as [|g0 [|g1 [|g2 g]]]; cbn [length] in G; try lia.
    destruct (cf_added c) as [|a0 [|a1 [|a2 [|a3 [|a4 [|a5 [|a6 r]]]]]]]; cbn [length] in A; try lia; split; try reflexivity; apply put_eq.
Qed.
Print Assumptions C37_short.
(** read_ori returns a default calibration, whatever the files say; Calibration.copy copies nothing *)
Theorem C37_read_ori_refuted : forall fsin fcos fs name add c, read_ori fsin fcos fs name add = Ok c ->
  xf_pos (cf_ext c) = [fzero; fzero; fzero] /\ xf_ang (cf_ext c) = [fzero; fzero; fzero] /\ xf_dm (cf_ext c) = frotation fsin fcos fzero fzero fzero /\
  cf_int c = [fzero; fzero; fzero] /\ cf_glass c = [fzero; fzero; f_of_Z 1] /\ cf_added c = [fzero; fzero; fzero; fzero; fzero; f_of_Z 1; fzero].
Proof. intros fsin fcos fs name add c. unfold read_ori. destruct (cal_from_file _ _ _ _ _); [|discriminate]. cbn [bind]. intros [= <-]. repeat split. Qed.
Theorem C37_copy_refuted : forall self new_copy, cal_copy self new_copy = (new_copy, None).
Proof. reflexivity. Qed.
(** a missing file is reported *)
Theorem C37_missing : forall fsin fcos fs name add, (fs name = None -> cal_from_file fsin fcos fs name add = Exn IOError) /\
  (forall a c, add = Some a -> fs a = None -> cal_from_file fsin fcos fs name add <> Ok c).
Proof.
  intros fsin fcos fs name add. split; [intros H; unfold cal_from_file; now rewrite H|]. intros a c -> H. unfold cal_from_file. rewrite H. destruct (fs name); [|discriminate].
  destruct (shaped 3 (firstn 3 (fromstring t))); [|discriminate]. cbn [bind]. destruct (shaped 3 _) as [ang|]; [|discriminate]. cbn [bind].
  destruct ang as [|o [|p [|k [|]]]]; try discriminate. destruct (shaped 3 (firstn 3 (skipn 15 _))); discriminate.
Qed.
(** what is read: positions 1-3, 4-6 and 16-18 of the numbers of the file, and all that follow as the glass vector (the matrix in the
    file is ignored, C37_rotation); the distortion file must hold exactly seven numbers in its first line *)
Theorem C37_read : forall fsin fcos fs name add c, cal_from_file fsin fcos fs name add = Ok c ->
  exists t, fs name = Some t /\ let data := fromstring t in (18 <= length data)%nat /\
    xf_pos (cf_ext c) = firstn 3 data /\ xf_ang (cf_ext c) = firstn 3 (skipn 3 data) /\ cf_int c = firstn 3 (skipn 15 data) /\ cf_glass c = skipn 18 data /\
    match add with
    | None => cf_added c = [fzero; fzero; fzero; fzero; fzero; f_of_Z 1; fzero]
    | Some a => exists u, fs a = Some u /\ length (cf_added c) = 7%nat /\ Forall2 (fun w x => parse_float w = Ok x) (words (fst (readline (lines u)))) (cf_added c)
    end.
Proof.
  intros fsin fcos fs name add c E. unfold cal_from_file in E. destruct (fs name) as [t|]; [|discriminate]. exists t. split; [reflexivity|]. cbv zeta in *. set (data := fromstring t) in *. clearbody data.
  assert (SH : forall n l v, shaped n l = Ok v -> v = l /\ length l = n). { intros n l v. unfold shaped. destruct (Nat.eqb_spec (length l) n); [|discriminate]. intros [= <-]. auto. }
  apply bind_ok in E. destruct E as (pos & P & E). apply SH in P. destruct P as (-> & P). apply bind_ok in E. destruct E as (ang & A & E). apply SH in A. destruct A as (-> & A).
  destruct (firstn 3 (skipn 3 data)) as [|o [|ph [|k [|]]]] eqn:EA; try discriminate. rewrite <- EA in *. apply bind_ok in E. destruct E as (pp & Q & E). apply SH in Q. destruct Q as (-> & Q).
  rewrite firstn_length, skipn_length in Q. split; [lia|]. destruct add as [a|].
  - destruct (fs a) as [u|]; [|discriminate]. apply bind_ok in E. destruct E as (xs & X & E). apply bind_ok in E. destruct E as (r & R & E). apply SH in R. destruct R as (-> & R).
    apply bind_ok in E. destruct E as (de & D & E). apply SH in D. destruct D as (-> & D). apply bind_ok in E. destruct E as (af & F & E). apply SH in F. destruct F as (-> & F). injection E as <-. cbn [cf_ext xf_pos xf_ang cf_int cf_glass cf_added].
    repeat (split; [reflexivity|]). exists u. split; [reflexivity|].
    assert (J : firstn 3 xs ++ firstn 2 (skipn 3 xs) ++ skipn 5 xs = xs). { destruct xs as [|? [|? [|? [|? [|? ?]]]]]; reflexivity. }
    match goal with |- context [length ?l] => change l with (firstn 3 xs ++ firstn 2 (skipn 3 xs) ++ skipn 5 xs) end. rewrite J. split. { rewrite <- J, !app_length, R, D, F. reflexivity. }
    revert xs X R D F J. generalize (words (fst (readline (lines u)))). intros ws xs X _ _ _ _. revert xs X. induction ws as [|w ws IH]; intros xs X; cbn [parse_floats] in X; [injection X as <-; constructor|].
    apply bind_ok in X. destruct X as (x & W & X). apply bind_ok in X. destruct X as (ys & Y & X). injection X as <-. constructor; [exact W|now apply IH].
  - injection E as <-. cbn [cf_ext xf_pos xf_ang cf_int cf_glass cf_added]. repeat (split; [reflexivity|]). reflexivity.
Qed.
Print Assumptions C37_read.
(** a distortion file with eight numbers is rejected *)
Example C37_read_case : let fs := put (put (fun _ => None) (txt "a") (txt "1 2 3 4 5 6 1 0 0 0 1 0 0 0 1 7 8 9 0 0 5")) (txt "b") (txt "1 2 3 4 5 6 7 8") in
  cal_from_file (fun _ => fzero) (fun _ => f_of_Z 1) fs (txt "a") (Some (txt "b")) = Exn ValueError /\
  match cal_from_file (fun _ => fzero) (fun _ => f_of_Z 1) fs (txt "a") None with Ok c => cf_int c = [f_of_Z 7; f_of_Z 8; f_of_Z 9] /\ cf_glass c = [fzero; fzero; f_of_Z 5] | Exn _ => False end.
Proof. split; vm_compute; auto. Qed.
(** files that cannot be written are reported; if it is the distortion file, the orientation file has been replaced already *)
Theorem C37_unwritable : forall can_write fs c name a, cal_ok c ->
  (can_write name = false -> cal_write can_write fs c name (Some a) = (fs, Exn IOError)) /\
  (can_write name = true -> can_write a = false -> exists t, cal_write can_write fs c name (Some a) = (put fs name t, Exn IOError)).
Proof.
  intros can_write fs c name a (L1 & L2 & L3 & L4 & L5 & L6 & L7 & _). unfold cal_write, write_ori. split; [intros ->; reflexivity|]. intros -> W.
  destruct (cf_int c) as [|xh [|yh [|cc [|]]]]; try discriminate. destruct (cf_glass c) as [|g0 [|g1 [|g2 [|]]]]; try discriminate. rewrite W. eexists. reflexivity.
Qed.
Print Assumptions C37_unwritable.
Definition sample_cal : calf := mk_calf (mk_extf [f_of_Z 100; f_of_Z (-3); f_of_Z 40] [fzero; f_of_dec false 25 2; fzero] [[f_of_Z 1; fzero; fzero]; [fzero; f_of_Z 1; fzero]; [fzero; fzero; f_of_Z 1]])
  [fzero; fzero; f_of_Z 70] [fzero; fzero; f_of_Z 50] [f_of_dec false 1 9; fzero; fzero; fzero; fzero; f_of_Z 1; fzero].
Lemma small_fin z : Z.abs z <= 1000 -> fin (f_of_Z z).
Proof. intros H. apply f_of_Z_exact. assert (1000 < 2 ^ 53) by reflexivity. lia. Qed.
Lemma zero_fin : fin fzero. Proof. split; reflexivity. Qed.
Lemma dec_fin1 (p q : positive) k : (0 <= k)%Z -> 10 ^ k = Zpos q -> Z.pos p <= 2 ^ 53 -> fin (f_of_dec false (Zpos p) k).
Proof.
  intros K Q P. rewrite <- (Z2Nat.id k K). apply f_of_dec_correct; [lia|]. pose proof (int_lt_big (2 ^ 53) ltac:(reflexivity)) as B. rewrite Rabs_pos_eq in B by (apply IZR_le; discriminate).
  eapply Rle_lt_trans; [|exact B]. apply rnd_abs_le; [apply rnd_int; reflexivity|].
  assert (P1 : (1 <= pow10 (Z.to_nat k))%R) by (unfold pow10; apply IZR_le; pose proof (pow10_pos (Z.to_nat k)); lia).
  assert (P2 : (0 <= IZR (Z.pos p) <= IZR (2 ^ 53))%R) by (split; apply IZR_le; lia).
  unfold Rdiv. rewrite Rabs_mult, (Rabs_pos_eq (IZR _)) by lra. rewrite Rabs_pos_eq by (apply Rlt_le, Rinv_0_lt_compat; lra).
  apply Rle_trans with (IZR (Z.pos p) * 1)%R; [|lra]. apply Rmult_le_compat_l; [lra|]. rewrite <- Rinv_1. apply Rinv_le_contravar; lra.
Qed.
Ltac fins := repeat (apply Forall_cons; [right; right; first [apply zero_fin|apply small_fin; lia|(eapply dec_fin1; [lia|reflexivity|discriminate])]|]); apply Forall_nil.
Example C37_example : cal_ok sample_cal.
Proof.
  unfold cal_ok, sample_cal. cbn [cf_ext cf_int cf_glass cf_added xf_pos xf_ang xf_dm].
  repeat (split; [first [reflexivity|repeat (apply Forall_cons; [reflexivity|]); apply Forall_nil|fins]|]). fins.
Qed.

(** ===== C38: parameter files and dictionaries ===== *)
Theorem C38_target_par : forall can_write fs p name, can_write name = true -> length (tg_gv p) = 4%nat ->
  let '(fs', r) := write_target_par can_write fs p name in r = Ok tt /\ read_target_par fs' name = Ok p /\ forall m, m <> name -> fs' m = fs m.
Proof. intros can_write fs p name W L. pose proof (write_target_round can_write fs p name W L) as H. now destruct (write_target_par can_write fs p name). Qed.
(** fewer than four thresholds: the file is destroyed; more: the rest is dropped silently *)
Theorem C38_few_thresholds_refuted : forall can_write fs p name, can_write name = true -> (length (tg_gv p) < 4)%nat ->
  write_target_par can_write fs p name = (put fs name [], Exn IndexError).
Proof.
  intros can_write fs p name W L. unfold write_target_par. rewrite W. destruct (tg_gv p) as [|a [|b [|c [|d l]]]]; try reflexivity. cbn in L. lia.
Qed.
Theorem C38_pft_refuted : forall can_write fs flag name, can_write name = true ->
  let '(fs', r) := write_pft can_write fs flag name in r = Ok tt /\ read_pft fs' name = Exn ValueError.
Proof. intros can_write fs flag name W. unfold write_pft. rewrite W. split; [reflexivity|]. unfold read_pft. rewrite put_eq. vm_compute. reflexivity. Qed.
(** dictionaries: one conversion each way restores the parameters; the dictionary itself is
    changed, so that it cannot be used a second time *)
Theorem C38_dict : forall c, length (mp_n2 (cp_mm c)) = length (mp_d (cp_mm c)) -> fst (ctrl_from_dict (ctrl_to_dict c)) = Ok (obj_of c).
Proof. intros c L. unfold ctrl_from_dict, ctrl_to_dict. cbn [cd_mm mm_from_dict]. unfold mm_new. rewrite L, Nat.eqb_refl. reflexivity. Qed.
(** lists of different lengths for the refractive layers are rejected *)
Theorem C38_media_lengths : forall d p, cd_mm d = Some (MmDict p) -> length (mp_n2 p) <> length (mp_d p) -> ctrl_from_dict d = (Exn ValueError, d).
Proof. intros d p E N. unfold ctrl_from_dict. rewrite E. cbn [mm_from_dict]. unfold mm_new. apply Nat.eqb_neq in N. rewrite N. reflexivity. Qed.
Print Assumptions C38_media_lengths.
Theorem C38_dict_twice_refuted : forall d o d', ctrl_from_dict d = (Ok o, d') -> ctrl_from_dict d' = (Exn TypeError, d').
Proof.
  intros d o d'. unfold ctrl_from_dict. destruct (match cd_mm d with Some v => mm_from_dict v | None => mm_new mm_default end) as [m|]; [|discriminate].
  intros [= _ <-]. reflexivity.
Qed.
(** without media parameters the medium is air: one layer, all indices 1, thickness 0 *)
Theorem C38_default_medium : forall d, cd_mm d = None ->
  let air := MmObj (mk_mmp 1 (f_of_Z 1) [f_of_Z 1] [f_of_Z 0] (f_of_Z 1)) in
  (exists o, fst (ctrl_from_dict d) = Ok o /\ co_mm o = air) /\ co_mm (ctrl_new d) = air.
Proof. intros d E. unfold ctrl_from_dict, ctrl_new. rewrite E. split; [eexists; split; reflexivity|reflexivity]. Qed.
Print Assumptions C38_default_medium.
(** YAML: whatever the YAML library does, as long as it restores what it wrote, the media
    parameters come back as a bare dictionary, and the result never compares equal *)
Theorem C38_yaml_refuted : forall (dump : ctrldict -> text) (load : text -> ctrldict) c, (forall d, load (dump d) = d) ->
  co_mm (ctrl_from_yaml load (ctrl_to_yaml dump c)) = MmDict (cp_mm c) /\
  compare_control_obj (obj_of c) (ctrl_from_yaml load (ctrl_to_yaml dump c)) = false.
Proof.
  intros dump load c H. unfold ctrl_from_yaml, ctrl_to_yaml. rewrite H. split; [reflexivity|]. unfold compare_control_obj. apply andb_false_r.
Qed.
Example C38_example : length (tg_gv (mk_targetpar [25; 30; 25; 20] 100 4 500 2 50 2 50 100 2)) = 4%nat /\ length (mp_n2 mm_default) = length (mp_d mm_default).
Proof. split; reflexivity. Qed.

(** ===== C39: comparison ===== *)
Lemma list_eqb_spec {A} (eq : A -> A -> bool) a b : list_eqb eq a b = true <-> Forall2 (fun x y => eq x y = true) a b.
Proof.
  revert b. induction a as [|x a IH]; intros [|y b]; cbn [list_eqb]; split; try discriminate; try (intros H; inversion H; fail); intros H; try reflexivity; try apply Forall2_nil.
  - apply andb_true_iff in H as [H1 H2]. apply Forall2_cons; [assumption|now apply IH].
  - inversion H; subst. apply andb_true_iff. split; [assumption|now apply IH].
Qed.
Lemma names_spec a b : list_eqb teqb a b = true <-> a = b.
Proof.
  rewrite list_eqb_spec. split; [|intros ->; induction b; constructor; [apply teqb_refl|assumption]]. intros H. induction H as [|x y a b E H IH]; [reflexivity|]. f_equal; [|exact IH].
  destruct (teqb_spec x y); congruence.
Qed.
Lemma ints_spec a b : list_eqb Z.eqb a b = true <-> a = b.
Proof.
  rewrite list_eqb_spec. split; [|intros ->; induction b; constructor; [apply Z.eqb_refl|assumption]]. intros H. induction H as [|x y a b E H IH]; [reflexivity|]. f_equal; [|exact IH]. lia.
Qed.
(** for finite numbers == is equality of the values *)
Lemma num_eq_val x y : fin x -> fin y -> (num_eq x y <-> val x = val y).
Proof. intros X Y. unfold num_eq. rewrite feq_correct by assumption. destruct (Raux.Req_bool_spec (val x) (val y)); intuition congruence. Qed.
Lemma zeqb_iff a b : (a =? b) = true <-> a = b. Proof. apply Z.eqb_eq. Qed.
Ltac cmp := rewrite ?andb_true_iff, ?names_spec, ?ints_spec, ?zeqb_iff, ?list_eqb_spec; unfold num_eq, nums_eq; tauto.
Theorem C39_sequence : forall a b, compare_sequence_par a b = true <-> sq_names a = sq_names b /\ sq_first a = sq_first b /\ sq_last a = sq_last b.
Proof. intros a b. unfold compare_sequence_par. cmp. Qed.
Theorem C39_track : forall a b, compare_track_par a b = true <->
  num_eq (tk_dvxmin a) (tk_dvxmin b) /\ num_eq (tk_dvxmax a) (tk_dvxmax b) /\ num_eq (tk_dvymin a) (tk_dvymin b) /\ num_eq (tk_dvymax a) (tk_dvymax b) /\
  num_eq (tk_dvzmin a) (tk_dvzmin b) /\ num_eq (tk_dvzmax a) (tk_dvzmax b) /\ num_eq (tk_dangle a) (tk_dangle b) /\ num_eq (tk_dacc a) (tk_dacc b) /\ tk_add a = tk_add b /\
  num_eq (tk_dsumg a) (tk_dsumg b) /\ num_eq (tk_dn a) (tk_dn b) /\ num_eq (tk_dnx a) (tk_dnx b) /\ num_eq (tk_dny a) (tk_dny b).
Proof. intros a b. unfold compare_track_par. cmp. Qed.
Theorem C39_volume : forall a b, compare_volume_par a b = true <->
  nums_eq (vp_x_lay a) (vp_x_lay b) /\ nums_eq (vp_z_min a) (vp_z_min b) /\ nums_eq (vp_z_max a) (vp_z_max b) /\ num_eq (vp_cn a) (vp_cn b) /\ num_eq (vp_cnx a) (vp_cnx b) /\
  num_eq (vp_cny a) (vp_cny b) /\ num_eq (vp_csumg a) (vp_csumg b) /\ num_eq (vp_eps0 a) (vp_eps0 b) /\ num_eq (vp_corrmin a) (vp_corrmin b).
Proof. intros a b. unfold compare_volume_par. cmp. Qed.
Definition same_media (a b : mmpar) : Prop :=
  mp_nlay a = mp_nlay b /\ num_eq (mp_n1 a) (mp_n1 b) /\ nums_eq (mp_n2 a) (mp_n2 b) /\ nums_eq (mp_d a) (mp_d b) /\ num_eq (mp_n3 a) (mp_n3 b).
Theorem C39_control : forall a b, compare_control_par a b = true <->
  cp_num a = cp_num b /\ cp_names a = cp_names b /\ cp_cal a = cp_cal b /\ cp_hp a = cp_hp b /\ cp_all a = cp_all b /\ cp_tiff a = cp_tiff b /\ cp_imx a = cp_imx b /\ cp_imy a = cp_imy b /\
  num_eq (cp_pix_x a) (cp_pix_x b) /\ num_eq (cp_pix_y a) (cp_pix_y b) /\ cp_chfield a = cp_chfield b /\ same_media (cp_mm a) (cp_mm b).
Proof. intros a b. unfold compare_control_par, mm_eq, same_media. cmp. Qed.
Theorem C39_target : forall a b, compare_target_par a b = true <-> a = b.
Proof.
  intros a b. unfold compare_target_par. rewrite ?andb_true_iff, ?ints_spec, ?zeqb_iff. destruct a, b. cbn. split; [|intros [= -> -> -> -> -> -> -> -> -> ->]; tauto]. intuition congruence.
Qed.
(** the media comparison: exact for one layer; further layers are ignored; no layer raises *)
Theorem C39_media : forall a b, length (mp_n2 a) = 1%nat -> length (mp_d a) = 1%nat -> length (mp_n2 b) = 1%nat -> length (mp_d b) = 1%nat ->
  exists r, compare_mm_np a b = Ok r /\ (r = true <-> same_media a b).
Proof.
  intros a b A1 A2 B1 B2. unfold compare_mm_np, same_media. destruct (mp_n2 a) as [|x [|]]; try discriminate. destruct (mp_d a) as [|d [|]]; try discriminate.
  destruct (mp_n2 b) as [|y [|]]; try discriminate. destruct (mp_d b) as [|e [|]]; try discriminate. eexists. split; [reflexivity|].
  rewrite ?andb_true_iff, ?zeqb_iff. unfold num_eq, nums_eq.
  assert (K : forall u v, Forall2 (fun s t => feq s t = true) [u] [v] <-> feq u v = true) by (intros u v; split; [intros H; inversion H; assumption|intros H; apply Forall2_cons; [assumption|apply Forall2_nil]]).
  rewrite !K. tauto.
Qed.
Theorem C39_media_layers_refuted : exists a b, compare_mm_np a b = Ok true /\ ~ same_media a b /\ mm_eq a b = false.
Proof.
  exists (mk_mmp 2 (f_of_Z 1) [f_of_Z 1; f_of_Z 2] [f_of_Z 3; f_of_Z 4] (f_of_Z 1)), (mk_mmp 2 (f_of_Z 1) [f_of_Z 1; f_of_Z 3] [f_of_Z 3; f_of_Z 4] (f_of_Z 1)).
  split; [reflexivity|]. split; [|reflexivity]. intros (_ & _ & H & _). cbn in H. inversion H; subst. inversion H5; subst. discriminate.
Qed.
(** calibrations: position, angles, interior orientation and glass are compared exactly, the
    rotation matrix within 1e-6 + 1e-5 |.|, the distortion parameters not at all *)
Theorem C39_calibration : forall a b, compare_calibration a b = true <->
  Forall2 (Forall2 (fun x y => close x y = true)) (xf_dm (cf_ext a)) (xf_dm (cf_ext b)) /\ nums_eq (xf_pos (cf_ext a)) (xf_pos (cf_ext b)) /\ nums_eq (xf_ang (cf_ext a)) (xf_ang (cf_ext b)) /\
  nums_eq (cf_int a) (cf_int b) /\ nums_eq (cf_glass a) (cf_glass b).
Proof.
  intros a b. unfold compare_calibration, compare_exterior, compare_interior, compare_glass. rewrite ?andb_true_iff, ?list_eqb_spec. unfold nums_eq, num_eq.
  assert (K : forall u v, Forall2 (fun x y => list_eqb close x y = true) u v <-> Forall2 (Forall2 (fun x y => close x y = true)) u v).
  { intros u v. split; intros H; (induction H as [|x y u v E H IH]; [apply Forall2_nil|apply Forall2_cons; [now apply list_eqb_spec|exact IH]]). }
  rewrite K. tauto.
Qed.
(** two matrix entries of size at most 2 count as equal iff they differ by at most 1e-6 + 1e-5 |y|, up to 1e-14 *)
Theorem C39_close : forall x y, fin x -> fin y -> (Rabs (val x) <= 2)%R -> (Rabs (val y) <= 2)%R ->
  ((Rabs (val x - val y) <= / 1000000 + Rabs (val y) / 100000 - / 10 ^ 14)%R -> close x y = true) /\
  (close x y = true -> (Rabs (val x - val y) <= / 1000000 + Rabs (val y) / 100000 + / 10 ^ 14)%R).
Proof. exact close_spec. Qed.
Print Assumptions C39_close.
Theorem C39_added_ignored_refuted : exists a b, cal_ok a /\ cal_ok b /\ compare_calibration a b = true /\ compare_addpar (cf_added a) (cf_added b) = false.
Proof.
  exists sample_cal, (mk_calf (cf_ext sample_cal) (cf_int sample_cal) (cf_glass sample_cal) added_default). split; [apply C37_example|]. split.
  - pose proof C37_example as (L1 & L2 & L3 & L4 & L5 & L6 & L7 & F1 & F2 & F3 & F4 & F5). unfold cal_ok. cbn [cf_ext cf_int cf_glass cf_added]. repeat (split; [first [assumption|reflexivity]|]). unfold added_default. fins.
  - split; vm_compute; reflexivity.
Qed.
Theorem C39_addpar : forall a b, compare_addpar a b = true <-> nums_eq a b.
Proof. intros a b. apply list_eqb_spec. Qed.

(** ===== C59: legacy parameter files are read in the documented line order ===== *)
Theorem C59_sequence : forall fs name t num p, fs name = Some t -> (read_sequence fs name num = Ok p <->
  let n := Z.to_nat num in sq_names p = map (name_at t) (seq 0 n) /\ int_at t n (sq_first p) /\ int_at t (n + 1) (sq_last p)).
Proof. intros. now apply sequence_lines. Qed.
Theorem C59_track : forall fs name t p, fs name = Some t -> (read_track fs name = Ok p <->
  float_at t 0 (tk_dvxmin p) /\ float_at t 1 (tk_dvxmax p) /\ float_at t 2 (tk_dvymin p) /\ float_at t 3 (tk_dvymax p) /\ float_at t 4 (tk_dvzmin p) /\ float_at t 5 (tk_dvzmax p) /\
  float_at t 6 (tk_dangle p) /\ float_at t 7 (tk_dacc p) /\ int_at t 8 (tk_add p) /\ tk_dsumg p = fzero /\ tk_dn p = fzero /\ tk_dnx p = fzero /\ tk_dny p = fzero).
Proof. intros. now apply track_lines. Qed.
Theorem C59_volume : forall fs name t p, fs name = Some t -> (read_volume fs name = Ok p <->
  exists x0 x1 z0 z1 w0 w1, vp_x_lay p = [x0; x1] /\ vp_z_min p = [z0; z1] /\ vp_z_max p = [w0; w1] /\
  float_at t 0 x0 /\ float_at t 1 z0 /\ float_at t 2 w0 /\ float_at t 3 x1 /\ float_at t 4 z1 /\ float_at t 5 w1 /\
  float_at t 6 (vp_cnx p) /\ float_at t 7 (vp_cny p) /\ float_at t 8 (vp_cn p) /\ float_at t 9 (vp_csumg p) /\ float_at t 10 (vp_corrmin p) /\ float_at t 11 (vp_eps0 p)).
Proof. intros. now apply volume_lines. Qed.
Theorem C59_control : forall fs name t p, fs name = Some t -> (read_control fs name = Ok p <->
  let n := Z.to_nat (cp_num p) in
  int_at t 0 (cp_num p) /\ cp_names p = map (fun i => name_at t (1 + 2 * i)) (seq 0 n) /\ cp_cal p = map (fun i => name_at t (1 + 2 * i + 1)) (seq 0 n) /\
  int_at t (1 + 2 * n) (cp_hp p) /\ int_at t (2 + 2 * n) (cp_all p) /\ int_at t (3 + 2 * n) (cp_tiff p) /\ int_at t (4 + 2 * n) (cp_imx p) /\ int_at t (5 + 2 * n) (cp_imy p) /\
  float_at t (6 + 2 * n) (cp_pix_x p) /\ float_at t (7 + 2 * n) (cp_pix_y p) /\ int_at t (8 + 2 * n) (cp_chfield p) /\
  mp_nlay (cp_mm p) = 1 /\ float_at t (9 + 2 * n) (mp_n1 (cp_mm p)) /\ (exists x, mp_n2 (cp_mm p) = [x] /\ float_at t (10 + 2 * n) x) /\ float_at t (11 + 2 * n) (mp_n3 (cp_mm p)) /\
  (exists x, mp_d (cp_mm p) = [x] /\ float_at t (12 + 2 * n) x)).
Proof. intros. now apply control_lines. Qed.
Theorem C59_target_par : forall fs name t p, fs name = Some t -> (read_target_par fs name = Ok p <->
  exists g0 g1 g2 g3, tg_gv p = [g0; g1; g2; g3] /\ int_at t 0 g0 /\ int_at t 1 g1 /\ int_at t 2 g2 /\ int_at t 3 g3 /\ int_at t 4 (tg_discont p) /\
  int_at t 5 (tg_nnmin p) /\ int_at t 6 (tg_nnmax p) /\ int_at t 7 (tg_nxmin p) /\ int_at t 8 (tg_nxmax p) /\ int_at t 9 (tg_nymin p) /\ int_at t 10 (tg_nymax p) /\
  int_at t 11 (tg_sumg p) /\ int_at t 12 (tg_cr p)).
Proof. intros. now apply target_par_lines. Qed.
Theorem C59_orient_par : forall fs name t p, fs name = Some t -> (read_orient_par fs name = Ok p <->
  int_at t 0 (op_use p) /\ int_at t 1 (op_cc p) /\ int_at t 2 (op_xh p) /\ int_at t 3 (op_yh p) /\ int_at t 4 (op_k1 p) /\ int_at t 5 (op_k2 p) /\ int_at t 6 (op_k3 p) /\
  int_at t 7 (op_p1 p) /\ int_at t 8 (op_p2 p) /\ int_at t 9 (op_scx p) /\ int_at t 10 (op_she p) /\ int_at t 11 (op_interf p)).
Proof. intros. now apply orient_par_lines. Qed.
Theorem C59_calibration_par : forall fs name t num p, fs name = Some t -> 0 <= num -> (read_cal_par fs name num = Ok p <->
  let n := Z.to_nat num in
  cl_fixp p = name_at t 0 /\ cl_img p = map (fun i => name_at t (1 + 2 * i)) (seq 0 n) /\ cl_ori p = map (fun i => name_at t (1 + 2 * i + 1)) (seq 0 n) /\
  int_at t (1 + 2 * n) (cl_tiff p) /\ int_at t (2 + 2 * n) (cl_pair p) /\ int_at t (3 + 2 * n) (cl_chfield p)).
Proof. intros. now apply cal_par_lines. Qed.
Theorem C59_multi_planes : forall fs name t num names, fs name = Some t ->
  (read_multi_planes fs name = Ok (num, names) <-> int_at t 0 num /\ names = map (fun i => name_at t (1 + i)) (seq 0 (Z.to_nat num))).
Proof. intros. now apply multi_planes_lines. Qed.
Theorem C59_examine : forall fs name t a b, fs name = Some t ->
  (read_examine fs name = Ok (a, b) <-> exists x y, int_at t 0 x /\ int_at t 1 y /\ (a = true <-> x <> 0) /\ (b = true <-> y <> 0)).
Proof. intros. now apply examine_lines. Qed.
Theorem C59_pft : forall fs name t a, fs name = Some t -> (read_pft fs name = Ok a <-> exists x, int_at t 0 x /\ (a = true <-> x <> 0)).
Proof. intros. now apply pft_lines. Qed.
Definition sample_seq : text := line (txt "img/cam1.") ++ line (txt " img/cam2.  ") ++ line (txt "10000") ++ txt "10004".
Example C59_example : read_sequence (put (fun _ => None) (txt "s") sample_seq) (txt "s") 2 = Ok (mk_seqpar [txt "img/cam1."; txt "img/cam2."] 10000 10004).
Proof. vm_compute. reflexivity. Qed.

(** ===== C60: a missing parameter file is reported as an I/O error ===== *)
Theorem C60_missing : forall fs name, fs name = None ->
  (forall n, read_sequence fs name n = Exn IOError) /\ read_volume fs name = Exn IOError /\ read_control fs name = Exn FileNotFoundError /\
  (forall n, read_cal_par fs name n = Exn FileNotFoundError) /\ read_multi_planes fs name = Exn FileNotFoundError /\ read_examine fs name = Exn FileNotFoundError /\ read_pft fs name = Exn FileNotFoundError.
Proof.
  intros fs name H. unfold read_sequence, read_volume, read_control, read_cal_par, read_multi_planes, read_examine, read_pft. rewrite H. auto 10.
Qed.
(** not so for these three: defaults (with no thresholds at all), or the wrong exception *)
Theorem C60_refuted : forall fs name, fs name = None ->
  read_target_par fs name = Ok (mk_targetpar [] 100 1 100 1 100 1 100 10 1) /\ read_orient_par fs name = Ok (mk_orientpar 0 0 0 0 0 0 0 0 0 0 0 0) /\ read_track fs name = Exn TypeError.
Proof. intros fs name H. unfold read_target_par, read_orient_par, read_track. rewrite H. auto. Qed.
Example C60_example : (fun _ : text => @None text) (txt "x") = None. Proof. reflexivity. Qed.
Print Assumptions C37_round_trip.
Print Assumptions C37_small_coefficient_refuted.
Print Assumptions C37_no_added_refuted.
Print Assumptions C37_read_ori_refuted.
Print Assumptions C37_copy_refuted.
Print Assumptions C37_missing.
Print Assumptions C38_target_par.
Print Assumptions C38_few_thresholds_refuted.
Print Assumptions C38_pft_refuted.
Print Assumptions C38_dict.
Print Assumptions C38_dict_twice_refuted.
Print Assumptions C38_yaml_refuted.
Print Assumptions C39_sequence.
Print Assumptions C39_track.
Print Assumptions C39_volume.
Print Assumptions C39_control.
Print Assumptions C39_target.
Print Assumptions C39_media.
Print Assumptions C39_media_layers_refuted.
Print Assumptions C39_calibration.
Print Assumptions C39_added_ignored_refuted.
Print Assumptions C39_addpar.
Print Assumptions C59_sequence.
Print Assumptions C59_track.
Print Assumptions C59_volume.
Print Assumptions C59_control.
Print Assumptions C59_target_par.
Print Assumptions C59_orient_par.
Print Assumptions C59_calibration_par.
Print Assumptions C59_multi_planes.
Print Assumptions C59_examine.
Print Assumptions C59_pft.
Print Assumptions C60_missing.
Print Assumptions C60_refuted.
