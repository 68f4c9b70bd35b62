(** Segmentation: centroid, clamping, peak_fit. *)
From Coq Require Import Reals Lra.
From Flocq Require Import Core.
From Verif Require Import Base Lib F64 F64R Model_corr Model_seg Spec_seg Proof_seg Proof_seg2.
Local Open Scope Z_scope.

Lemma small_range m L n : area L < n -> blobs_below m L n.
Proof.
  intros H s R ND HR.
  assert (I : incl R (s :: list_prod (zrange (l_xmin L) (l_xmax L)) (zrange (l_ymin L) (l_ymax L)))).
  { intros q Hq. apply HR in Hq. inversion Hq as [|p q' H1 H2 H3]; subst; [now left|right].
    destruct q as [x y]. apply in_prod_iff. rewrite !In_zrange. apply H2. }
  pose proof (NoDup_incl_length ND I) as HL. cbn [length] in HL. unfold pixel in HL. rewrite prod_length, !zrange_length in HL.
  apply inj_le in HL. rewrite Nat2Z.inj_succ, Nat2Z.inj_mul, !ZifyInst.of_nat_to_nat_eq in HL. unfold area in H. unfold pixel in *. lia.
Qed.

Lemma moment_bounds (f e : pixel -> Z) lo hi R : (forall p, In p R -> lo <= f p <= hi /\ 0 < e p) ->
  lo * zsum (map e R) <= zsum (map (fun p => f p * e p) R) <= hi * zsum (map e R) /\ Z.of_nat (length R) <= zsum (map e R).
Proof.
  unfold zsum. induction R as [|p R IH]; intros H; cbn [map fold_right length]; [lia|].
  destruct (IH (fun q Hq => H q (or_intror Hq))) as (I1 & I2). destruct (H p (or_introl eq_refl)) as (H1 & H2). split; [|lia]. nia.
Qed.
Lemma sum_le (e : pixel -> Z) G R : (forall p, In p R -> e p <= G) -> zsum (map e R) <= Z.of_nat (length R) * G.
Proof.
  unfold zsum. induction R as [|p R IH]; intros H; cbn [map fold_right length]; [lia|].
  pose proof (IH (fun q Hq => H q (or_intror Hq))). pose proof (H p (or_introl eq_refl)). lia.
Qed.

Local Open Scope R_scope.
Lemma rnd_half z : (Z.abs (2 * z + 1) < 2 ^ 53)%Z -> rnd (IZR z + / 2) = IZR z + / 2.
Proof.
  intros H. unfold rnd. apply round_generic; [typeclasses eauto|].
  apply (generic_format_FLT radix2 (SpecFloat.emin 53 1024) 53).
  exists (Float radix2 (2 * z + 1) (-1)).
  - unfold F2R. cbn [Fnum Fexp]. change (bpow radix2 (-1)) with (/ 2). rewrite plus_IZR, mult_IZR. lra.
  - exact H.
  - cbn. unfold SpecFloat.emin. lia.
Qed.
Lemma half_ok : fin (fdiv (f_of_Z 1) (f_of_Z 2)) /\ val (fdiv (f_of_Z 1) (f_of_Z 2)) = / 2.
Proof.
  destruct (f_of_Z_exact 1 ltac:(lia)) as (F1 & V1). destruct (f_of_Z_exact 2 ltac:(lia)) as (F2 & V2).
  assert (E : rnd (1 / 2) = / 2).
  { replace (1 / 2) with (IZR 0 + / 2) by (simpl; lra). rewrite rnd_half; simpl; [lra|lia]. }
  assert (B : Rabs (rnd (val (f_of_Z 1) / val (f_of_Z 2))) < big).
  { rewrite V1, V2, E. rewrite Rabs_pos_eq by lra. apply Rlt_trans with 1; [lra|].
    apply Rle_lt_trans with (Rabs (IZR 1)); [rewrite Rabs_pos_eq; lra|]. apply int_lt_big. lia. }
  destruct (fdiv_correct _ _ F1 F2 ltac:(rewrite V2; lra) B) as (F & V). split; auto. rewrite V, V1, V2. exact E.
Qed.

(** the quotient of the moments, plus one half, is inside the span *)
Lemma centroid_in M S lo hi : (0 < S)%Z -> (lo * S <= M <= hi * S)%Z -> (Z.abs M <= 2 ^ 53)%Z -> (S <= 2 ^ 53)%Z ->
  (Z.abs lo <= 2 ^ 51)%Z -> (Z.abs hi <= 2 ^ 51)%Z ->
  let c := fadd (fdiv (f_of_Z M) (f_of_Z S)) (fdiv (f_of_Z 1) (f_of_Z 2)) in
  fin c /\ IZR lo + / 2 <= val c <= IZR hi + / 2.
Proof.
  intros HS (H1 & H2) HM HS2 Hlo Hhi c.
  destruct (f_of_Z_exact M HM) as (FM & VM). destruct (f_of_Z_exact S ltac:(lia)) as (FS & VS).
  assert (PS : 0 < IZR S) by now apply (IZR_lt 0).
  assert (Q : IZR lo <= IZR M / IZR S <= IZR hi).
  { split.
    - apply Rmult_le_reg_r with (IZR S); auto. unfold Rdiv. rewrite Rmult_assoc, Rinv_l, Rmult_1_r by lra. rewrite <- mult_IZR. now apply IZR_le.
    - apply Rmult_le_reg_r with (IZR S); auto. unfold Rdiv. rewrite Rmult_assoc, Rinv_l, Rmult_1_r by lra. rewrite <- mult_IZR. now apply IZR_le. }
  assert (QR : IZR lo <= rnd (IZR M / IZR S) <= IZR hi).
  { rewrite <- (rnd_int lo) by lia. rewrite <- (rnd_int hi) by lia. split; apply rnd_le; lra. }
  assert (B51 : IZR (2 ^ 51) < big).
  { unfold big. change (IZR (2 ^ 51)) with (bpow radix2 51). apply bpow_lt. lia. }
  assert (L51 : - IZR (2 ^ 51) <= IZR lo) by (rewrite <- opp_IZR; apply IZR_le; lia).
  assert (U51 : IZR hi <= IZR (2 ^ 51)) by (apply IZR_le; lia).
  assert (B : Rabs (rnd (val (f_of_Z M) / val (f_of_Z S))) < big).
  { rewrite VM, VS. apply Rle_lt_trans with (IZR (2 ^ 51)); auto. apply Rabs_le. lra. }
  destruct (fdiv_correct _ _ FM FS ltac:(rewrite VS; lra) B) as (FQ & VQ). rewrite VM, VS in VQ.
  destruct half_ok as (FH & VH).
  assert (SR : IZR lo + / 2 <= rnd (val (fdiv (f_of_Z M) (f_of_Z S)) + val (fdiv (f_of_Z 1) (f_of_Z 2))) <= IZR hi + / 2).
  { rewrite VQ, VH. rewrite <- (rnd_half lo) by lia. rewrite <- (rnd_half hi) by lia. split; apply rnd_le; lra. }
  assert (B52 : IZR (2 ^ 52) < big).
  { unfold big. change (IZR (2 ^ 52)) with (bpow radix2 52). apply bpow_lt. lia. }
  assert (E52 : IZR (2 ^ 52) = 2 * IZR (2 ^ 51)) by (rewrite <- mult_IZR; f_equal).
  assert (1 <= IZR (2 ^ 51)) by (apply (IZR_le 1); lia).
  assert (BB : Rabs (rnd (val (fdiv (f_of_Z M) (f_of_Z S)) + val (fdiv (f_of_Z 1) (f_of_Z 2)))) < big).
  { apply Rle_lt_trans with (IZR (2 ^ 52)); auto. apply Rabs_le. lra. }
  destruct (fadd_correct _ _ FQ FH BB) as (FC & VC). split; auto. unfold c. rewrite VC. exact SR.
Qed.
Local Open Scope Z_scope.

Lemma abs_moment M S lo hi D B : 0 < S -> 1 <= lo -> hi < D -> lo * S <= M <= hi * S -> D * S <= B -> Z.abs M <= B.
Proof.
  intros HS H1 H2 (H3 & H4) H5. assert (0 <= lo * S) by nia. assert (hi * S <= D * S) by nia. lia.
Qed.

Theorem centroid_in_box m L R k t G : range_ok m L -> 0 <= l_thres L -> R <> [] -> NoDup R ->
  (forall q, In q R -> in_range L q /\ l_thres L < grey m q <= G) ->
  Z.max (im_w m) (im_h m) * (area L * G) <= 2 ^ 51 -> describes m L R k t ->
  (exists lo hi, span (map fst R) lo hi /\ fin (t_x t) /\ (IZR lo + / 2 <= val (t_x t) <= IZR hi + / 2)%R) /\
  (exists lo hi, span (map snd R) lo hi /\ fin (t_y t) /\ (IZR lo + / 2 <= val (t_y t) <= IZR hi + / 2)%R) /\
  0 < t_sumg t.
Proof.
  intros (R1 & R2 & R3 & R4) TH NE ND HR HB (_ & _ & _ & (lx & hx & SX & _) & (ly & hy & SY & _) & ES & EX & EY).
  assert (AB : Z.of_nat (length R) <= area L) by (apply (area_bound L); auto; intros q Hq; now apply HR).
  assert (LN : 0 < Z.of_nat (length R)) by (destruct R; [congruence|simpl; lia]).
  assert (HE : forall p, In p R -> 0 < excess m L p <= G) by (intros p Hp; apply HR in Hp as (_ & Hp); unfold excess; lia).
  assert (BX : forall p, In p R -> lx <= fst p <= hx /\ 0 < excess m L p).
  { intros p Hp. split; [|now apply HE]. apply SX. now apply in_map. }
  assert (BY : forall p, In p R -> ly <= snd p <= hy /\ 0 < excess m L p).
  { intros p Hp. split; [|now apply HE]. apply SY. now apply in_map. }
  pose proof (moment_bounds fst (excess m L) lx hx R BX) as (MX & MS).
  pose proof (moment_bounds snd (excess m L) ly hy R BY) as (MY & _).
  pose proof (sum_le (excess m L) G R ltac:(intros p Hp; now apply HE)) as SL.
  set (S := zsum (map (excess m L) R)) in *.
  assert (G0 : 0 < G) by (destruct R as [|p R']; [congruence|]; specialize (HE p (or_introl eq_refl)); lia).
  assert (SG : S <= area L * G) by nia.
  assert (XR : 1 <= lx /\ hx < im_w m).
  { destruct SX as (A1 & A2 & _). apply in_map_iff in A1 as (p & <- & Hp). apply in_map_iff in A2 as (q & <- & Hq).
    apply HR in Hp as ((Hp & _) & _). apply HR in Hq as ((Hq & _) & _). lia. }
  assert (YR : 1 <= ly /\ hy < im_h m).
  { destruct SY as (A1 & A2 & _). apply in_map_iff in A1 as (p & <- & Hp). apply in_map_iff in A2 as (q & <- & Hq).
    apply HR in Hp as ((_ & Hp) & _). apply HR in Hq as ((_ & Hq) & _). lia. }
  assert (LX : lx <= hx) by (destruct SX as (A1 & _ & A3); apply A3 in A1; lia).
  assert (LY : ly <= hy) by (destruct SY as (A1 & _ & A3); apply A3 in A1; lia).
  set (D := Z.max (im_w m) (im_h m)) in *.
  assert (S0 : 0 < S) by lia.
  assert (DS : D * S <= 2 ^ 51) by nia.
  assert (DD : D <= 2 ^ 51) by nia. assert (SS : S <= 2 ^ 51) by nia.
  assert (P53 : 2 ^ 53 = 4 * 2 ^ 51) by reflexivity.
  rewrite EX, EY, ES. split; [|split; [|exact S0]].
  - exists lx, hx. split; auto. destruct XR as (X1 & X2). apply centroid_in; auto; try lia. apply (abs_moment _ S lx hx D); auto; lia.
  - exists ly, hy. split; auto. destruct YR as (X1 & X2). apply centroid_in; auto; try lia. apply (abs_moment _ S ly hy D); auto; lia.
Qed.

(** ---- the clamped ranges of targ_rec ---- *)
Lemma targ_rec_clamped img tp xmin xmax ymin ymax imx imy num_cam thres : pyget (tpar_gvthresh tp) num_cam = Ok thres ->
  targ_rec img tp xmin xmax ymin ymax imx imy num_cam =
  fast_targ_rec img (clamped tp thres xmin xmax ymin ymax imx imy) (Z.to_nat MAX_TARGETS).
Proof.
  intros H. unfold targ_rec. rewrite H. cbn [bind]. unfold clamped. rewrite !Z.geb_leb.
  replace (if xmin <=? 0 then 1 else xmin) with (Z.max 1 xmin) by (destruct (Z.leb_spec xmin 0); lia).
  replace (if ymin <=? 0 then 1 else ymin) with (Z.max 1 ymin) by (destruct (Z.leb_spec ymin 0); lia).
  replace (if imx <=? xmax then imx - 1 else xmax) with (Z.min (imx - 1) xmax) by (destruct (Z.leb_spec imx xmax); lia).
  replace (if imy <=? ymax then imy - 1 else ymax) with (Z.min (imy - 1) ymax) by (destruct (Z.leb_spec imy ymax); lia).
  reflexivity.
Qed.
Lemma clamped_range img tp thres xmin xmax ymin ymax imx imy : imx <= im_w img -> imy <= im_h img ->
  range_ok img (clamped tp thres xmin xmax ymin ymax imx imy).
Proof. intros H1 H2. unfold range_ok, clamped. cbn. lia. Qed.

(** ---- peak_fit ---- *)
Lemma foldM_exn {S A} (f : S -> A -> result S) e l : forall s, (forall s a e', In a l -> f s a = Exn e' -> e' = e) ->
  (exists a, In a l /\ forall s, exists e', f s a = Exn e') -> foldM f l s = Exn e.
Proof.
  induction l as [|b l IH]; intros s HE (a & Ha & HX); [destruct Ha|]. cbn [foldM].
  destruct (f s b) as [s'|e'] eqn:E; cbn [bind].
  - apply IH; [intros s0 a0 e0 I0 X0; exact (HE s0 a0 e0 (or_intror I0) X0)|]. destruct Ha as [<-|Ha]; [destruct (HX s) as (e' & X); congruence|eauto].
  - f_equal. exact (HE s b e' (or_introl eq_refl) E).
Qed.
Lemma foldM_exn_only {S A} (f : S -> A -> result S) e l : (forall s a e', In a l -> f s a = Exn e' -> e' = e) -> forall s e', foldM f l s = Exn e' -> e' = e.
Proof.
  induction l as [|b l IH]; intros HE s e' H; [discriminate|]. cbn [foldM] in H.
  destruct (f s b) as [s'|x] eqn:E; cbn [bind] in H; [apply (IH (fun s0 a0 e0 I0 X0 => HE s0 a0 e0 (or_intror I0) X0) s' e' H)|].
  injection H as <-. exact (HE s b x (or_introl eq_refl) E).
Qed.
Lemma andM_exn l e : (forall r e', In r l -> r = Exn e' -> e' = IndexError) -> andM l = Exn e -> e = IndexError.
Proof.
  induction l as [|r l IH]; intros H E; [discriminate|]. cbn [andM] in E. destruct r as [b|x]; cbn [bind] in E.
  - destruct b; [|discriminate]. apply IH; auto. intros r e' Hr X. exact (H r e' (or_intror Hr) X).
  - injection E as <-. eapply H; [now left|reflexivity].
Qed.
Lemma ge_flat_exn img v n e : ge_flat img v n = Exn e -> e = IndexError.
Proof. unfold ge_flat. destruct (pyget img n) eqn:E; cbn [bind]; [discriminate|]. intros X. injection X as <-. eapply pyget_exn_only; eauto. Qed.
Lemma peak_scan_exn img thres imx imy i j e : peak_scan img thres imx imy i j = Exn e -> e = IndexError.
Proof.
  unfold peak_scan. destruct (pyget img (i * imx + j)) as [gv|] eqn:E; cbn [bind]; [|intros X; injection X as <-; eapply pyget_exn_only; eauto].
  destruct (gv <=? thres); [discriminate|].
  destruct (pyget (repeat 0 _) _) as [lb|] eqn:E2; cbn [bind]; [|intros X; injection X as <-; eapply pyget_exn_only; eauto].
  destruct (andM _) as [b|] eqn:E3; cbn [bind].
  - destruct b; [|discriminate]. cbn. intros X. now injection X as <-.
  - intros X. injection X as <-. eapply andM_exn; [|exact E3]. intros r e' Hr ->.
    cbn [In] in Hr. repeat (destruct Hr as [Hr|Hr]; [now apply ge_flat_exn in Hr|]). destruct Hr.
Qed.
Lemma peak_scan_peak img thres imx imy i j : flat_peak img thres imx imy i j -> peak_scan img thres imx imy i j = Exn IndexError.
Proof.
  intros (gv & E & T & B & N). unfold peak_scan. rewrite E. cbn [bind]. destruct (Z.leb_spec gv thres); [lia|].
  rewrite (pyget_nonneg _ _ 0); [|lia|]. 2:{ rewrite nth_error_repeat; [reflexivity|lia]. }
  cbn [bind].
  assert (A : forall d, In d [-1; 1; - imx; imx; - imx - 1; imx - 1; - imx + 1; imx + 1] -> ge_flat img gv (i * imx + j + d) = Ok true).
  { intros d Hd. destruct (N d Hd) as (g & Eg & Lg). unfold ge_flat. rewrite Eg. cbn [bind]. rewrite Z.geb_leb. f_equal. now apply Z.leb_le. }
  set (n := i * imx + j) in *.
  replace (n - 1) with (n + -1) by lia. replace (n - imx) with (n + - imx) by lia.
  replace (n + - imx - 1) with (n + (- imx - 1)) by lia. replace (n + imx - 1) with (n + (imx - 1)) by lia.
  replace (n + - imx + 1) with (n + (- imx + 1)) by lia. replace (n + imx + 1) with (n + (imx + 1)) by lia.
  rewrite !A by (cbn; tauto). reflexivity.
Qed.
Theorem peak_fit_fails img thres xmin xmax ymin ymax imx imy i j :
  ymin <= i < ymax - 1 -> xmin <= j < xmax -> flat_peak img thres imx imy i j ->
  peak_fit img thres xmin xmax ymin ymax imx imy = Exn IndexError.
Proof.
  intros Hi Hj P. unfold peak_fit. rewrite (foldM_exn _ IndexError); [reflexivity| |].
  - intros s a e' _ H. eapply foldM_exn_only; [|exact H]. intros s1 b1 e1 _ X; exact (peak_scan_exn _ _ _ _ _ _ _ X).
  - exists i. split; [now apply In_zrange|]. intros s. exists IndexError. apply foldM_exn.
    + intros s1 b1 e1 _ X; exact (peak_scan_exn _ _ _ _ _ _ _ X).
    + exists j. split; [now apply In_zrange|]. intros _. exists IndexError. now apply peak_scan_peak.
Qed.
(** ---- no peak: the scan ends without an error and nothing is found ---- *)
Lemma foldM_unit {A} (f : unit -> A -> result unit) l : (forall a, In a l -> f tt a = Ok tt) -> foldM f l tt = Ok tt.
Proof. induction l as [|a l IH]; intros H; [reflexivity|]. cbn [foldM]. rewrite (H a (or_introl eq_refl)). cbn [bind]. apply IH. intros b I. apply H. now right. Qed.
Lemma andM_ok (l : list (result bool)) : (forall r, In r l -> exists b, r = Ok b) -> exists b, andM l = Ok b /\ (b = true -> forall r, In r l -> r = Ok true).
Proof.
  induction l as [|r l IH]; intros H; [exists true; split; [reflexivity|intros _ r []]|]. destruct (H r (or_introl eq_refl)) as (b & ->). cbn [andM bind].
  destruct b; [|exists false; split; [reflexivity|discriminate]]. destruct IH as (b & E & T); [intros r I; apply H; now right|]. exists b. split; [exact E|]. intros X r [<-|I]; [reflexivity|now apply T].
Qed.
Lemma peak_scan_none img thres imx imy i j : Z.of_nat (length img) = imx * imy -> 1 <= i < imy - 1 -> 1 <= j < imx - 1 -> ~ flat_peak img thres imx imy i j -> peak_scan img thres imx imy i j = Ok tt.
Proof.
  intros L Bi Bj NP. unfold peak_scan. set (n := i * imx + j) in *. assert (Bn : imx + 1 <= n /\ n + imx + 1 < imx * imy) by (unfold n; nia). assert (imx >= 3) by lia.
  assert (IN : forall k, 0 <= k < imx * imy -> exists a, pyget img k = Ok a) by (intros k K; destruct (pyget_in_range img k) as (a & A & _); [lia|]; now exists a).
  destruct (IN n ltac:(lia)) as (gv & E). rewrite E. cbn [bind]. destruct (Z.leb_spec gv thres) as [T|T]; [reflexivity|].
  rewrite (pyget_nonneg _ _ 0); [|lia|]. 2:{ rewrite nth_error_repeat; [reflexivity|lia]. }
  cbn [bind]. destruct (andM_ok [ge_flat img gv (n - 1); ge_flat img gv (n + 1); ge_flat img gv (n - imx); ge_flat img gv (n + imx); ge_flat img gv (n - imx - 1); ge_flat img gv (n + imx - 1); ge_flat img gv (n - imx + 1); ge_flat img gv (n + imx + 1)]) as (b & A & AT).
  { intros r I. cbn [In] in I. repeat (destruct I as [<-|I]; [unfold ge_flat; match goal with |- context [pyget img ?k] => destruct (IN k ltac:(lia)) as (g & G); rewrite G; eexists; reflexivity end|]). destruct I. }
  rewrite A. cbn [bind]. destruct b; [|reflexivity]. exfalso. apply NP. specialize (AT eq_refl). exists gv. fold n. split; [exact E|]. split; [lia|]. split; [lia|].
  intros d I. assert (G : ge_flat img gv (n + d) = Ok true).
  { apply AT. cbn [In] in I |- *. repeat (destruct I as [<-|I]; [match goal with |- context [ge_flat img gv (n + ?k)] => first
      [replace (n + -1) with (n - 1) by lia; tauto | tauto | replace (n + - imx) with (n - imx) by lia; tauto | replace (n + (- imx - 1)) with (n - imx - 1) by lia; tauto | replace (n + (imx - 1)) with (n + imx - 1) by lia; tauto
      | replace (n + (- imx + 1)) with (n - imx + 1) by lia; tauto | replace (n + (imx + 1)) with (n + imx + 1) by lia; tauto] end|]). destruct I. }
  unfold ge_flat in G. destruct (pyget img (n + d)) as [g|]; [|discriminate]. cbn [bind] in G. injection G as G. rewrite Z.geb_leb in G. exists g. split; [reflexivity|]. now apply Z.leb_le in G.
Qed.
Theorem peak_fit_none img thres xmin xmax ymin ymax imx imy : Z.of_nat (length img) = imx * imy -> 1 <= xmin -> xmax <= imx - 1 -> 1 <= ymin -> ymax <= imy ->
  (forall i j, ymin <= i < ymax - 1 -> xmin <= j < xmax -> ~ flat_peak img thres imx imy i j) -> peak_fit img thres xmin xmax ymin ymax imx imy = Ok [].
Proof.
  intros L X1 X2 Y1 Y2 NP. unfold peak_fit. rewrite foldM_unit; cbn [bind].
  - rewrite foldM_unit; [reflexivity|]. intros i I. apply In_zrange in I. apply foldM_unit. intros j J. apply In_zrange in J.
    rewrite (pyget_nonneg _ _ 0); [reflexivity|nia|]. rewrite nth_error_repeat; [reflexivity|]. assert (0 <= i * imx + j < imx * imy) by nia. lia.
  - intros i I. apply In_zrange in I. apply foldM_unit. intros j J. apply In_zrange in J. apply peak_scan_none; [exact L|lia|lia|]. now apply NP.
Qed.
