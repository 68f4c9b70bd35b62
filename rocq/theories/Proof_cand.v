From Coq Require Import Reals Psatz.
From Flocq Require Import Core.Core.
From Verif Require Import Base F64 F64R Model_corr Model_cand Spec_cand.
Local Open Scope Z_scope.

(** ---- the binary search ---- *)
Lemma pcp_pos p : 1 <= pcp p.
Proof. induction p; simpl; lia. Qed.
Lemma popcount_nonneg n : 0 <= popcount n.
Proof. destruct n; simpl; try lia. pose proof (pcp_pos p); lia. Qed.
Lemma popcount_half n : 0 <= n -> popcount n = popcount (n / 2) + n mod 2.
Proof.
  intros H. rewrite <- (Zdiv2_div n). rewrite Zmod_odd.
  destruct n as [|p|p]; try lia; [reflexivity|]. destruct p; simpl; lia.
Qed.

(** total distance the loop can still travel *)
Definition span (d : Z) : Z := if d >? 1 then 2 * d - popcount d - 1 else 0.
Lemma span_step d : 1 < d -> span d = d + span (d / 2).
Proof.
  intros H. unfold span. rewrite (popcount_half d) by lia.
  pose proof (Z.div_mod d 2 ltac:(lia)) as E. pose proof (Z.mod_pos_bound d 2 ltac:(lia)).
  destruct (Z.gtb_spec d 1); [|lia].
  destruct (Z.gtb_spec (d / 2) 1); [lia|].
  assert (d / 2 = 1) as E1 by (assert (1 <= d / 2) by (apply Z.div_le_lower_bound; lia); lia).
  rewrite E1 in *.
  change (popcount 1) with 1. lia.
Qed.
Lemma span_nonneg d : 0 <= span d.
Proof.
  unfold span. destruct (Z.gtb_spec d 1) as [H|H]; [|lia].
  assert (G : forall n, (0 < n)%nat -> popcount (Z.of_nat n) <= Z.of_nat n).
  { induction n as [n IH] using lt_wf_ind. intros Hn.
    destruct (Nat.eq_dec n 1) as [->|]; [simpl; lia|].
    rewrite popcount_half by lia. pose proof (Z.div_mod (Z.of_nat n) 2 ltac:(lia)).
    pose proof (Z.mod_pos_bound (Z.of_nat n) 2 ltac:(lia)).
    assert (Hq : 0 < Z.of_nat n / 2) by (apply Z.div_str_pos; lia).
    specialize (IH (Z.to_nat (Z.of_nat n / 2)) ltac:(lia) ltac:(lia)).
    rewrite Z2Nat.id in IH by lia. lia. }
  specialize (G (Z.to_nat d) ltac:(lia)). rewrite Z2Nat.id in G by lia. lia.
Qed.

Lemma popcount_half_le n : 0 <= n -> popcount (n / 2) <= popcount n.
Proof. intros. rewrite (popcount_half n) by auto. pose proof (Z.mod_pos_bound n 2 ltac:(lia)); lia. Qed.

(** Loop rule: the loop finishes, all probes are inside, and an invariant
    [I j0 dj] kept by both moves holds at the end. *)
Lemma bin_loop_rule (x : list f64) lim (I : Z -> Z -> Prop) fuel j0 dj :
  dj <= Z.of_nat fuel -> 0 <= dj ->
  0 <= j0 - span dj -> (1 < dj -> j0 + span dj < Z.of_nat (length x)) ->
  I j0 dj ->
  (forall j d v, 1 < d -> 0 <= j -> nth_error x (Z.to_nat j) = Some v -> I j d ->
     if flt v lim then I (j + d) (d / 2) else I (j - d) (d / 2)) ->
  exists r d, bin_loop fuel x lim j0 dj = Ok r /\ I r d /\ 0 <= d <= 1.
Proof.
  intros Hf Hd Hlo Hhi HI Hstep. revert j0 dj Hf Hd Hlo Hhi HI.
  induction fuel as [|fuel IH]; intros j0 dj Hf Hd Hlo Hhi HI; simpl.
  - destruct (Z.gtb_spec dj 1); [lia|]. exists j0, dj. repeat split; auto; lia.
  - destruct (Z.gtb_spec dj 1) as [H1|H1]; [|exists j0, dj; repeat split; auto; lia].
    pose proof (span_step dj H1) as Es. pose proof (span_nonneg (dj / 2)) as Hs.
    assert (Hj : 0 <= j0 < Z.of_nat (length x)) by (specialize (Hhi H1); lia).
    destruct (pyget_in_range x j0 Hj) as (v & -> & Hv). simpl.
    pose proof (Hstep j0 dj v H1 ltac:(lia) Hv HI) as HS. specialize (Hhi H1).
    assert (Hq : dj / 2 < dj) by (apply Z.div_lt; lia).
    assert (Hq0 : 0 <= dj / 2) by (apply Z.div_pos; lia).
    destruct (flt v lim); apply IH; auto; try lia.
Qed.

Lemma half_quarter n : n / 4 = n / 2 / 2.
Proof. rewrite Z.div_div by lia. reflexivity. Qed.

Lemma start_span n : 0 <= n -> 1 < n / 4 -> n / 2 - span (n / 4) = popcount (n / 2) + 1.
Proof.
  intros H H1. rewrite half_quarter in *. unfold span. destruct (Z.gtb_spec (n / 2 / 2) 1); [|lia].
  rewrite (popcount_half (n / 2)) by (apply Z.div_pos; lia).
  pose proof (Z.div_mod (n / 2) 2 ltac:(lia)). lia.
Qed.

Lemma start_bounds n : 0 <= n -> 0 <= n / 2 - span (n / 4) /\ (1 < n / 4 -> n / 2 + span (n / 4) < n).
Proof.
  intros H. assert (0 <= n / 2) by (apply Z.div_pos; lia).
  destruct (Z_le_gt_dec (n / 4) 1) as [H1|H1].
  - unfold span. destruct (Z.gtb_spec (n / 4) 1); [lia|]. split; lia.
  - pose proof (start_span n H ltac:(lia)) as E. pose proof (popcount_nonneg (n / 2)).
    pose proof (Z.div_mod n 2 ltac:(lia)). pose proof (Z.mod_pos_bound n 2 ltac:(lia)). split; lia.
Qed.

Lemma quarter_fuel n : 0 <= n -> n / 4 <= Z.of_nat (Z.to_nat n) /\ 0 <= n / 4.
Proof.
  intros. assert (0 <= n / 4) by (apply Z.div_pos; lia).
  pose proof (Z.div_mod n 4 ltac:(lia)). pose proof (Z.mod_pos_bound n 4 ltac:(lia)). lia.
Qed.

(** first index that is not below [lim] *)
Fixpoint first_ge (x : list f64) (lim : f64) : Z :=
  match x with [] => 0 | v :: t => if flt v lim then 1 + first_ge t lim else 0 end.
Lemma first_ge_range x lim : 0 <= first_ge x lim <= Z.of_nat (length x).
Proof. induction x; cbn [first_ge length]; [lia|]. destruct (flt a lim); lia. Qed.
Lemma first_ge_below x lim k : k <= first_ge x lim -> before_window x lim k.
Proof.
  revert k; induction x as [|a t IH]; intros k Hk i v Hi Hn.
  - destruct (Z.to_nat i); discriminate.
  - cbn [first_ge] in Hk. destruct (flt a lim) eqn:E; [|lia].
    destruct (Z.to_nat i) as [|i'] eqn:Ei; simpl in Hn; [congruence|].
    apply (IH (k - 1) ltac:(lia) (Z.of_nat i') v); [lia|]. now rewrite Nat2Z.id.
Qed.
Lemma first_ge_above x lim k : before_window x lim k -> k <= Z.of_nat (length x) -> k <= first_ge x lim.
Proof.
  revert k; induction x as [|a t IH]; intros k Hb Hl.
  - simpl in *; lia.
  - cbn [first_ge length] in *. destruct (Z_le_gt_dec k 0); [pose proof (first_ge_range t lim); destruct (flt a lim); lia|].
    rewrite (Hb 0 a) by (auto; lia).
    assert (k - 1 <= first_ge t lim); [|lia]. apply IH; [|lia].
    intros i v Hi Hn. apply (Hb (i + 1) v); [lia|]. replace (Z.to_nat (i + 1)) with (S (Z.to_nat i)) by lia. exact Hn.
Qed.
(** ascending input: an entry below [lim] is before the first one that is not *)
Lemma first_ge_lt x lim j v : ascending x -> 0 <= j -> nth_error x (Z.to_nat j) = Some v ->
  flt v lim = true -> j < first_ge x lim.
Proof.
  intros Ha Hj Hn Hv. assert (j + 1 <= first_ge x lim); [|lia].
  apply first_ge_above.
  - intros i w Hi Hw. destruct (Z.eq_dec i j) as [->|]; [congruence|].
    eapply fle_flt_trans; [|exact Hv]. apply (Ha (Z.to_nat i) (Z.to_nat j)); auto; lia.
  - assert (Z.to_nat j < length x)%nat by (apply nth_error_Some; congruence). lia.
Qed.

(** both searches (find_candidate, candsearch_in_pix) share this start computation *)
Definition start_lim (x : list f64) (num : Z) (lim : f64) : result Z :=
  do j0 <- bin_loop (Z.to_nat num) x lim (num / 2) (num / 4);
  Ok (if j0 - 12 <? 0 then 0 else j0 - 12).
Lemma start_in_bounds_lim x num lim : 0 <= num -> num = Z.of_nat (length x) ->
  exists k, start_lim x num lim = Ok k /\ 0 <= k /\ (0 < num -> k < num).
Proof.
  intros H0 Hn. destruct (start_bounds num H0) as (B1 & B2). destruct (quarter_fuel num H0) as (F1 & F2).
  destruct (bin_loop_rule x lim (fun j d => 0 <= j - span d /\ j + span d <= Z.max 0 (num - 1))
              (Z.to_nat num) (num / 2) (num / 4)) as (r & d & E & (I1 & I2) & Hd); auto; try lia.
  - split; auto. destruct (Z_le_gt_dec (num / 4) 1) as [L|L]; [|specialize (B2 ltac:(lia)); lia].
    unfold span. destruct (Z.gtb_spec (num / 4) 1); [lia|].
    pose proof (Z.div_mod num 2 ltac:(lia)). pose proof (Z.mod_pos_bound num 2 ltac:(lia)). lia.
  - intros j d v Hd Hj Hv (I1 & I2). pose proof (span_step d Hd). pose proof (span_nonneg (d / 2)).
    destruct (flt v _); lia.
  - unfold start_lim. rewrite E. simpl.
    assert (span d = 0) as E0 by (unfold span; destruct (Z.gtb_spec d 1); lia).
    eexists. split; [reflexivity|]. destruct (Z.ltb_spec (r - 12) 0); lia.
Qed.

Lemma start_ok_lim x num lim k : num = Z.of_nat (length x) -> ascending x ->
  popcount (num / 2) <= 11 ->
  start_lim x num lim = Ok k -> before_window x lim k.
Proof.
  intros Hn Ha Hpc Hf.
  assert (H0 : 0 <= num) by lia.
  destruct (start_bounds num H0) as (B1 & B2). destruct (quarter_fuel num H0) as (F1 & F2).
  set (F := first_ge x lim).
  pose proof (first_ge_range x lim) as HF. fold F in HF.
  destruct (bin_loop_rule x lim (fun j d => j - span d <= F + 12 /\ popcount d <= 11)
              (Z.to_nat num) (num / 2) (num / 4)) as (r & d & E & (I1 & I2) & Hd); auto; try lia.
  - split.
    + destruct (Z_le_gt_dec (num / 4) 1) as [L|L].
      * unfold span. destruct (Z.gtb_spec (num / 4) 1); [lia|].
        pose proof (Z.div_mod num 4 ltac:(lia)). pose proof (Z.mod_pos_bound num 4 ltac:(lia)).
        pose proof (Z.div_mod num 2 ltac:(lia)). pose proof (Z.mod_pos_bound num 2 ltac:(lia)). lia.
      * rewrite start_span by lia. lia.
    + rewrite half_quarter. pose proof (popcount_half_le (num / 2) ltac:(apply Z.div_pos; lia)). lia.
  - intros j d v Hd Hj Hv (I1 & I2). pose proof (span_step d Hd) as Es.
    pose proof (popcount_half_le d ltac:(lia)).
    destruct (flt v lim) eqn:Ev; [|lia].
    pose proof (first_ge_lt x lim j v Ha Hj Hv Ev) as L. fold F in L.
    assert (span d = 2 * d - popcount d - 1) by (unfold span; destruct (Z.gtb_spec d 1); lia). lia.
  - unfold start_lim in Hf. rewrite E in Hf. simpl in Hf.
    assert (span d = 0) as E0 by (unfold span; destruct (Z.gtb_spec d 1); lia).
    inversion Hf; subst k. apply first_ge_below. fold F. destruct (Z.ltb_spec (r - 12) 0); lia.
Qed.

(** conversely, with 12 or more one bits in num/2 the search can start too late *)
Lemma start_too_late_lim x num lim : num = Z.of_nat (length x) -> 12 <= popcount (num / 2) ->
  (forall v, In v x -> flt v lim = false) ->
  exists k, start_lim x num lim = Ok k /\ k = popcount (num / 2) - 11 /\ 0 < k < num.
Proof.
  intros Hn Hpc Hall. assert (H0 : 0 <= num) by lia.
  destruct (start_bounds num H0) as (B1 & B2). destruct (quarter_fuel num H0) as (F1 & F2).
  assert (Hq : 1 < num / 4).
  { destruct (Z_le_gt_dec (num / 4) 1) as [L|L]; [|lia]. exfalso.
    rewrite half_quarter in *. rewrite popcount_half in Hpc by (apply Z.div_pos; lia).
    pose proof (Z.mod_pos_bound (num / 2) 2 ltac:(lia)).
    assert (num / 2 / 2 = 0 \/ num / 2 / 2 = 1) as [Ez|Ez] by lia; rewrite Ez in Hpc; cbn [popcount pcp] in Hpc; lia. }
  destruct (bin_loop_rule x lim (fun j d => j - span d = popcount (num / 2) + 1)
              (Z.to_nat num) (num / 2) (num / 4)) as (r & d & E & I1 & Hd); auto; try lia.
  - apply start_span; lia.
  - intros j d v Hd Hj Hv I1. rewrite (Hall v) by (eapply nth_error_In; eauto).
    pose proof (span_step d Hd). lia.
  - assert (span d = 0) as E0 by (unfold span; destruct (Z.gtb_spec d 1); lia).
    destruct (start_in_bounds_lim x num lim H0 Hn) as (k & Ek & K1 & K2).
    exists k. split; auto. unfold start_lim in Ek. rewrite E in Ek. simpl in Ek.
    inversion Ek as [Ek']. destruct (Z.ltb_spec (r - 12) 0); lia.
Qed.

Lemma start_in_bounds x num xa eps : 0 <= num -> num = Z.of_nat (length x) ->
  exists k, find_start_point_binary x num xa eps = Ok k /\ 0 <= k /\ (0 < num -> k < num).
Proof. exact (start_in_bounds_lim x num (fsub xa eps)). Qed.
Lemma start_ok x num xa eps k : num = Z.of_nat (length x) -> ascending x ->
  popcount (num / 2) <= 11 ->
  find_start_point_binary x num xa eps = Ok k -> before_window x (fsub xa eps) k.
Proof. exact (start_ok_lim x num (fsub xa eps) k). Qed.
Lemma start_too_late x num xa eps : num = Z.of_nat (length x) -> 12 <= popcount (num / 2) ->
  (forall v, In v x -> flt v (fsub xa eps) = false) ->
  exists k, find_start_point_binary x num xa eps = Ok k /\ k = popcount (num / 2) - 11 /\ 0 < k < num.
Proof. exact (start_too_late_lim x num (fsub xa eps)). Qed.

(** ---- quality ratio ---- *)
Lemma small_exact z : small z -> fin (f_of_Z z) /\ val (f_of_Z z) = IZR z.
Proof. intros (H1 & H2). apply f_of_Z_exact. rewrite Z.abs_eq; auto. Qed.

Lemma flt_of_Z a b : small a -> small b -> flt (f_of_Z a) (f_of_Z b) = (a <? b).
Proof.
  intros Ha Hb. destruct (small_exact a Ha) as (Fa & Va), (small_exact b Hb) as (Fb & Vb).
  rewrite flt_correct by auto. rewrite Va, Vb.
  destruct (Z.ltb_spec a b).
  - apply Rlt_bool_true. now apply IZR_lt.
  - apply Rlt_bool_false. now apply IZR_le.
Qed.
Lemma feq_of_Z_0 a : small a -> feq (f_of_Z a) fzero = (a =? 0).
Proof.
  intros Ha. destruct (small_exact a Ha) as (Fa & Va).
  change fzero with (f_of_Z 0). destruct (small_exact 0 ltac:(unfold small; lia)) as (F0 & V0).
  rewrite feq_correct by auto. rewrite Va, V0.
  destruct (Z.eqb_spec a 0) as [->|N].
  - now apply Req_bool_true.
  - apply Req_bool_false. now apply IZR_neq.
Qed.
Lemma small_min a b : small a -> small b -> small (Z.min a b).
Proof. unfold small; lia. Qed.
Lemma small_max a b : small a -> small b -> small (Z.max a b).
Proof. unfold small; lia. Qed.
Lemma fmin_of_Z a b : small a -> small b -> fmin (f_of_Z a) (f_of_Z b) = f_of_Z (Z.min a b).
Proof. intros. unfold fmin. rewrite flt_of_Z by auto. destruct (Z.ltb_spec b a); f_equal; lia. Qed.
Lemma fmax_of_Z a b : small a -> small b -> fmax (f_of_Z a) (f_of_Z b) = f_of_Z (Z.max a b).
Proof. intros. unfold fmax. rewrite flt_of_Z by auto. destruct (Z.ltb_spec a b); f_equal; lia. Qed.

Lemma quality_ratio_exact a b : small a -> small b ->
  quality_ratio (f_of_Z a) (f_of_Z b) = Ok (ratio a b).
Proof.
  intros Ha Hb. unfold quality_ratio, ratio. rewrite !feq_of_Z_0 by auto.
  destruct ((a =? 0) && (b =? 0)) eqn:E; auto.
  rewrite fmax_of_Z, fmin_of_Z by auto.
  rewrite feq_of_Z_0 by now apply small_max.
  destruct (Z.eqb_spec (Z.max a b) 0) as [E0|]; auto.
  exfalso. unfold small in *. apply andb_false_iff in E as [E|E]; apply Z.eqb_neq in E; lia.
Qed.

Lemma ratio_sym a b : ratio a b = ratio b a.
Proof. unfold ratio. now rewrite andb_comm, Z.min_comm, Z.max_comm. Qed.

Local Open Scope R_scope.
Lemma one_lt_big : 1 < big.
Proof. change 1 with (bpow radix2 0). unfold big. apply bpow_lt. lia. Qed.
Lemma rnd_1 : rnd 1 = 1.
Proof. apply (rnd_int 1). simpl. lia. Qed.

Lemma quot_bounds a b : small a -> small b -> (0 < Z.max a b)%Z ->
  0 <= IZR (Z.min a b) / IZR (Z.max a b) <= 1.
Proof.
  intros Ha Hb H. assert (0 < IZR (Z.max a b)) by now apply IZR_lt.
  assert (0 <= IZR (Z.min a b)) by (apply IZR_le; unfold small in *; lia).
  assert (IZR (Z.min a b) <= IZR (Z.max a b)) by (apply IZR_le; lia).
  split; [apply Rmult_le_pos; auto; left; now apply Rinv_0_lt_compat|].
  apply Rmult_le_reg_r with (IZR (Z.max a b)); auto. unfold Rdiv. rewrite Rmult_assoc, Rinv_l by lra. lra.
Qed.

Lemma ratio_val a b : small a -> small b ->
  fin (ratio a b) /\
  val (ratio a b) = if (Z.max a b =? 0)%Z then 0 else rnd (IZR (Z.min a b) / IZR (Z.max a b)).
Proof.
  intros Ha Hb. unfold ratio.
  destruct ((a =? 0)%Z && (b =? 0)%Z) eqn:E.
  - apply andb_true_iff in E as [E1 E2]. apply Z.eqb_eq in E1, E2. subst. simpl.
    split; [split; reflexivity|reflexivity].
  - assert (Hm : (0 < Z.max a b)%Z) by (unfold small in *; apply andb_false_iff in E as [E|E]; apply Z.eqb_neq in E; lia).
    destruct (Z.eqb_spec (Z.max a b) 0); [lia|].
    destruct (small_exact _ (small_min a b Ha Hb)) as (Fm & Vm), (small_exact _ (small_max a b Ha Hb)) as (FM & VM).
    destruct (fdiv_correct _ _ Fm FM) as (F & V).
    + rewrite VM. apply IZR_neq. lia.
    + rewrite Vm, VM. pose proof (quot_bounds a b Ha Hb Hm).
      apply Rle_lt_trans with 1; [|apply one_lt_big]. apply rnd_abs_le; [apply rnd_1|]. rewrite Rabs_pos_eq; lra.
    + split; auto. now rewrite V, Vm, VM.
Qed.

Lemma ratio_range a b : small a -> small b -> 0 <= val (ratio a b) <= 1.
Proof.
  intros Ha Hb. destruct (ratio_val a b Ha Hb) as (_ & ->).
  destruct (Z.eqb_spec (Z.max a b) 0); [lra|].
  assert (Hm : (0 < Z.max a b)%Z) by (unfold small in *; lia).
  pose proof (quot_bounds a b Ha Hb Hm). split; [apply rnd_pos; lra|].
  rewrite <- rnd_1. apply rnd_le. lra.
Qed.

(** a quotient of different integers below 2^53 stays below 1 after rounding *)
Lemma rnd_lt_1 r : 0 <= r <= 1 - / IZR (2 ^ 53) -> rnd r < 1.
Proof.
  intros H. apply Rle_lt_trans with (1 - / IZR (2 ^ 53)).
  - assert (G : rnd (1 - / IZR (2 ^ 53)) = 1 - / IZR (2 ^ 53)).
    { unfold rnd. apply round_generic; [typeclasses eauto|].
      apply (generic_format_FLT radix2 (SpecFloat.emin 53 1024) 53).
      exists (Float radix2 (2 ^ 53 - 1) (-53)).
      - unfold F2R. cbn [Fnum Fexp]. rewrite minus_IZR.
        change (bpow radix2 (-53)) with (/ IZR (2 ^ 53)). field. apply IZR_neq; lia.
      - cbn [Fnum]. simpl. lia.
      - cbn [Fexp]. unfold SpecFloat.emin. lia. }
    rewrite <- G. apply rnd_le. lra.
  - assert (0 < / IZR (2 ^ 53)) by (apply Rinv_0_lt_compat; apply IZR_lt; lia). lra.
Qed.

Lemma ratio_one a b : small a -> small b ->
  (val (ratio a b) = 1 <-> a = b /\ (0 < a)%Z).
Proof.
  intros Ha Hb. destruct (ratio_val a b Ha Hb) as (_ & ->).
  destruct (Z.eqb_spec (Z.max a b) 0) as [E|E].
  - split; [lra|]. intros (-> & H). unfold small in *; lia.
  - assert (Hm : (0 < Z.max a b)%Z) by (unfold small in *; lia).
    split.
    + intros H1. destruct (Z.eq_dec a b) as [->|N]; [split; auto; unfold small in *; lia|].
      exfalso. pose proof (quot_bounds a b Ha Hb Hm) as Q.
      set (M := Z.max a b) in *. set (m := Z.min a b) in *.
      assert (HmM : (m + 1 <= M)%Z) by (unfold m, M; lia).
      assert (HM : (M <= 2 ^ 53)%Z) by (unfold M, small in *; lia).
      assert (0 < IZR M) by now apply IZR_lt.
      assert (IZR m / IZR M <= 1 - / IZR (2 ^ 53)).
      { apply Rle_trans with (1 - / IZR M).
        - apply Rmult_le_reg_r with (IZR M); auto. unfold Rdiv.
          rewrite Rmult_assoc, Rinv_l by lra. rewrite Rmult_minus_distr_r, Rinv_l by lra.
          assert (IZR m + 1 <= IZR M) by (rewrite <- plus_IZR; now apply IZR_le). lra.
        - assert (/ IZR (2 ^ 53) <= / IZR M); [|lra].
          apply Rinv_le_contravar; auto. now apply IZR_le. }
      pose proof (rnd_lt_1 (IZR m / IZR M) ltac:(lra)). lra.
    + intros (-> & Hp). rewrite Z.min_id, Z.max_id. unfold Rdiv. rewrite Rinv_r by (apply IZR_neq; lia).
      apply rnd_1.
Qed.

(** addition, multiplication with known bounds that are representable *)
Lemma add_bound x y bx by_ B : fin x -> fin y -> 0 <= val x <= bx -> 0 <= val y <= by_ ->
  bx + by_ <= IZR B -> (0 <= B <= 2 ^ 53)%Z ->
  fin (fadd x y) /\ 0 <= val (fadd x y) <= IZR B.
Proof.
  intros Fx Fy Hx Hy HB Hb.
  assert (HA : Rabs (rnd (val x + val y)) <= IZR B).
  { apply rnd_abs_le; [apply rnd_int; rewrite Z.abs_eq; lia|]. rewrite Rabs_pos_eq; lra. }
  destruct (fadd_correct x y Fx Fy) as (F & V).
  { eapply Rle_lt_trans; [exact HA|]. rewrite <- (Rabs_pos_eq (IZR B)) by (apply IZR_le; lia).
    apply int_lt_big. rewrite Z.abs_eq; lia. }
  split; auto. rewrite V. split; [apply rnd_pos; lra|].
  eapply Rle_trans; [apply Rle_abs|exact HA].
Qed.
Lemma mul_bound x y bx by_ B : fin x -> fin y -> 0 <= val x <= bx -> 0 <= val y <= by_ ->
  bx * by_ <= IZR B -> (0 <= B <= 2 ^ 53)%Z ->
  fin (fmul x y) /\ 0 <= val (fmul x y) <= IZR B.
Proof.
  intros Fx Fy Hx Hy HB Hb.
  assert (Hxy : 0 <= val x * val y <= IZR B).
  { split; [apply Rmult_le_pos; lra|]. eapply Rle_trans; [|exact HB]. apply Rmult_le_compat; lra. }
  assert (HA : Rabs (rnd (val x * val y)) <= IZR B).
  { apply rnd_abs_le; [apply rnd_int; rewrite Z.abs_eq; lia|]. rewrite Rabs_pos_eq; lra. }
  destruct (fmul_correct x y Fx Fy) as (F & V).
  { eapply Rle_lt_trans; [exact HA|]. rewrite <- (Rabs_pos_eq (IZR B)) by (apply IZR_le; lia).
    apply int_lt_big. rewrite Z.abs_eq; lia. }
  split; auto. rewrite V. split; [apply rnd_pos; lra|].
  eapply Rle_trans; [apply Rle_abs|exact HA].
Qed.

Lemma score_bound sh t :
  small (sh_n sh) -> small (sh_nx sh) -> small (sh_ny sh) -> small (t_n t) -> small (t_nx t) -> small (t_ny t) ->
  small (sh_sumg sh) -> small (t_sumg t) ->
  (8 * (sh_sumg sh + t_sumg t) <= 2 ^ 53)%Z ->
  fin (score sh t) /\ 0 <= val (score sh t) <= 8 * IZR (sh_sumg sh + t_sumg t).
Proof.
  intros H1 H2 H3 H4 H5 H6 H7 H8 HS. unfold score.
  assert (Hs : small (sh_sumg sh + t_sumg t)) by (unfold small in *; lia).
  destruct (small_exact _ Hs) as (Fs & Vs).
  destruct (small_exact 4 ltac:(unfold small; lia)) as (F4 & V4).
  destruct (small_exact 2 ltac:(unfold small; lia)) as (F2 & V2).
  destruct (ratio_val (sh_sumg sh) (t_sumg t) H7 H8) as (Fg & _). pose proof (ratio_range _ _ H7 H8) as Rg.
  destruct (ratio_val (sh_n sh) (t_n t) H1 H4) as (Fn & _). pose proof (ratio_range _ _ H1 H4) as Rn.
  destruct (ratio_val (sh_nx sh) (t_nx t) H2 H5) as (Fx & _). pose proof (ratio_range _ _ H2 H5) as Rx.
  destruct (ratio_val (sh_ny sh) (t_ny t) H3 H6) as (Fy & _). pose proof (ratio_range _ _ H3 H6) as Ry.
  destruct (mul_bound _ _ 4 1 4 F4 Fg) as (Ma & Mb); try lra; try lia.
  destruct (mul_bound _ _ 2 1 2 F2 Fn) as (Na & Nb); try lra; try lia.
  destruct (add_bound _ _ 4 2 6 Ma Na) as (A1 & A2); try lra; try lia.
  destruct (add_bound _ _ 6 1 7 A1 Fx) as (B1 & B2); try lra; try lia.
  destruct (add_bound _ _ 7 1 8 B1 Fy) as (C1 & C2); try lra; try lia.
  replace (8 * IZR (sh_sumg sh + t_sumg t)) with (IZR (8 * (sh_sumg sh + t_sumg t))) by now rewrite mult_IZR.
  apply (mul_bound _ _ 8 (IZR (sh_sumg sh + t_sumg t))); auto.
  - rewrite Vs. split; [|lra]. apply IZR_le. unfold small in *; lia.
  - rewrite mult_IZR. lra.
  - unfold small in *; lia.
Qed.
