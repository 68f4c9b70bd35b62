(** Properties C10-C12: epipolar candidate search. *)
From Coq Require Import Reals Sorted.
From Verif Require Import Base F64 F64R Model_corr Spec_corr Model_cand Spec_cand Proof_cand Proof_cand2.
Local Open Scope Z_scope.

(** ===== C10: find_candidate returns exactly the first 40 qualifying targets, in x order =====
    for all x-sorted inputs whose size [num] has at most 11 one bits in num/2
    (all sizes up to 8189, see C11_range). *)
Theorem C10_find_candidate_exact : forall crd pix num xa ya xb yb sh vp s,
  num = Z.of_nat (length crd) -> shapes_ok sh pix -> pnrs_ok crd pix -> ascending (map c_x crd) ->
  popcount (num / 2) <= 11 ->
  let g := segment_of xa ya xb yb in
  find_candidate crd pix num xa ya xb yb sh vp s =
  Ok (if off_sensor g s then [] else firstn 40 (matching vp sh g pix 0 crd)).
Proof. exact find_candidate_exact. Qed.
Print Assumptions C10_find_candidate_exact.

(** [matching] enumerates exactly the qualifying entries, in increasing index order *)
Theorem C10_matching_complete : forall vp sh g pix crd q x d,
  In (q, x, d) (matching vp sh g pix 0 crd) <->
  exists i c t, q = 0 + Z.of_nat i /\ nth_error crd i = Some c /\ nth_error pix (Z.to_nat (c_pnr c)) = Some t /\
    qualifies vp sh g c t = true /\ x = score sh t /\ d = dist_to g c.
Proof. intros. apply matching_In. Qed.
Print Assumptions C10_matching_complete.

Theorem C10_matching_order : forall vp sh g pix crd,
  StronglySorted Z.lt (map (fun x => fst (fst x)) (matching vp sh g pix 0 crd)).
Proof. intros. apply matching_sorted. Qed.
Print Assumptions C10_matching_order.

(** soundness holds for every number of targets *)
Theorem C10_find_candidate_sound : forall crd pix num xa ya xb yb sh vp s,
  num = Z.of_nat (length crd) -> shapes_ok sh pix -> pnrs_ok crd pix -> ascending (map c_x crd) ->
  let g := segment_of xa ya xb yb in
  exists l, find_candidate crd pix num xa ya xb yb sh vp s = Ok l /\
    (length l <= 40)%nat /\ StronglySorted Z.lt (map (fun x => fst (fst x)) l) /\
    forall j x d, In (j, x, d) l ->
      0 <= j < num /\ off_sensor g s = false /\
      exists c t, nth_error crd (Z.to_nat j) = Some c /\ nth_error pix (Z.to_nat (c_pnr c)) = Some t /\
        qualifies vp sh g c t = true /\ x = score sh t /\ d = dist_to g c.
Proof. exact find_candidate_sound. Qed.
Print Assumptions C10_find_candidate_sound.

(** for numbers (not NaN) the window and distance tests read as strict inequalities *)
Theorem C10_window_reading : forall g eps c,
  is_nan (c_x c) = false -> is_nan (c_y c) = false ->
  is_nan (fsub (g_xlo g) eps) = false -> is_nan (fadd (g_xhi g) eps) = false ->
  is_nan (fsub (g_ylo g) eps) = false -> is_nan (fadd (g_yhi g) eps) = false ->
  in_window g eps c =
    (flt (fsub (g_xlo g) eps) (c_x c) && flt (c_x c) (fadd (g_xhi g) eps) &&
     flt (fsub (g_ylo g) eps) (c_y c) && flt (c_y c) (fadd (g_yhi g) eps)).
Proof.
  intros g eps c H1 H2 H3 H4 H5 H6. unfold in_window.
  assert (E : forall a b, is_nan a = false -> is_nan b = false -> negb (fle a b) = flt b a).
  { intros a b Ha Hb. pose proof (fle_false_flt a b Ha Hb) as (P & Q).
    destruct (fle a b), (flt b a); simpl; auto; [discriminate (Q eq_refl)|discriminate (P eq_refl)]. }
  rewrite !E by auto. reflexivity.
Qed.
Print Assumptions C10_window_reading.

(** the candidate lists satisfy what match_pairs and the clique search assume *)
Theorem C10_cands_ok : forall crds pixs nc counts xa ya xb yb sh vp s,
  length counts = Z.to_nat nc ->
  (forall b nb, 0 <= b < nc -> nth_error counts (Z.to_nat b) = Some nb ->
     exists crd pix, crds b = crd /\ pixs b = pix /\ nb = Z.of_nat (length crd) /\ pnrs_ok crd pix /\ ascending (map c_x crd) /\
       forall a i, shapes_ok (sh a i) pix) ->
  cands_ok (fun a b i => find_candidate (crds b) (pixs b) (Z.of_nat (length (crds b)))
              (xa a b i) (ya a b i) (xb a b i) (yb a b i) (sh a i) vp (s b)) nc counts.
Proof. exact find_candidate_cands_ok. Qed.
Print Assumptions C10_cands_ok.

(** a concrete case: three detections, two near the line y = 0 *)
Definition ex_tar (n : Z) : target := mk_target 0 fzero fzero n 3 3 100 (-1).
Definition ex_pt (p x y : Z) : coord2d := mk_coord2d p (f_of_Z x) (f_of_Z y).
Definition ex_vol : vol_limits := mk_vol (f_of_Z 1) fzero fzero fzero fzero.
Definition ex_sensor : sensor := mk_sensor (f_of_Z (-100)) (f_of_Z 100) (f_of_Z (-100)) (f_of_Z 100).
Definition ex_shape : shape := mk_shape 9 3 3 100.
Definition ex_crd := [ex_pt 2 (-1) 0; ex_pt 0 0 5; ex_pt 1 2 0].
Definition ex_pix := [ex_tar 9; ex_tar 9; ex_tar 5].
Example C10_case : shapes_ok ex_shape ex_pix /\ pnrs_ok ex_crd ex_pix /\ ascending (map c_x ex_crd) /\
  popcount (3 / 2) <= 11 /\
  exists a b, find_candidate ex_crd ex_pix 3 (f_of_Z (-2)) fzero (f_of_Z 3) fzero ex_shape ex_vol ex_sensor = Ok [a; b] /\
    fst (fst a) = 0 /\ fst (fst b) = 2.
Proof.
  split.
  { unfold shapes_ok, small. simpl. repeat split; try lia; destruct H as [<-|[<-|[<-|[]]]]; simpl; lia. }
  split. { intros c [<-|[<-|[<-|[]]]]; simpl; lia. }
  split.
  { intros i j a b H. destruct i as [|[|[|i]]], j as [|[|[|j]]]; simpl; try lia; intros H1 H2; try discriminate;
      try (destruct i; discriminate); try (destruct j; discriminate);
      inversion H1; inversion H2; subst; vm_compute; reflexivity. }
  split. { vm_compute. discriminate. }
  eexists _, _. split; [vm_compute; reflexivity|]. split; reflexivity.
Qed.

(** REFUTATION for large target counts: for every number of detections with 12
    or more one bits in num/2 (8190 is the smallest) there is an input with a
    qualifying target for which nothing is returned *)
Definition bad_crd (n : nat) : list coord2d := ex_pt 0 0 0 :: repeat (ex_pt 0 0 50) n.
Theorem C10_large_input_refuted : forall num, 12 <= popcount (num / 2) ->
  exists crd pix xa ya xb yb sh vp s,
  num = Z.of_nat (length crd) /\ shapes_ok sh pix /\ pnrs_ok crd pix /\ ascending (map c_x crd) /\
  (exists e, In e (matching vp sh (segment_of xa ya xb yb) pix 0 crd)) /\
  off_sensor (segment_of xa ya xb yb) s = false /\
  find_candidate crd pix num xa ya xb yb sh vp s = Ok [].
Proof.
  intros num Hpc.
  assert (Hnum : 0 < num).
  { destruct (Z_lt_le_dec 0 num); auto. assert (num / 2 <= 0) by (apply Z.div_le_upper_bound; lia).
    destruct (num / 2); simpl in Hpc; lia. }
  set (n := Z.to_nat (num - 1)). set (crd := bad_crd n).
  exists crd, [ex_tar 9], (f_of_Z (-2)), fzero, (f_of_Z 3), fzero, ex_shape, ex_vol, ex_sensor.
  assert (Hlen : num = Z.of_nat (length crd)).
  { unfold crd, bad_crd. cbn [length]. rewrite repeat_length. unfold n. lia. }
  split; auto.
  assert (HS : shapes_ok ex_shape [ex_tar 9]).
  { unfold shapes_ok, small. simpl. repeat split; try lia; destruct H as [<-|[]]; simpl; lia. }
  split; auto.
  assert (HI : forall c, In c crd -> c_pnr c = 0 /\ c_x c = f_of_Z 0).
  { intros c [<-|H]; [auto|]. apply repeat_spec in H. rewrite H. auto. }
  assert (HP : pnrs_ok crd [ex_tar 9]). { intros c H. destruct (HI c H) as (-> & _). simpl. lia. }
  split; auto.
  assert (HA : ascending (map c_x crd)).
  { intros i j a b _ H1 H2. rewrite nth_error_map in H1. rewrite nth_error_map in H2.
    destruct (nth_error crd i) as [c|] eqn:E1; [|discriminate].
    destruct (nth_error crd j) as [d|] eqn:E2; [|discriminate].
    simpl in H1, H2. injection H1 as <-. injection H2 as <-.
    rewrite (proj2 (HI c (nth_error_In _ _ E1))), (proj2 (HI d (nth_error_In _ _ E2))). reflexivity. }
  split; auto.
  set (g := segment_of _ _ _ _).
  split.
  { eexists (0, _, _). apply matching_In. exists O, (ex_pt 0 0 0), (ex_tar 9).
    split; [reflexivity|]. split; [reflexivity|]. split; [reflexivity|]. split; [vm_compute; reflexivity|].
    split; reflexivity. }
  split; [vm_compute; reflexivity|].
  destruct (find_candidate_from crd [ex_tar 9] num (f_of_Z (-2)) fzero (f_of_Z 3) fzero ex_shape ex_vol ex_sensor Hlen HS HP HA)
    as (k & Ek & K & ->). fold g in Ek |- *.
  replace (off_sensor g ex_sensor) with false by (vm_compute; reflexivity). f_equal.
  destruct (start_too_late (map c_x crd) num (g_xlo g) (v_eps0 ex_vol)) as (k' & Ek' & Hk' & _);
    [now rewrite map_length|auto| |].
  { intros v Hv. apply in_map_iff in Hv as (c & <- & Hc). rewrite (proj2 (HI c Hc)). vm_compute. reflexivity. }
  assert (Hk : 1 <= k) by (assert (k = k') by congruence; lia).
  assert (E0 : forall m j, matching ex_vol ex_shape g [ex_tar 9] j (repeat (ex_pt 0 0 50) m) = []).
  { induction m as [|m IH]; intros j; [reflexivity|]. cbn [repeat matching]. rewrite IH, app_nil_r.
    change (nth_error [ex_tar 9] (Z.to_nat (c_pnr (ex_pt 0 0 50)))) with (Some (ex_tar 9)). cbv iota.
    replace (qualifies ex_vol ex_shape g (ex_pt 0 0 50) (ex_tar 9)) with false by (vm_compute; reflexivity). reflexivity. }
  assert (E1 : forall i m (c : coord2d), skipn i (repeat c m) = repeat c (m - i)).
  { induction i as [|i IH]; intros m c; [now rewrite Nat.sub_0_r|]. destruct m; [reflexivity|]. simpl. apply IH. }
  replace (Z.to_nat k) with (S (Z.to_nat (k - 1))) by lia.
  unfold crd, bad_crd. cbn [skipn]. rewrite E1, E0. reflexivity.
Qed.
Print Assumptions C10_large_input_refuted.

(** ===== C11: the binary search reads only inside the array and starts in time ===== *)
Theorem C11_in_bounds : forall x num xa eps, 0 <= num -> num = Z.of_nat (length x) ->
  exists k, find_start_point_binary x num xa eps = Ok k /\ 0 <= k /\ (0 < num -> k < num).
Proof. exact start_in_bounds. Qed.
Print Assumptions C11_in_bounds.

Theorem C11_starts_in_time : forall x num xa eps k, num = Z.of_nat (length x) -> ascending x ->
  popcount (num / 2) <= 11 ->
  find_start_point_binary x num xa eps = Ok k -> before_window x (fsub xa eps) k.
Proof. exact start_ok. Qed.
Print Assumptions C11_starts_in_time.

(** the condition on num is necessary: otherwise any array whose entries are all
    at or above the window start makes the search skip entries *)
Theorem C11_too_late_refuted : forall x num xa eps, num = Z.of_nat (length x) -> 12 <= popcount (num / 2) ->
  (forall v, In v x -> flt v (fsub xa eps) = false) ->
  exists k, find_start_point_binary x num xa eps = Ok k /\ k = popcount (num / 2) - 11 /\ 0 < k < num.
Proof. exact start_too_late. Qed.
Print Assumptions C11_too_late_refuted.

(** every size up to 8189 is fine; 8190 is the first bad one *)
Lemma popcount_bound k n : 0 <= n < 2 ^ Z.of_nat k -> popcount n <= Z.of_nat k.
Proof.
  revert n. induction k as [|k IH]; intros n H.
  - assert (n = 0) as -> by (simpl in H; lia). simpl; lia.
  - rewrite popcount_half by lia. pose proof (Z.mod_pos_bound n 2 ltac:(lia)).
    specialize (IH (n / 2)). rewrite Nat2Z.inj_succ, Z.pow_succ_r in H by lia.
    assert (0 <= n / 2 < 2 ^ Z.of_nat k) by (split; [apply Z.div_pos; lia|apply Z.div_lt_upper_bound; lia]). lia.
Qed.
Theorem C11_range : (forall num, 0 <= num < 8190 -> popcount (num / 2) <= 11) /\ popcount (8190 / 2) = 12.
Proof.
  split; [|reflexivity]. intros num H.
  assert (H2 : 0 <= num / 2 < 4095) by (split; [apply Z.div_pos; lia|apply Z.div_lt_upper_bound; lia]).
  set (q := num / 2) in *. clearbody q. clear -H2.
  (* 4095 = 2^12 - 1 is the only number below 2^12 with 12 one bits *)
  assert (G : forall k n, 0 <= n < 2 ^ Z.of_nat k - 1 -> popcount n <= Z.of_nat k - 1).
  { induction k as [|k IH]; intros n Hn; [simpl in Hn; lia|].
    rewrite Nat2Z.inj_succ, Z.pow_succ_r in Hn by lia.
    rewrite popcount_half by lia. pose proof (Z.div_mod n 2 ltac:(lia)) as E. pose proof (Z.mod_pos_bound n 2 ltac:(lia)) as M.
    assert (P : 0 <= n / 2) by (apply Z.div_pos; lia).
    destruct (Z_lt_le_dec (n / 2) (2 ^ Z.of_nat k - 1)) as [L|L].
    - specialize (IH (n / 2) ltac:(lia)). lia.
    - pose proof (popcount_bound k (n / 2) ltac:(lia)). lia. }
  apply (G 12%nat). simpl. lia.
Qed.
Print Assumptions C11_range.

Example C11_case : ascending (map f_of_Z [1; 2; 3; 4; 5; 6; 7; 8; 9]) /\
  find_start_point_binary (map f_of_Z [1; 2; 3; 4; 5; 6; 7; 8; 9]) 9 (f_of_Z 5) fzero = Ok 0.
Proof.
  split; [|vm_compute; reflexivity].
  intros i j a b H H1 H2. rewrite nth_error_map in H1, H2.
  do 9 (destruct i as [|i]; [inversion H1; subst; do 9 (destruct j as [|j]; [simpl in H2; inversion H2; subst; try lia; vm_compute; reflexivity|]); destruct j; discriminate|]).
  destruct i; discriminate.
Qed.

(** ===== C12: shape quality ratio and score ===== *)
Theorem C12_ratio : forall a b, small a -> small b ->
  exists r, quality_ratio (f_of_Z a) (f_of_Z b) = Ok r /\ quality_ratio (f_of_Z b) (f_of_Z a) = Ok r /\
    fin r /\ (0 <= val r <= 1)%R /\ (val r = 1%R <-> a = b /\ 0 < a).
Proof.
  intros a b Ha Hb. exists (ratio a b).
  split; [now apply quality_ratio_exact|]. split; [rewrite ratio_sym; now apply quality_ratio_exact|].
  split; [now apply ratio_val|]. split; [now apply ratio_range|now apply ratio_one].
Qed.
Print Assumptions C12_ratio.

Theorem C12_score : forall crd pix num xa ya xb yb sh vp s,
  num = Z.of_nat (length crd) -> shapes_ok sh pix -> pnrs_ok crd pix -> ascending (map c_x crd) ->
  (forall t, In t pix -> 8 * (sh_sumg sh + t_sumg t) <= 2 ^ 53) ->
  exists l, find_candidate crd pix num xa ya xb yb sh vp s = Ok l /\
  forall j x d, In (j, x, d) l ->
    exists c t, nth_error crd (Z.to_nat j) = Some c /\ nth_error pix (Z.to_nat (c_pnr c)) = Some t /\
      fin x /\ (0 <= val x <= 8 * IZR (sh_sumg sh + t_sumg t))%R.
Proof.
  intros crd pix num xa ya xb yb sh vp s Hn HS HP HA H8.
  destruct (find_candidate_sound crd pix num xa ya xb yb sh vp s Hn HS HP HA) as (l & E & _ & _ & H).
  exists l. split; auto. intros j x d Hin.
  destruct (H j x d Hin) as (_ & _ & c & t & H1 & H2 & _ & -> & _).
  exists c, t. split; auto. split; auto.
  destruct HS as (S1 & S2 & S3 & S4 & S5). assert (Ht : In t pix) by (eapply nth_error_In; eauto).
  destruct (S5 t Ht) as (T1 & T2 & T3 & T4).
  apply score_bound; auto.
Qed.
Print Assumptions C12_score.

Example C12_case : quality_ratio (f_of_Z 3) (f_of_Z 4) = Ok (S754_finite false 6755399441055744 (-53)) /\ small 3 /\ small 4.
Proof. split; [vm_compute; reflexivity|]. unfold small; split; lia. Qed.
