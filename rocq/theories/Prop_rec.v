(** C83: comparing, resetting and sorting the records of the tracking code. *)
From Coq Require Import SpecFloat Sorting.Permutation Sorting.Sorted.
From Verif Require Import F64 Model_corr Model_cand Model_track Model_rec Spec_rec Lib Base.
Local Open Scope Z_scope.

Lemma feq_number a b : feq a b = true <-> same_number a b.
Proof.
  rewrite feq_key. unfold same_number. split.
  - intros (A & B & K). destruct a as [s|s| |s m e], b as [s'|s'| |s' m' e']; try discriminate;
      cbn [key] in K; try (destruct s, s'; discriminate K || (left; split; [congruence|reflexivity])); try (destruct s; discriminate K);
      try (destruct s'; discriminate K); try (right; eauto; fail).
    left. split; auto. destruct s, s'; cbn in K; inversion K; try (subst; f_equal; lia).
  - intros [(-> & H)|(s & s' & -> & ->)]; auto.
Qed.

(** two targets compare equal exactly if all eight fields agree *)
Theorem C83_targets : forall a b,
  compare_targets a b = true <->
  t_pnr a = t_pnr b /\ same_number (t_x a) (t_x b) /\ same_number (t_y a) (t_y b) /\ t_n a = t_n b /\ t_nx a = t_nx b /\
  t_ny a = t_ny b /\ t_sumg a = t_sumg b /\ t_tnr a = t_tnr b.
Proof.
  intros a b. unfold compare_targets, target_eq. rewrite !andb_true_iff, !Z.eqb_eq, !feq_number. tauto.
Qed.
Print Assumptions C83_targets.

(** comparison is an equivalence for targets with a position *)
Theorem C83_targets_equivalence :
  (forall a, is_nan (t_x a) = false -> is_nan (t_y a) = false -> compare_targets a a = true) /\
  (forall a b, compare_targets a b = compare_targets b a) /\
  (forall a b c, compare_targets a b = true -> compare_targets b c = true -> compare_targets a c = true).
Proof.
  assert (Sy : forall x y, same_number x y -> same_number y x).
  { intros x y [(-> & H)|(s & s' & -> & ->)]; [left|right]; eauto. }
  assert (Tr : forall x y z, same_number x y -> same_number y z -> same_number x z).
  { intros x y z [(-> & H)|(s & s' & -> & ->)]; auto. intros [(<- & H)|(s1 & s2 & _ & ->)]; right; eauto. }
  split; [|split].
  - intros a Hx Hy. apply C83_targets. repeat split; left; auto.
  - intros a b. destruct (compare_targets a b) eqn:E, (compare_targets b a) eqn:F; auto.
    + apply C83_targets in E. rewrite <- F. symmetry. apply C83_targets. decompose [and] E. repeat split; auto.
    + apply C83_targets in F. rewrite <- E. apply C83_targets. decompose [and] F. repeat split; auto.
  - intros a b c. rewrite !C83_targets. intros E F. decompose [and] E. decompose [and] F.
    repeat split; eauto; congruence.
Qed.
Print Assumptions C83_targets_equivalence.

(** a target whose position is nan does not equal itself *)
Theorem C83_nan_refuted : forall a, is_nan (t_x a) = true \/ is_nan (t_y a) = true -> compare_targets a a = false.
Proof.
  intros a H. destruct (compare_targets a a) eqn:E; auto. apply C83_targets in E. decompose [and] E.
  exfalso. assert (G : forall x, same_number x x -> is_nan x = false) by (intros x [(_ & K)|(s & s' & -> & _)]; auto).
  destruct H as [H|H]; rewrite G in H by assumption; discriminate.
Qed.
Print Assumptions C83_nan_refuted.

Lemma intlist_eq_iff a b : intlist_eq a b = true <-> a = b.
Proof.
  revert b. induction a as [|x a IH]; intros [|y b]; cbn [intlist_eq]; try (split; [discriminate|discriminate]).
  - tauto.
  - rewrite andb_true_iff, Z.eqb_eq, IH. split; [intros (-> & ->)|intros [= -> ->]]; auto.
Qed.

Lemma pylist_eq_iff a b same : pylist_eq same a b = true <->
  length a = length b /\
  forall i x y, nth_error a i = Some x -> nth_error b i = Some y -> same i = true \/ same_number x y.
Proof.
  revert b same. induction a as [|x a IH]; intros [|y b] same; cbn [pylist_eq length].
  - split; auto. intros _. split; auto. intros [|i]; discriminate.
  - split; [discriminate|intros (H & _); discriminate].
  - split; [discriminate|intros (H & _); discriminate].
  - rewrite andb_true_iff, orb_true_iff, IH, feq_number. split.
    + intros (A & B & C). split; [lia|]. intros [|i] u v; cbn [nth_error]; [intros [= ->] [= ->]; auto|]. apply C.
    + intros (A & B). split; [apply (B O); reflexivity|]. split; [lia|]. intros i u v. apply (B (Datatypes.S i)).
Qed.

(** two path entries compare equal exactly if their fields agree; the candidate
    values are compared up to the length of the lists (an entry holding the very
    same object counts as equal), whatever part of them is in use *)
Theorem C83_paths : forall same a b,
  compare_path_info same a b = true <->
  (let '(ax, ay, az) := p_x a in let '(bx, by', bz) := p_x b in same_number ax bx /\ same_number ay by' /\ same_number az bz) /\
  p_prev a = p_prev b /\ p_next a = p_next b /\ p_prio a = p_prio b /\ same_number (p_final a) (p_final b) /\
  p_inlist a = p_inlist b /\ p_link a = p_link b /\ length (p_decis a) = length (p_decis b) /\
  (forall i x y, nth_error (p_decis a) i = Some x -> nth_error (p_decis b) i = Some y -> same i = true \/ same_number x y).
Proof.
  intros same a b. unfold compare_path_info, path_eq. destruct (p_x a) as [[ax ay] az], (p_x b) as [[bx by'] bz].
  rewrite !andb_true_iff, !Z.eqb_eq, !feq_number, intlist_eq_iff, pylist_eq_iff. tauto.
Qed.
Print Assumptions C83_paths.

(** entries that differ only in candidates no longer counted are told apart *)
Theorem C83_unused_candidates_refuted : exists a b,
  p_inlist a = 0 /\ p_inlist b = 0 /\ p_x a = p_x b /\ p_prev a = p_prev b /\ p_next a = p_next b /\ p_prio a = p_prio b /\
  p_final a = p_final b /\ p_decis a = p_decis b /\ compare_path_info (fun _ => true) a b = false.
Proof.
  exists (mk_pinfo (fzero, fzero, fzero) (-1) (-2) 2 [fzero] fzero [0] 0),
         (mk_pinfo (fzero, fzero, fzero) (-1) (-2) 2 [fzero] fzero [7] 0).
  repeat split.
Qed.
Print Assumptions C83_unused_candidates_refuted.

(** correspondence arrays of the same length compare equal exactly if they are equal *)
Theorem C83_corres : forall a b, length a = length b -> (corres_eq a b = true <-> a = b).
Proof.
  induction a as [|[n p] a IH]; intros [|[m q] b] H; try discriminate.
  - split; auto.
  - cbn [length] in H. unfold corres_eq in *. cbn [combine forallb fst snd co_nr co_p]. rewrite !andb_true_iff, Z.eqb_eq, intlist_eq_iff, IH by lia.
    split; [intros ((-> & ->) & ->)|intros [= -> -> ->]]; auto.
Qed.
Print Assumptions C83_corres.

(** resetting links forgets exactly the links and the priority *)
Theorem C83_reset_links : forall p,
  p_prev (reset_links p) = -1 /\ p_next (reset_links p) = -2 /\ p_prio (reset_links p) = 2 /\
  p_x (reset_links p) = p_x p /\ p_decis (reset_links p) = p_decis p /\ p_final (reset_links p) = p_final p /\
  p_link (reset_links p) = p_link p /\ p_inlist (reset_links p) = p_inlist p.
Proof. intros p. repeat split. Qed.
Print Assumptions C83_reset_links.

(** every setter of a target is read back by its getter and leaves the rest alone *)
Theorem C83_fields : forall t pos pnr n nx ny sumg,
  target_pos (target_set_pos t pos) = pos /\
  t_pnr (target_set_pnr t pnr) = pnr /\
  target_count_pixels (target_set_pixel_counts t n nx ny) = (n, nx, ny) /\
  target_sum_grey_value (target_set_sum_grey_value t sumg) = sumg /\
  (let u := target_set_pos t pos in
   t_pnr u = t_pnr t /\ target_count_pixels u = target_count_pixels t /\ target_sum_grey_value u = target_sum_grey_value t /\ t_tnr u = t_tnr t) /\
  (let u := target_set_pnr t pnr in
   target_pos u = target_pos t /\ target_count_pixels u = target_count_pixels t /\ target_sum_grey_value u = target_sum_grey_value t /\ t_tnr u = t_tnr t) /\
  (let u := target_set_pixel_counts t n nx ny in
   target_pos u = target_pos t /\ t_pnr u = t_pnr t /\ target_sum_grey_value u = target_sum_grey_value t /\ t_tnr u = t_tnr t) /\
  (let u := target_set_sum_grey_value t sumg in
   target_pos u = target_pos t /\ t_pnr u = t_pnr t /\ target_count_pixels u = target_count_pixels t /\ t_tnr u = t_tnr t) /\
  target_pos target_new = (f_of_Z 0, f_of_Z 0) /\ t_pnr target_new = -999 /\ t_tnr target_new = -1 /\
  target_count_pixels target_new = (0, 0, 0) /\ target_sum_grey_value target_new = 0.
Proof. intros t [x y] pnr n nx ny sumg. destruct t. repeat split. Qed.
Print Assumptions C83_fields.

(** ---- sorting by y ---- *)
Local Notation yle := (fun a b => fle (t_y a) (t_y b) = true).

Lemma insert_perm t l : Permutation (insert_y t l) (t :: l).
Proof.
  induction l as [|u r IH]; cbn [insert_y]; auto. destruct (flt (t_y t) (t_y u)); auto.
  rewrite IH. constructor.
Qed.

Definition placed (l : list target) : Prop := Forall (fun t => is_nan (t_y t) = false) l.

Lemma insert_ok t l : is_nan (t_y t) = false -> placed l -> StronglySorted yle l ->
  StronglySorted yle (insert_y t l) /\
  forall y, level y (insert_y t l) = level y l ++ level y [t].
Proof.
  intros Ht Hl HS. induction HS as [|u r HS IH HF]; cbn [insert_y].
  - split; [repeat constructor|reflexivity].
  - inversion Hl as [|? ? Hu Hr]; subst. destruct (flt (t_y t) (t_y u)) eqn:E.
    + assert (G : Forall (fun v => flt (t_y t) (t_y v) = true) (u :: r)).
      { constructor; auto. rewrite Forall_forall in *. intros v Hv. exact (flt_fle_trans _ _ _ E (HF v Hv)). }
      split.
      * constructor; [constructor; auto|]. rewrite Forall_forall in *. intros v Hv. now apply flt_fle, G.
      * intros y. assert (X : level y (t :: u :: r) = (if feq (t_y t) y then [t] else []) ++ level y (u :: r)) by (unfold level; cbn [filter]; destruct (feq (t_y t) y); reflexivity). rewrite X.
        change (level y [t]) with (if feq (t_y t) y then [t] else []).
        destruct (feq (t_y t) y) eqn:Ey; [|now rewrite app_nil_r].
        replace (level y (u :: r)) with (@nil target); [reflexivity|].
        symmetry. clear - G Ey. unfold level. induction G as [|v w Hv Hw IH]; [reflexivity|]. cbn [filter].
        destruct (feq (t_y v) y) eqn:Ev; [|exact IH]. exfalso.
        apply feq_key in Ey as (A & B & K). apply feq_key in Ev as (A' & B' & K').
        apply flt_klt in Hv. destruct Hv as (_ & _ & Hv). rewrite K, K' in Hv. revert Hv. unfold klt. destruct (key y) as [[? ?] ?]. lia.
    + destruct (IH Hr) as (A & B). split.
      * constructor; auto. apply (Permutation_Forall (x := t :: r)); [symmetry; apply insert_perm|]. constructor; auto.
        apply flt_false_fle; auto.
      * intros y. unfold level in *. cbn [filter]. destruct (feq (t_y u) y); rewrite B; reflexivity.
Qed.

Lemma sort_ok l : placed l -> forall acc, placed acc -> StronglySorted yle acc ->
  let r := fold_left (fun acc t => insert_y t acc) l acc in
  Permutation r (acc ++ l) /\ StronglySorted yle r /\ forall y, level y r = level y acc ++ level y l.
Proof.
  induction 1 as [|t l Ht Hl IH]; intros acc Ha HS; cbn [fold_left].
  - rewrite app_nil_r. split; auto. split; auto. intros y. cbn. now rewrite app_nil_r.
  - destruct (insert_ok t acc Ht Ha HS) as (A & B).
    destruct (IH (insert_y t acc)) as (P & Q & R); auto.
    { apply (Permutation_Forall (x := t :: acc)); [symmetry; apply insert_perm|]. constructor; auto. }
    cbv zeta. split; [|split; auto].
    + rewrite P, insert_perm. apply Permutation_middle.
    + intros y. rewrite R, B, <- app_assoc. f_equal. unfold level. now rewrite <- filter_app.
Qed.

(** the targets come out in ascending y; none is lost; targets with equal y keep
    their order *)
Theorem C83_sort_y : forall l, (forall t, In t l -> is_nan (t_y t) = false) ->
  Permutation (sort_target_y l) l /\ by_y (sort_target_y l) /\ forall y, level y (sort_target_y l) = level y l.
Proof.
  intros l H. destruct (sort_ok l) with (acc := @nil target) as (P & Q & R).
  - apply Forall_forall. exact H.
  - constructor.
  - constructor.
  - cbv zeta in *. fold (sort_target_y l) in *. split; [exact P|]. split; [|exact R].
    clear - Q. induction Q as [|u r HS IH HF]; intros i j a b Hij Ha Hb; [destruct i; discriminate|].
    destruct j as [|j]; [lia|]. destruct i as [|i].
    + cbn in Ha, Hb. injection Ha as ->. rewrite Forall_forall in HF. apply HF. eapply nth_error_In; eauto.
    + apply (IH i j a b); auto. lia.
Qed.
Print Assumptions C83_sort_y.

(** ---- the arrays of found pixels ---- *)
Lemma reset_cams nc (w : list Z) : 0 <= nc <= Z.of_nat (length w) ->
  exists w', foldM (fun w j => pyset w j 0) (zrange 0 nc) w = Ok w' /\ length w' = length w /\
    forall j, nth_error w' j = if (Z.of_nat j <? nc) then Some 0 else nth_error w j.
Proof.
  intros H. destruct (loop_total (fun i v => length v = length w /\
      forall j, nth_error v j = if (Z.of_nat j <? i) then Some 0 else nth_error w j)
      (fun w j => pyset w j 0) 0 nc w) as (w' & E & A & B); [lia| | |eauto].
  - split; auto. intros j. destruct (Z.ltb_spec (Z.of_nat j) 0); [lia|auto].
  - intros i v Hi (L & N). exists (upd v (Z.to_nat i) 0). split; [apply pyset_in_range; lia|]. rewrite upd_length. split; auto.
    intros j. destruct (Nat.eq_dec j (Z.to_nat i)) as [->|D].
    + rewrite nth_error_upd_eq by lia. destruct (Z.ltb_spec (Z.of_nat (Z.to_nat i)) (i + 1)); [auto|lia].
    + rewrite nth_error_upd_neq by auto. rewrite N. destruct (Z.ltb_spec (Z.of_nat j) i), (Z.ltb_spec (Z.of_nat j) (i + 1)); auto; lia.
Qed.

Lemma copy_cams nc (w s : list Z) : 0 <= nc <= Z.of_nat (length w) -> nc <= Z.of_nat (length s) ->
  exists w', foldM (fun w cam => do v <- pyget s cam; pyset w cam v) (zrange 0 nc) w = Ok w' /\ length w' = length w /\
    forall j, nth_error w' j = if (Z.of_nat j <? nc) then nth_error s j else nth_error w j.
Proof.
  intros H Hs. destruct (loop_total (fun i v => length v = length w /\
      forall j, nth_error v j = if (Z.of_nat j <? i) then nth_error s j else nth_error w j)
      (fun w cam => do v <- pyget s cam; pyset w cam v) 0 nc w) as (w' & E & A & B); [lia| | |eauto].
  - split; auto. intros j. destruct (Z.ltb_spec (Z.of_nat j) 0); [lia|auto].
  - intros i v Hi (L & N). destruct (pyget_in_range s i) as (x & Ex & Nx); [lia|]. rewrite Ex. cbn [bind].
    exists (upd v (Z.to_nat i) x). split; [apply pyset_in_range; lia|]. rewrite upd_length. split; auto.
    intros j. destruct (Nat.eq_dec j (Z.to_nat i)) as [->|D].
    + rewrite nth_error_upd_eq by lia. destruct (Z.ltb_spec (Z.of_nat (Z.to_nat i)) (i + 1)); [auto|lia].
    + rewrite nth_error_upd_neq by auto. rewrite N. destruct (Z.ltb_spec (Z.of_nat j) i), (Z.ltb_spec (Z.of_nat j) (i + 1)); auto; lia.
Qed.

(** resetting clears the first arr_len entries (for the first num_cams cameras)
    and no others *)
Theorem C83_found_reset : forall arr n nc,
  0 <= n <= Z.of_nat (length arr) -> 0 <= nc -> (forall f, In f arr -> nc <= Z.of_nat (length (whichcam f))) ->
  exists arr', reset_foundpix_array arr n nc = Ok arr' /\ length arr' = length arr /\
    (forall i, n <= Z.of_nat i -> nth_error arr' i = nth_error arr i) /\
    forall i f, Z.of_nat i < n -> nth_error arr i = Some f ->
      exists g, nth_error arr' i = Some g /\ ftnr g = -1 /\ freq g = 0 /\ length (whichcam g) = length (whichcam f) /\
        forall c, nth_error (whichcam g) c = if Z.of_nat c <? nc then Some 0 else nth_error (whichcam f) c.
Proof.
  intros arr n nc Hn Hc HW.
  destruct (loop_total (fun k a => length a = length arr /\
    (forall i, k <= Z.of_nat i -> nth_error a i = nth_error arr i) /\
    forall i f, Z.of_nat i < k -> nth_error arr i = Some f ->
      exists g, nth_error a i = Some g /\ ftnr g = -1 /\ freq g = 0 /\ length (whichcam g) = length (whichcam f) /\
        forall c, nth_error (whichcam g) c = if Z.of_nat c <? nc then Some 0 else nth_error (whichcam f) c)
    (fun arr i => do f <- pyget arr i; do w <- foldM (fun w j => pyset w j 0) (zrange 0 nc) (whichcam f); pyset arr i (mk_fp TR_UNUSED 0 w))
    0 n arr) as (a & E & A); [lia| | |exists a; split; [exact E|exact A]].
  - split; auto. split; auto. intros i f Hi. lia.
  - intros k a Hk (L & N & G). destruct (pyget_in_range a k) as (f & Xf & Ef); [lia|]. rewrite Xf. cbn [bind].
    assert (Ef' := Ef). rewrite N in Ef' by lia.
    destruct (reset_cams nc (whichcam f)) as (w & Ew & Lw & Nw).
    { split; auto. apply HW. eapply nth_error_In; eauto. }
    rewrite Ew. cbn [bind]. exists (upd a (Z.to_nat k) (mk_fp TR_UNUSED 0 w)). split; [apply pyset_in_range; lia|].
    rewrite upd_length. split; auto. split.
    + intros i Hi. rewrite nth_error_upd_neq by lia. apply N. lia.
    + intros i g Hi Eg. destruct (Nat.eq_dec i (Z.to_nat k)) as [->|D].
      * rewrite nth_error_upd_eq by lia. eexists. split; [reflexivity|]. cbn [ftnr freq whichcam].
        rewrite Ef' in Eg. injection Eg as <-. auto.
      * rewrite nth_error_upd_neq by auto. apply G; auto. lia.
Qed.
Print Assumptions C83_found_reset.

(** copying takes over the first arr_len entries (for the first num_cams cameras)
    and no others *)
Theorem C83_found_copy : forall dest src n nc,
  0 <= n <= Z.of_nat (length dest) -> n <= Z.of_nat (length src) -> 0 <= nc ->
  (forall f, In f dest \/ In f src -> nc <= Z.of_nat (length (whichcam f))) ->
  exists dest', copy_foundpix_array dest src n nc = Ok dest' /\ length dest' = length dest /\
    (forall i, n <= Z.of_nat i -> nth_error dest' i = nth_error dest i) /\
    forall i d s, Z.of_nat i < n -> nth_error dest i = Some d -> nth_error src i = Some s ->
      exists g, nth_error dest' i = Some g /\ ftnr g = ftnr s /\ freq g = freq s /\ length (whichcam g) = length (whichcam d) /\
        forall c, nth_error (whichcam g) c = if Z.of_nat c <? nc then nth_error (whichcam s) c else nth_error (whichcam d) c.
Proof.
  intros dest src n nc Hn Hs Hc HW.
  destruct (loop_total (fun k a => length a = length dest /\
    (forall i, k <= Z.of_nat i -> nth_error a i = nth_error dest i) /\
    forall i d s, Z.of_nat i < k -> nth_error dest i = Some d -> nth_error src i = Some s ->
      exists g, nth_error a i = Some g /\ ftnr g = ftnr s /\ freq g = freq s /\ length (whichcam g) = length (whichcam d) /\
        forall c, nth_error (whichcam g) c = if Z.of_nat c <? nc then nth_error (whichcam s) c else nth_error (whichcam d) c)
    (fun dest i => do d <- pyget dest i; do s <- pyget src i;
      do w <- foldM (fun w cam => do v <- pyget (whichcam s) cam; pyset w cam v) (zrange 0 nc) (whichcam d);
      pyset dest i (mk_fp (ftnr s) (freq s) w))
    0 n dest) as (a & E & A); [lia| | |exists a; split; [exact E|exact A]].
  - split; auto. split; auto. intros i d s Hi. lia.
  - intros k a Hk (L & N & G). destruct (pyget_in_range a k) as (f & Xf & Ef); [lia|]. rewrite Xf. cbn [bind].
    destruct (pyget_in_range src k) as (s & Xs & Es); [lia|]. rewrite Xs. cbn [bind].
    assert (Ef' := Ef). rewrite N in Ef' by lia.
    destruct (copy_cams nc (whichcam f) (whichcam s)) as (w & Ew & Lw & Nw).
    { split; auto. apply HW. left. eapply nth_error_In; eauto. } { apply HW. right. eapply nth_error_In; eauto. }
    rewrite Ew. cbn [bind]. exists (upd a (Z.to_nat k) (mk_fp (ftnr s) (freq s) w)). split; [apply pyset_in_range; lia|].
    rewrite upd_length. split; auto. split.
    + intros i Hi. rewrite nth_error_upd_neq by lia. apply N. lia.
    + intros i d t Hi Ed Et. destruct (Nat.eq_dec i (Z.to_nat k)) as [->|D].
      * rewrite nth_error_upd_eq by lia. eexists. split; [reflexivity|]. cbn [ftnr freq whichcam].
        rewrite Ef' in Ed. injection Ed as <-. rewrite Es in Et. injection Et as <-. auto.
      * rewrite nth_error_upd_neq by auto. apply G; auto. lia.
Qed.
Print Assumptions C83_found_copy.

(** positions and numbers are listed in the order of the matched coordinates *)
Theorem C83_arrays : forall mc,
  let '(pos, pnr) := matched_coords_as_arrays mc in
  length pos = length mc /\ length pnr = length mc /\
  forall i c, nth_error mc i = Some c -> nth_error pos i = Some (c_x c, c_y c) /\ nth_error pnr i = Some (c_pnr c).
Proof.
  intros mc. unfold matched_coords_as_arrays. rewrite !map_length. repeat split; auto.
  - now apply map_nth_error with (f := fun c => (c_x c, c_y c)).
  - now apply map_nth_error.
Qed.
Print Assumptions C83_arrays.

(** a concrete case: three targets, two of them at the same height *)
Example C83_case :
  let t k y := mk_target k fzero (f_of_Z y) 1 1 1 1 (-1) in
  map t_pnr (sort_target_y [t 0 7; t 1 3; t 2 7; t 3 5]) = [1; 3; 0; 2] /\
  compare_targets (t 0 7) (t 0 7) = true /\ compare_targets (t 0 7) (t 0 3) = false /\
  copy_foundpix_array [mk_fp 1 2 [1; 1; 1; 1]; mk_fp 8 8 [0; 0; 0; 0]] [mk_fp 5 6 [0; 0; 0; 0]] 1 2 =
    Ok [mk_fp 5 6 [0; 0; 1; 1]; mk_fp 8 8 [0; 0; 0; 0]] /\
  reset_foundpix_array [mk_fp 1 2 [1; 1; 1; 1]; mk_fp 8 8 [0; 0; 0; 1]] 1 3 = Ok [mk_fp (-1) 0 [0; 0; 0; 1]; mk_fp 8 8 [0; 0; 0; 1]].
Proof. vm_compute. repeat split. Qed.
