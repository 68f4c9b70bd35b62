From Coq Require Import Reals.
From Verif Require Import Base F64 Model_corr Spec_corr Model_cand Spec_cand Proof_cand.
Local Open Scope Z_scope.

Lemma cand_test_exact vp sh pix g c t :
  nth_error pix (Z.to_nat (c_pnr c)) = Some t -> 0 <= c_pnr c -> shapes_ok sh pix ->
  cand_test vp sh pix (g_m g) (g_b g) (g_xlo g) (g_ylo g) (g_xhi g) (g_yhi g) c =
  Ok (if qualifies vp sh g c t then Some (dist_to g c, score sh t) else None).
Proof.
  intros Ht Hp (S1 & S2 & S3 & S4 & S5). unfold cand_test, qualifies, in_window, fge.
  fold (dist_to g c).
  destruct (S5 t ltac:(eapply nth_error_In; eauto)) as (T1 & T2 & T3 & T4).
  destruct (fle (c_y c) _) eqn:E1; simpl; [now rewrite !andb_false_r|].
  destruct (fle (fadd (g_yhi g) _) _) eqn:E2; simpl; [now rewrite !andb_false_r|].
  destruct (fle (c_x c) _) eqn:E3; simpl; auto.
  destruct (fle (fadd (g_xhi g) _) _) eqn:E4; simpl; auto.
  destruct (fle (v_eps0 vp) (dist_to g c)) eqn:E5; simpl; auto.
  rewrite (pyget_nonneg pix _ t Hp Ht). simpl.
  rewrite !quality_ratio_exact by auto. simpl. unfold similar.
  destruct (flt _ (v_cn vp)); simpl; auto.
  destruct (flt _ (v_cnx vp)); simpl; auto.
  destruct (flt _ (v_cny vp)); simpl; auto.
  destruct (fle _ (v_csumg vp)); simpl; auto.
Qed.

Lemma matching_far vp sh g pix j rest :
  (forall c, In c rest -> flt (fadd (g_xhi g) (v_eps0 vp)) (c_x c) = true) ->
  matching vp sh g pix j rest = [].
Proof.
  revert j; induction rest as [|c rest IH]; intros j H; simpl; auto.
  rewrite IH by (intros; apply H; simpl; auto). rewrite app_nil_r.
  destruct (nth_error pix _) as [t|]; auto.
  unfold qualifies, in_window. rewrite (flt_fle _ _ (H c (or_introl eq_refl))).
  simpl. now rewrite !andb_false_r.
Qed.
Lemma matching_app vp sh g pix j l1 l2 :
  matching vp sh g pix j (l1 ++ l2) = matching vp sh g pix j l1 ++ matching vp sh g pix (j + Z.of_nat (length l1)) l2.
Proof.
  revert j; induction l1 as [|c l1 IH]; intros j; simpl.
  - f_equal; lia.
  - rewrite IH, app_assoc. do 2 f_equal. lia.
Qed.
Lemma matching_before vp sh g pix j l :
  (forall c, In c l -> flt (c_x c) (fsub (g_xlo g) (v_eps0 vp)) = true) -> matching vp sh g pix j l = [].
Proof.
  revert j; induction l as [|c l IH]; intros j H; simpl; auto.
  rewrite IH by (intros; apply H; simpl; auto). rewrite app_nil_r.
  destruct (nth_error pix _) as [t|]; auto.
  unfold qualifies, in_window. now rewrite (flt_fle _ _ (H c (or_introl eq_refl))).
Qed.

Lemma loop_exact vp sh g pix crd : shapes_ok sh pix -> pnrs_ok crd pix -> ascending (map c_x crd) ->
  forall rest pre cand, crd = pre ++ rest -> (length cand <= 40)%nat ->
  exists r, runC (forC (zrange (Z.of_nat (length pre)) (Z.of_nat (length crd)))
    (cand_step vp sh pix crd (g_m g) (g_b g) (g_xlo g) (g_ylo g) (g_xhi g) (g_yhi g)) cand) = Ok r /\
  r = firstn 40 (cand ++ matching vp sh g pix (Z.of_nat (length pre)) rest).
Proof.
  intros HS HP HA. induction rest as [|c rest IH]; intros pre cand E HL.
  - exists cand. rewrite app_nil_r in E. subst pre. rewrite zrange_empty by lia. cbn [forC runC matching]. split; auto.
    rewrite app_nil_r. symmetry. apply firstn_all2. auto.
  - assert (Hlen : (length crd = length pre + S (length rest))%nat) by (rewrite E, app_length; reflexivity).
    rewrite zrange_cons by lia. cbn [forC]. unfold cand_step at 1.
    rewrite (pyget_nonneg crd _ c) by (try lia; rewrite E, Nat2Z.id, nth_error_app2, Nat.sub_diag by lia; reflexivity).
    cbn [tryC].
    assert (Hc : In c crd) by (rewrite E; apply in_or_app; right; left; auto).
    destruct (HP c Hc) as (P1 & P2).
    destruct (nth_error pix (Z.to_nat (c_pnr c))) as [t|] eqn:Et; [|apply nth_error_None in Et; lia].
    destruct (fgt (c_x c) (fadd (g_xhi g) (v_eps0 vp))) eqn:EG.
    + (* beyond the window: all later entries are, too *)
      cbn [bindC runC]. exists cand. split; auto.
      rewrite (matching_far vp sh g pix _ (c :: rest)).
      * rewrite app_nil_r. symmetry; now apply firstn_all2.
      * intros c' [<-|Hin]; [exact EG|].
        eapply flt_fle_trans; [exact EG|].
        apply In_nth_error in Hin as (k & Hk).
        apply (HA (length pre) (length pre + S k)%nat); [lia| |]; rewrite nth_error_map, E.
        -- rewrite nth_error_app2, Nat.sub_diag by lia. reflexivity.
        -- rewrite nth_error_app2 by lia. replace (length pre + S k - length pre)%nat with (S k) by lia.
           cbn [nth_error]. now rewrite Hk.
    + rewrite (cand_test_exact vp sh pix g c t Et P1 HS). cbn [tryC].
      cbn [matching]. rewrite Et.
      destruct (IH (pre ++ [c])) with (cand := cand) as (r1 & R1 & R2); auto.
      { rewrite <- app_assoc. exact E. }
      rewrite app_length in R1, R2. cbn [length] in R1, R2.
      replace (Z.of_nat (length pre + 1)) with (Z.of_nat (length pre) + 1) in R1, R2 by lia.
      destruct (qualifies vp sh g c t).
      * destruct (Z.leb_spec MAXCAND (Z.of_nat (length cand))) as [Hm|Hm]; unfold MAXCAND in Hm.
        -- cbn [bindC runC]. exists cand. split; auto.
           rewrite firstn_app. replace (40 - length cand)%nat with O by lia.
           rewrite firstn_O, app_nil_r. symmetry. apply firstn_all2; lia.
        -- cbn [bindC].
           destruct (IH (pre ++ [c]) (cand ++ [(Z.of_nat (length pre), score sh t, dist_to g c)])) as (r2 & R3 & R4).
           { rewrite <- app_assoc. exact E. }
           { rewrite app_length. cbn [length]. lia. }
           rewrite app_length in R3, R4. cbn [length] in R3, R4.
           replace (Z.of_nat (length pre + 1)) with (Z.of_nat (length pre) + 1) in R3, R4 by lia.
           exists r2. split; [exact R3|]. rewrite R4. rewrite <- app_assoc. reflexivity.
      * cbn [bindC]. exists r1. split; auto.
Qed.

(** find_candidate equals the specification from its start index on *)
Lemma find_candidate_from crd pix num xa ya xb yb sh vp s :
  num = Z.of_nat (length crd) -> shapes_ok sh pix -> pnrs_ok crd pix -> ascending (map c_x crd) ->
  let g := segment_of xa ya xb yb in
  exists k, find_start_point_binary (map c_x crd) num (g_xlo g) (v_eps0 vp) = Ok k /\ 0 <= k <= num /\
  find_candidate crd pix num xa ya xb yb sh vp s =
  Ok (if off_sensor g s then [] else firstn 40 (matching vp sh g pix k (skipn (Z.to_nat k) crd))).
Proof.
  intros Hn HS HP HA g.
  destruct (start_in_bounds (map c_x crd) num (g_xlo g) (v_eps0 vp)) as (k & Ek & K1 & K2);
    [lia|rewrite map_length; lia|].
  assert (K3 : k <= num).
  { destruct (Z.eq_dec num 0); [|lia]. subst num.
    destruct crd; [|simpl in *; lia]. rewrite e in *. vm_compute in Ek. inversion Ek. lia. }
  exists k. split; auto. split; [lia|].
  assert (E10 : f1em10 = ten_to_minus_ten) by (vm_compute; reflexivity).
  unfold find_candidate. rewrite E10. set (xb' := if feq xa xb then fadd xb ten_to_minus_ten else xb).
  assert (Eg : forall A (f : f64 -> f64 -> A), (let '(a, b) := if fgt xa xb' then (xb', xa) else (xa, xb') in f a b) = f (g_xlo g) (g_xhi g)).
  { intros. unfold g, segment_of, fgt. cbn [g_xlo g_xhi]. fold xb'. destruct (flt xb' xa); reflexivity. }
  assert (Eh : forall A (f : f64 -> f64 -> A), (let '(a, b) := if fgt ya yb then (yb, ya) else (ya, yb) in f a b) = f (g_ylo g) (g_yhi g)).
  { intros. unfold g, segment_of, fgt. cbn [g_ylo g_yhi]. destruct (flt yb ya); reflexivity. }
  rewrite Eg. rewrite Eh. unfold off_sensor, fge.
  destruct (_ || _ || _ || _); auto.
  rewrite Ek. cbn [bind].
  assert (E0 : crd = firstn (Z.to_nat k) crd ++ skipn (Z.to_nat k) crd) by (symmetry; apply firstn_skipn).
  destruct (loop_exact vp sh g pix crd HS HP HA (skipn (Z.to_nat k) crd) (firstn (Z.to_nat k) crd) [] E0 ltac:(simpl; lia)) as (r & R1 & R2).
  rewrite firstn_length_le in R1, R2 by lia. rewrite Z2Nat.id in R1, R2 by lia.
  rewrite <- Hn in R1. etransitivity; [exact R1|]. now rewrite R2.
Qed.

Theorem find_candidate_exact crd pix num xa ya xb yb sh vp s :
  num = Z.of_nat (length crd) -> shapes_ok sh pix -> pnrs_ok crd pix -> ascending (map c_x crd) ->
  popcount (num / 2) <= 11 ->
  let g := segment_of xa ya xb yb in
  find_candidate crd pix num xa ya xb yb sh vp s =
  Ok (if off_sensor g s then [] else firstn 40 (matching vp sh g pix 0 crd)).
Proof.
  intros Hn HS HP HA Hpc g.
  destruct (find_candidate_from crd pix num xa ya xb yb sh vp s Hn HS HP HA) as (k & Ek & K & ->). fold g in Ek |- *.
  destruct (off_sensor g s); auto. do 2 f_equal.
  rewrite <- (firstn_skipn (Z.to_nat k) crd) at 2. rewrite matching_app.
  rewrite (matching_before vp sh g pix 0 (firstn (Z.to_nat k) crd)).
  - rewrite firstn_length_le by lia. cbn [app]. rewrite Z2Nat.id, Z.add_0_l by lia. reflexivity.
  - intros c Hc. apply In_nth_error in Hc as (i & Hi).
    pose proof (start_ok (map c_x crd) num (g_xlo g) (v_eps0 vp) k ltac:(rewrite map_length; lia) HA Hpc Ek) as B.
    assert (Hik : (i < Z.to_nat k)%nat).
    { assert (i < length (firstn (Z.to_nat k) crd))%nat by (apply nth_error_Some; congruence).
      rewrite firstn_length in H. lia. }
    apply (B (Z.of_nat i)); [lia|]. rewrite Nat2Z.id, nth_error_map.
    assert (En : nth_error crd i = Some c).
    { rewrite <- (firstn_skipn (Z.to_nat k) crd). rewrite nth_error_app1; auto.
      apply nth_error_Some. congruence. }
    now rewrite En.
Qed.

Lemma matching_In vp sh g pix j crd q x d :
  In (q, x, d) (matching vp sh g pix j crd) <->
  exists i c t, q = j + Z.of_nat i /\ nth_error crd i = Some c /\ nth_error pix (Z.to_nat (c_pnr c)) = Some t /\
    qualifies vp sh g c t = true /\ x = score sh t /\ d = dist_to g c.
Proof.
  revert j; induction crd as [|c crd IH]; intros j; simpl.
  - split; [tauto|]. intros (i & c & t & _ & H & _). destruct i; discriminate.
  - rewrite in_app_iff, IH. split.
    + intros [H|(i & c' & t & -> & H)].
      * destruct (nth_error pix _) as [t|] eqn:Et; [|contradiction].
        destruct (qualifies vp sh g c t) eqn:Q; [|contradiction].
        destruct H as [H|[]]. inversion H; subst. exists O, c, t. repeat split; auto. lia.
      * exists (S i), c', t. repeat split; try tauto. lia.
    + intros (i & c' & t & -> & H1 & H2 & H3 & -> & ->). destruct i as [|i]; simpl in H1.
      * left. inversion H1; subst. rewrite H2, H3. left. do 2 f_equal. lia.
      * right. exists i, c', t. repeat split; auto. lia.
Qed.

Lemma matching_sorted vp sh g pix j crd :
  Sorted.StronglySorted Z.lt (map (fun x => fst (fst x)) (matching vp sh g pix j crd)) /\
  (forall x, In x (matching vp sh g pix j crd) -> j <= fst (fst x) < j + Z.of_nat (length crd)).
Proof.
  revert j; induction crd as [|c crd IH]; intros j; simpl; [split; [constructor|tauto]|].
  destruct (IH (j + 1)) as (H1 & H2).
  destruct (nth_error pix _) as [t|]; [destruct (qualifies vp sh g c t)|]; simpl; (split; [|intros x Hx]); auto;
    try (specialize (H2 x Hx); lia).
  - constructor; auto. apply Forall_forall. intros y Hy. apply in_map_iff in Hy as (x & <- & Hx).
    specialize (H2 x Hx). lia.
  - destruct Hx as [<-|Hx]; simpl; [lia|]. specialize (H2 x Hx). lia.
Qed.

Lemma NoDup_firstn {A} n (l : list A) : NoDup l -> NoDup (firstn n l).
Proof.
  revert n; induction l as [|a l IH]; intros [|n] H; simpl; auto; try constructor.
  - inversion H; subst. intros Hin. apply H2. rewrite <- (firstn_skipn n l). apply in_or_app; auto.
  - inversion H; auto.
Qed.
Lemma StronglySorted_lt_NoDup l : Sorted.StronglySorted Z.lt l -> NoDup l.
Proof.
  induction 1 as [|a l H IH HF]; constructor; auto.
  intros Hin. rewrite Forall_forall in HF. specialize (HF a Hin). lia.
Qed.

(** for every number of targets: what is returned qualifies, in order, at most 40 *)
Theorem find_candidate_sound crd pix num xa ya xb yb sh vp s :
  num = Z.of_nat (length crd) -> shapes_ok sh pix -> pnrs_ok crd pix -> ascending (map c_x crd) ->
  let g := segment_of xa ya xb yb in
  exists l, find_candidate crd pix num xa ya xb yb sh vp s = Ok l /\
    (length l <= 40)%nat /\
    Sorted.StronglySorted Z.lt (map (fun x => fst (fst x)) l) /\
    forall j x d, In (j, x, d) l ->
      0 <= j < num /\ off_sensor g s = false /\
      exists c t, nth_error crd (Z.to_nat j) = Some c /\ nth_error pix (Z.to_nat (c_pnr c)) = Some t /\
        qualifies vp sh g c t = true /\ x = score sh t /\ d = dist_to g c.
Proof.
  intros Hn HS HP HA g.
  destruct (find_candidate_from crd pix num xa ya xb yb sh vp s Hn HS HP HA) as (k & Ek & K & ->). fold g in Ek |- *.
  eexists. split; [reflexivity|].
  destruct (off_sensor g s).
  { simpl. split; [lia|]. split; [constructor|]. tauto. }
  set (M := matching vp sh g pix k (skipn (Z.to_nat k) crd)).
  assert (SS : Sorted.StronglySorted Z.lt (map (fun x => fst (fst x)) (firstn 40 M))).
  { destruct (matching_sorted vp sh g pix k (skipn (Z.to_nat k) crd)) as (H1 & _). fold M in H1.
    revert H1. clearbody M. clear. revert M. generalize 40%nat. intros n. induction n as [|n IH]; intros [|a M] H; cbn [firstn map] in *; try constructor.
    - inversion H; subst. apply IH; auto.
    - inversion H; subst. rewrite Forall_forall in *. intros y Hy. apply H3.
      apply in_map_iff in Hy as (x & <- & Hx). apply (in_map (fun x : Z * f64 * f64 => fst (fst x))).
      rewrite <- (firstn_skipn n M). apply in_or_app; auto. }
  split; [rewrite firstn_length; lia|]. split; auto.
  intros j x d Hin.
  assert (Hin' : In (j, x, d) M) by (rewrite <- (firstn_skipn 40 M); apply in_or_app; auto).
  apply matching_In in Hin' as (i & c & t & -> & H1 & H2 & H3 & -> & ->).
  assert (E1 : nth_error crd (Z.to_nat (k + Z.of_nat i)) = Some c).
  { rewrite <- (firstn_skipn (Z.to_nat k) crd). rewrite nth_error_app2; rewrite firstn_length_le by lia; [|lia].
    rewrite <- H1. f_equal. lia. }
  assert (Z.to_nat (k + Z.of_nat i) < length crd)%nat by (apply nth_error_Some; congruence).
  split; [lia|]. split; auto. exists c, t. repeat split; auto.
Qed.

(** the candidate lists handed to match_pairs satisfy its assumptions *)
Theorem find_candidate_cands_ok crds pixs nc counts xa ya xb yb sh vp s :
  length counts = Z.to_nat nc ->
  (forall b nb, 0 <= b < nc -> nth_error counts (Z.to_nat b) = Some nb ->
     exists crd pix, crds b = crd /\ pixs b = pix /\ nb = Z.of_nat (length crd) /\ pnrs_ok crd pix /\ ascending (map c_x crd) /\
       forall a i, shapes_ok (sh a i) pix) ->
  cands_ok (fun a b i => find_candidate (crds b) (pixs b) (Z.of_nat (length (crds b)))
              (xa a b i) (ya a b i) (xb a b i) (yb a b i) (sh a i) vp (s b)) nc counts.
Proof.
  intros HL H a b i na nb Hab Hb Ha Hnb Hi.
  destruct (H b nb ltac:(lia) Hnb) as (crd & pix & <- & <- & -> & Hp & Hs & Hsh).
  destruct (find_candidate_sound (crds b) (pixs b) (Z.of_nat (length (crds b))) (xa a b i) (ya a b i) (xb a b i) (yb a b i) (sh a i) vp (s b)
              eq_refl (Hsh a i) Hp Hs) as (l & E & L & SS & HI).
  exists l. split; auto. split; auto. split.
  - intros ((j & x) & d) Hin. simpl. destruct (HI j x d Hin) as (? & _). auto.
  - apply StronglySorted_lt_NoDup. exact SS.
Qed.
