(** Completeness of backward tracking: what every camera shows is linked (C81). *)
From Coq Require Import Permutation.
From Verif Require Import Base Lib F64 Model_corr Model_cand Spec_cand Model_track Spec_track Spec_track2
  Proof_track_search Proof_track_rank Proof_track_reg Proof_track_link Proof_track_step Proof_track_just Proof_track_back Proof_track_just2 Proof_track_found.
Local Open Scope Z_scope.

Lemma plain_in_bounds tp d : within_step_limits tp d -> pos3d_in_bounds tp d = true.
Proof. destruct d as [[x y] z]. unfold pos3d_in_bounds, within_step_limits. rewrite !andb_true_iff. tauto. Qed.
Lemma plain_acceptable tp a c : smooth_motion tp (a, c) -> acceptable tp a c = true.
Proof. unfold acceptable, smooth_motion. cbn [fst snd]. rewrite orb_true_iff, andb_true_iff. auto. Qed.
Lemma register_inlist p f c p' : register_link_candidate p f c = Ok p' -> p_inlist p' = p_inlist p + 1.
Proof. unfold register_link_candidate. intros H. apply bind_ok in H as (d & _ & H). apply bind_ok in H as (l & _ & H). now injection H as <-. Qed.

Section Closed.
Variable psort : list (f64 * Z) -> list (f64 * Z).
Hypothesis psort_perm : forall l, Permutation l (psort l).
Variable pixdist : f64 -> f64 -> f64 -> f64 -> f64.
Variable ncam : nat.
Hypothesis ncam_ok : (2 <= ncam <= 4)%nat.
Variables imx imy : Z.
Variable point_to_pixel : Z -> vec -> f64 * f64.
Variable searchquader : Z -> vec -> f64 * f64 * f64 * f64.
Variable moving : vec -> vec -> vec.
Variable extrap : vec -> vec -> vec -> vec.
Variable vec_subt : vec -> vec -> vec.
Variable vec_diff_norm : vec -> vec -> f64.
Variable angle_acc : vec -> vec -> vec -> f64 * f64.
Variable to_flat : Z -> f64 -> f64 -> f64 * f64.
Variable point_position : list (f64 * f64) -> vec.
Variable tp : tpar.
Variable vl : vol.
Let nc := Z.of_nat ncam.
Local Notation trackback_one := (trackback_one pixdist nc imx imy point_to_pixel searchquader moving vec_subt vec_diff_norm angle_acc to_flat point_position tp vl).
Local Notation trackback_step := (trackback_step psort pixdist nc imx imy point_to_pixel searchquader moving extrap vec_subt vec_diff_norm angle_acc to_flat point_position tp vl).
Local Notation fits := (fits_before moving vec_subt angle_acc tp).
Local Notation shown b2 x2 k := (seen_everywhere pixdist ncam imx imy searchquader b2 x2 (projections nc point_to_pixel x2) k).

Lemma trackback_one_found buf0 b1 b2 h b1' b2' p q0 k r : 0 <= h -> frame_ok b2 -> searchable ncam b2 ->
  nth_error (fr_path b1) (Z.to_nat h) = Some p -> track_begins buf0 p q0 -> nth_error (fr_path b2) k = Some r ->
  shown b2 (moving (p_x q0) (p_x p)) (Z.of_nat k) -> fits p q0 r ->
  trackback_one buf0 (b1, b2) h = Ok (b1', b2') ->
  exists q, fr_path b1' = upd (fr_path b1) (Z.to_nat h) q /\ 0 < p_inlist q.
Proof.
  intros Hh F2 S2 Hp (B1 & B2 & B3) Hr SE (FB & FS) H. unfold Model_track.trackback_one in H.
  apply bind_ok in H as (p' & Hp' & H). apply pyget_ok_iff in Hp'; auto. assert (p' = p) as -> by congruence. clear Hp'.
  rewrite B3 in H. replace (p_next p <? 0) with false in H by (symmetry; now apply Z.ltb_ge). cbn [orb negb PREV_NONE Z.eqb] in H.
  change (-1 =? -1) with true in H. cbn [negb] in H.
  change (p_x (reset_inlist p)) with (p_x p) in *. change (p_next (reset_inlist p)) with (p_next p) in *.
  apply bind_ok in H as (q0' & Hq0 & H). apply pyget_ok_iff in Hq0; auto. assert (q0' = q0) as -> by congruence. clear Hq0.
  apply bind_ok in H as (w & Hw & H). apply bind_ok in H as (p1 & Hwh & H).
  assert (LP : length (projections nc point_to_pixel (moving (p_x q0) (p_x p))) = ncam) by (unfold nc; now apply projections_length).
  destruct (seen_ranked pixdist ncam ncam_ok imx imy searchquader _ _ _ _ _ F2 S2 LP (Zle_0_nat k) SE Hw) as (LW & i & g & Hg & Eg & HR).
  assert (W : 0 < p_inlist p1).
  { eapply (while_reach (fun s => 0 <= p_inlist s) (fun s => 0 < p_inlist s)) in Hwh; eauto.
    - cbn. lia.
    - intros i' g' s Li Hg' _. destruct (HR i' g' Li Hg') as (A & _). apply negb_true_iff, Z.eqb_neq. unfold TR_UNUSED. lia.
    - intros g' s s1 _ _ A Hb. apply bind_ok in Hb as (q & _ & Hb).
      destruct (pos3d_in_bounds tp _); [|injection Hb as <-; auto]. match type of Hb with context [angle_acc ?a ?b ?c] => destruct (angle_acc a b c) as [an ac] end.
      destruct (acceptable tp an ac); [|injection Hb as <-; auto]. apply register_inlist in Hb. lia.
    - intros s s1 A Hb. apply bind_ok in Hb as (q & Hq & Hb). rewrite Eg in Hq. apply pyget_ok_iff in Hq; [|lia]. rewrite Nat2Z.id in Hq.
      assert (q = r) as -> by congruence. rewrite (plain_in_bounds _ _ FB) in Hb.
      unfold Spec_track2.fits_before in FS. match type of Hb with context [angle_acc ?a ?b ?c] => destruct (angle_acc a b c) as [an ac] end. rewrite (plain_acceptable _ _ _ FS) in Hb. apply register_inlist in Hb. lia. }
  apply bind_ok in H as ([p2 b2x] & Hb & H).
  assert (E : p2 = p1).
  { destruct (_ && _); [|injection Hb as <- <-; auto]. apply bind_ok in Hb as ([[quali v2] philf] & _ & Hb).
    destruct (2 <=? quali); [|injection Hb as <- <-; auto]. rewrite empty_volume in Hb. cbn [andb] in Hb.
    injection Hb as <- <-. auto. }
  subst p2. apply bind_ok in H as (path & Hpath & H). injection H as <- <-.
  apply pyset_ok in Hpath as (L & ->); auto. exists p1. cbn [set_path fr_path]. auto.
Qed.

Lemma trackback_all_found buf0 b1 b2 c1 c2 h p q0 k r : frame_ok b1 -> frame_ok b2 -> searchable ncam b2 ->
  (forall p, In p (fr_path b1) -> p_inlist p = 0) ->
  nth_error (fr_path b1) h = Some p -> track_begins buf0 p q0 -> nth_error (fr_path b2) k = Some r ->
  shown b2 (moving (p_x q0) (p_x p)) (Z.of_nat k) -> fits p q0 r ->
  foldM (trackback_one buf0) (zrange 0 (fr_num b1)) (b1, b2) = Ok (c1, c2) ->
  exists q, nth_error (fr_path c1) h = Some q /\ 0 < p_inlist q.
Proof.
  intros (F1 & _) F2 S2 HI Hp TB Hr SE FT H. assert (Lh : (h < length (fr_path b1))%nat) by (apply nth_error_Some; congruence).
  apply (foldM_inv (fun done '(c1, c2) => c2 = b2 /\ length (fr_path c1) = length (fr_path b1) /\
    (forall j, (length done <= j)%nat -> nth_error (fr_path c1) j = nth_error (fr_path b1) j) /\
    ((h < length done)%nat -> exists q, nth_error (fr_path c1) h = Some q /\ 0 < p_inlist q))) in H.
  - destruct H as (_ & _ & _ & H). apply H. rewrite zrange_length. lia.
  - split; auto. split; auto. split; auto. cbn. lia.
  - intros done j rest [d1 d2] [e1 e2] E (-> & C & D & G) Hs. apply zrange_split in E as (_ & Hj & Ej).
    replace j with (Z.of_nat (length done)) in * by lia. clear Ej.
    pose proof Hs as Hw.
    apply (trackback_one_ok pixdist ncam ltac:(lia)) in Hw as (-> & _ & (x & y & Hx & Hy & _)); auto; [|lia|].
    2:{ rewrite Nat2Z.id, D by lia. intros x Hx. apply HI. eapply nth_error_In; eauto. }
    rewrite Nat2Z.id in *. split; auto. split; [now rewrite Hy, upd_length|]. rewrite app_length. cbn [length]. split.
    + intros j' Hj'. rewrite Hy, nth_error_upd_neq by lia. apply D. lia.
    + intros Ld. destruct (Nat.eq_dec h (length done)) as [->|N].
      * eapply trackback_one_found in Hs; eauto; [|lia|rewrite Nat2Z.id, D by lia; eauto].
        destruct Hs as (q & Hq & Q). rewrite Nat2Z.id in Hq. exists q. rewrite Hq, nth_error_upd_eq by lia. auto.
      * destruct (G ltac:(lia)) as (q & Q1 & Q2). exists q. rewrite Hy, nth_error_upd_neq by auto. auto.
Qed.

Lemma back_link_closes p0 before cur nxt cur' nxt' cnt h k p q0 r :
  (forall h p, nth_error cur h = Some p -> backrow (Z.of_nat (length nxt)) p) ->
  back_link_all extrap angle_acc tp p0 (fr_path before) (Z.of_nat (length cur)) cur nxt = Ok (cur', nxt', cnt) ->
  nth_error cur h = Some p -> 0 < p_inlist p -> nth_error (p_link p) 0 = Some (Z.of_nat k) ->
  0 <= p_next p -> nth_error p0 (Z.to_nat (p_next p)) = Some q0 ->
  nth_error nxt k = Some r -> track_ends extrap angle_acc tp before p q0 r ->
  (forall h' p', (h' < h)%nat -> nth_error cur h' = Some p' -> 0 < p_inlist p' -> nth_error (p_link p') 0 <> Some (Z.of_nat k)) ->
  prev_of cur' h = Z.of_nat k /\ next_of nxt' k = Z.of_nat h.
Proof.
  intros HB H Hp Hi Hl Hn Hq0 Hr (T1 & T2) FC. unfold back_link_all in H.
  assert (Lh : (h < length cur)%nat) by (apply nth_error_Some; congruence).
  assert (Lk : (k < length nxt)%nat) by (apply nth_error_Some; congruence).
  apply (foldM_inv (fun done '(cu, nx, _) => length cu = length cur /\ length nx = length nxt /\
    (forall j, (length done <= j)%nat -> nth_error cu j = nth_error cur j) /\
    ((length done <= h)%nat -> nth_error nx k = Some r) /\
    ((h < length done)%nat -> prev_of cu h = Z.of_nat k /\ next_of nx k = Z.of_nat h))) in H.
  - destruct H as (_ & _ & _ & _ & H). apply H. rewrite zrange_length. lia.
  - split; auto. split; auto. split; auto. split; auto. cbn. lia.
  - intros done j rest [[c n] t] [[c' n'] t'] E (I1 & I2 & I3 & I4 & I5) Hs. apply zrange_split in E as (_ & Hj & Ej).
    replace j with (Z.of_nat (length done)) in * by lia. clear Ej. unfold back_link_one in Hs.
    rewrite app_length. cbn [length].
    apply bind_ok in Hs as (pj & Hpj & Hs). apply pyget_ok_iff in Hpj; [|lia]. rewrite Nat2Z.id, I3 in Hpj by lia.
    apply bind_ok in Hs as ([c1 n1] & Hc & Hs). apply bind_ok in Hs as (pp & _ & Hs). injection Hs as <- <- _.
    destruct (HB _ _ Hpj) as ((_ & _ & _ & B4) & B5).
    assert (SAME : length done <> h -> c1 = c /\ n1 = n -> length c1 = length cur /\ length n1 = length nxt /\
      (forall j, (length done + 1 <= j)%nat -> nth_error c1 j = nth_error cur j) /\ ((length done + 1 <= h)%nat -> nth_error n1 k = Some r) /\
      ((h < length done + 1)%nat -> prev_of c1 h = Z.of_nat k /\ next_of n1 k = Z.of_nat h)).
    { intros Nd (-> & ->). split; auto. split; auto. split; [intros; apply I3; lia|]. split; [intros; apply I4; lia|]. intros; apply I5; lia. }
    rewrite Z.gtb_ltb in Hc. destruct (Z.ltb_spec 0 (p_inlist pj)) as [Hij|Hij].
    2:{ injection Hc as <- <-. apply SAME; auto. intros E. rewrite E in Hpj. assert (pj = p) as -> by congruence. lia. }
    apply bind_ok in Hc as (v & Hv & Hc). apply pyget_ok_iff in Hv; [|lia]. change (Z.to_nat 0) with O in Hv.
    assert (Kv : 0 <= v < Z.of_nat (length nxt)) by (apply (B4 O v); auto).
    apply bind_ok in Hc as (d & _ & Hc). apply bind_ok in Hc as (s & Hsv & Hc). apply pyget_ok_iff in Hsv; [|lia].
    assert (TAKE : (do cur <- pyset c (Z.of_nat (length done)) (take_back pj d v); do nxt <- pyset n v (set_next s (Z.of_nat (length done))); Ok (cur, nxt)) = Ok (c1, n1) ->
      (p_next s = NEXT_NONE) -> length c1 = length cur /\ length n1 = length nxt /\
      (forall j, (length done + 1 <= j)%nat -> nth_error c1 j = nth_error cur j) /\ ((length done + 1 <= h)%nat -> nth_error n1 k = Some r) /\
      ((h < length done + 1)%nat -> prev_of c1 h = Z.of_nat k /\ next_of n1 k = Z.of_nat h)).
    { intros Hx Ns. apply bind_ok in Hx as (c2 & Hc2 & Hx). apply bind_ok in Hx as (n2 & Hn2 & Hx). injection Hx as <- <-.
      apply pyset_ok in Hc2 as (L1 & ->); [|lia]. apply pyset_ok in Hn2 as (L2 & ->); [|lia]. rewrite Nat2Z.id in *.
      split; [now rewrite upd_length|]. split; [now rewrite upd_length|]. split; [|split].
      - intros j' Hj'. rewrite nth_error_upd_neq by lia. apply I3. lia.
      - intros Hd. rewrite nth_error_upd_neq; [apply I4; lia|]. intros E.
        apply (FC (length done) pj ltac:(lia) Hpj Hij). rewrite Hv. f_equal. lia.
      - intros Hd. rewrite prev_of_upd, next_of_upd by auto.
        destruct (Nat.eqb_spec h (length done)) as [->|Nh].
        + assert (pj = p) as -> by congruence. assert (v = Z.of_nat k) as -> by congruence. rewrite Nat2Z.id, Nat.eqb_refl. cbn. auto.
        + destruct (I5 ltac:(lia)) as (X1 & X2). destruct (Nat.eqb_spec k (Z.to_nat v)) as [->|Nk]; auto.
          exfalso. unfold next_of in X2. rewrite Hsv, Ns in X2. unfold NEXT_NONE in X2. lia. }
    assert (AT : length done = h -> s = r /\ pj = p).
    { intros E. assert (pj = p) as -> by (rewrite E in Hpj; congruence). split; auto. assert (v = Z.of_nat k) as -> by congruence.
      rewrite Nat2Z.id, I4 in Hsv by lia. congruence. }
    destruct ((p_prev s =? PREV_NONE) && (p_next s =? NEXT_NONE)) eqn:E1.
    { apply andb_true_iff in E1 as (_ & E1). apply Z.eqb_eq in E1. auto. }
    destruct (negb (p_prev s =? PREV_NONE) && (p_next s =? NEXT_NONE)) eqn:E2.
    2:{ injection Hc as <- <-. apply SAME; auto. intros E. destruct (AT E) as (-> & ->). rewrite T1 in E1, E2.
        rewrite Z.eqb_refl, andb_true_r in E1. rewrite Z.eqb_refl, andb_true_r, E1 in E2. discriminate. }
    apply andb_true_iff in E2 as (E2 & E3). apply Z.eqb_eq in E3.
    apply bind_ok in Hc as (q0' & Hq0' & Hc). apply bind_ok in Hc as (q4 & Hq4 & Hc).
    destruct (angle_acc _ _ _) as [an ac] eqn:Ea. destruct (acceptable tp an ac) eqn:Eac; [auto|].
    injection Hc as <- <-. apply SAME; auto. intros E. destruct (AT E) as (-> & ->).
    destruct T2 as [T2|(q4' & T3 & T4 & T5)]; [rewrite T2 in E2; discriminate|].
    apply pyget_ok_iff in Hq0'; auto. apply pyget_ok_iff in Hq4; auto. assert (q4' = q4) as -> by congruence. assert (q0' = q0) as -> by congruence.
    rewrite Ea in T5. apply plain_acceptable in T5. congruence.
Qed.

Theorem back_closed buf0 b1 b2 b3 c1 c2 cnt h k p q0 r :
  frame_ok b1 -> frame_ok b2 -> searchable ncam b2 -> (forall p, In p (fr_path b1) -> p_inlist p = 0) ->
  trackback_step buf0 b1 b2 b3 = Ok (c1, c2, cnt) ->
  nth_error (fr_path b1) h = Some p -> nth_error (fr_path b2) k = Some r -> track_begins buf0 p q0 -> track_ends extrap angle_acc tp b3 p q0 r ->
  shown b2 (moving (p_x q0) (p_x p)) (Z.of_nat k) -> fits p q0 r ->
  (forall k' r', nth_error (fr_path b2) k' = Some r' -> fits p q0 r' -> k' = k) ->
  (forall h' p' q0', (h' < h)%nat -> nth_error (fr_path b1) h' = Some p' -> track_begins buf0 p' q0' -> ~ fits p' q0' r) ->
  prev_of (fr_path c1) h = Z.of_nat k /\ next_of (fr_path c2) k = Z.of_nat h.
Proof.
  intros F1 F2 S2 HI H Hp Hr TB TE SE FT U1 U2. unfold Model_track.trackback_step in H.
  apply bind_ok in H as ([d1 d2] & Ht & H).
  destruct (trackback_all_found _ _ _ _ _ _ _ _ _ _ F1 F2 S2 HI Hp TB Hr SE FT Ht) as (q & Hq & Qi).
  pose proof (trackback_all_why pixdist ncam ltac:(lia) imx imy point_to_pixel searchquader moving vec_subt vec_diff_norm angle_acc to_flat point_position tp vl _ _ _ _ _ F1 F2 HI Ht) as W.
  apply (trackback_all_ok pixdist ncam ltac:(lia)) in Ht as (-> & A1 & A2 & A3); auto.
  apply bind_ok in H as (cur & Hd & H). apply bind_ok in H as ([[cur' nxt'] cnt'] & Hl & H). injection H as <- <- <-.
  pose proof F1 as (FN & _). rewrite A1, FN, <- A2 in Hd, Hl. cbn [set_path fr_path].
  set (N := Z.of_nat (length (fr_path b2))) in *.
  assert (BR : forall h p, nth_error (fr_path d1) h = Some p -> backrow N p).
  { intros h' p' Hp'. assert (h' < length (fr_path d1))%nat by (apply nth_error_Some; congruence).
    destruct (nth_error (fr_path b1) h') as [p1|] eqn:E0; [|apply nth_error_None in E0; lia].
    destruct (A3 h' p1 E0) as (x & R1 & R2 & R3 & R4). assert (x = p') as -> by congruence. split; auto. }
  pose proof Hd as Hd'. apply (back_decide_ok psort psort_perm ncam ltac:(lia) N) in Hd' as (D1 & D2); auto.
  rewrite <- D1 in Hl.
  assert (CO : forall h p, nth_error (fr_path d1) h = Some p -> cands_ok N p) by (intros; eapply BR; eauto).
  pose proof (back_decide_why psort psort_perm ncam ltac:(lia) N _ _ CO Hd) as DW.
  assert (BC : forall h p, nth_error cur h = Some p -> backrow N p).
  { intros h' p' Hp'. destruct (DW h' p' Hp') as (x & X & _). destruct (D2 _ _ X) as (y & Y1 & _ & Y2). assert (y = p') as -> by congruence. auto. }
  assert (WANT : forall h' p1 v, nth_error cur h' = Some p1 -> 0 < p_inlist p1 -> nth_error (p_link p1) 0 = Some v ->
    exists p0, nth_error (fr_path b1) h' = Some p0 /\ why_back moving vec_subt angle_acc tp buf0 b2 p0 v).
  { intros h' p1 v H1 H2 H3. destruct (DW h' p1 H1) as (x & X1 & _ & X2 & X3). rewrite X2 in H2.
    assert (h' < length (fr_path d1))%nat by (apply nth_error_Some; congruence).
    destruct (nth_error (fr_path b1) h') as [y|] eqn:E0; [|apply nth_error_None in E0; lia]. exists y. split; auto.
    destruct (W h' y E0) as (x' & X1' & RE). assert (x' = x) as -> by congruence. eapply X3; eauto. }
  destruct (D2 h q Hq) as (q1 & Hq1 & (X1 & X2 & X3 & _) & _).
  destruct (DW h q1 Hq1) as (q' & Hq' & _ & DI & _). assert (q' = q) as -> by congruence.
  destruct (A3 h p Hp) as (q' & Q1 & (Y1 & Y2 & Y3 & _) & _). assert (q' = q) as -> by congruence.
  destruct (BC h q1 Hq1) as ((C1 & C2 & C3 & C4) & _).
  destruct (nth_error (p_link q1) 0) as [v|] eqn:Ev; [|apply nth_error_None in Ev; lia].
  assert (v = Z.of_nat k) as ->.
  { destruct (WANT h q1 v Hq1 ltac:(lia) Ev) as (p' & Hp' & (w1 & w2 & r' & q0' & w3 & w4 & w5 & w6)). assert (p' = p) as -> by congruence.
    destruct TB as (t1 & t2 & t3). assert (q0' = q0) as -> by congruence.
    rewrite <- (U1 (Z.to_nat v) r' w3 (conj w5 w6)). specialize (C4 O v ltac:(lia) Ev). lia. }
  destruct TB as (t1 & t2 & t3).
  eapply (back_link_closes _ b3 cur (fr_path b2) cur' nxt' cnt' h k q1 q0 r); eauto; try lia; try (rewrite X3, Y3; assumption).
  - unfold track_ends in *. rewrite X1, Y1. auto.
  - intros h' p' L H1 H2 H3. destruct (WANT h' p' _ H1 H2 H3) as (p1 & Hp1 & (w1 & w2 & r' & q0' & w3 & w4 & w5 & w6)).
    rewrite Nat2Z.id in w3. assert (r' = r) as -> by congruence. exact (U2 h' p1 q0' L Hp1 (conj w1 (conj w4 w2)) (conj w5 w6)).
Qed.
End Closed.
