(** The decision values of the link candidates (C82). *)
From Coq Require Import Permutation.
From Verif Require Import Base Lib F64 Model_corr Model_cand Spec_cand Model_track Spec_track Spec_track2 Spec_track3
  Proof_track_search Proof_track_rank Proof_track_reg Proof_track_link Proof_track_step Proof_track_just Proof_track_back Proof_track_just2 Proof_track_found.
Local Open Scope Z_scope.

(** every collected (value, candidate) pair satisfies [J] *)
Definition pairs (J : f64 -> Z -> Prop) (p : pinfo) : Prop :=
  forall j d v, Z.of_nat j < p_inlist p -> nth_error (p_decis p) j = Some d -> nth_error (p_link p) j = Some v -> J d v.
Lemma register_pairs J N p d v p' : cands_ok N p -> pairs J p -> J d v ->
  register_link_candidate p d v = Ok p' -> pairs J p'.
Proof.
  intros (A & B & C & _) HR Hv H. unfold register_link_candidate in H.
  apply bind_ok in H as (dl & Hd & H). apply bind_ok in H as (ll & Hl & H). injection H as <-.
  apply pyset_ok in Hl as (Ll & ->); auto. apply pyset_ok in Hd as (Ld & ->); auto.
  intros j e w Hj He Hw. cbn [p_inlist p_link p_decis] in *. rewrite nth_error_upd in He. rewrite nth_error_upd in Hw.
  apply Nat.ltb_lt in Ll, Ld. rewrite Ll in Hw. rewrite Ld in He. destruct (Nat.eqb_spec j (Z.to_nat (p_inlist p))).
  - injection Hw as <-. injection He as <-. auto.
  - apply (HR j e w); auto. lia.
Qed.
Lemma in_combine_pos {A B} (a : list A) (b : list B) x y : In (x, y) (combine a b) ->
  exists j, nth_error a j = Some x /\ nth_error b j = Some y.
Proof.
  revert b. induction a as [|u a IH]; intros [|v b] H; try destruct H.
  - injection H as -> ->. exists O. auto.
  - destruct (IH b H) as (j & J). exists (S j). auto.
Qed.
Lemma combine_nth_in {A B} (a : list A) (b : list B) j x y : nth_error a j = Some x -> nth_error b j = Some y -> In (x, y) (combine a b).
Proof.
  revert a b. induction j as [|j IH]; intros [|u a] [|v b] H1 H2; try discriminate; cbn in *.
  - left. congruence. - right. auto.
Qed.
Section Sorted.
Variable psort : list (f64 * Z) -> list (f64 * Z).
Hypothesis psort_perm : forall l, Permutation l (psort l).
Lemma sorted_pairs J N p a b : cands_ok N p -> pairs J p -> 0 < p_inlist p ->
  sort_links psort (p_inlist p) (p_decis p) (p_link p) = Ok (a, b) ->
  forall j d v, Z.of_nat j < p_inlist p -> nth_error a j = Some d -> nth_error b j = Some v -> J d v.
Proof.
  intros (A & B & C & D) HR Hi H j d v Hj Hd Hv.
  destruct (sort_links_ok psort psort_perm (p_inlist p) (p_decis p) (p_link p) ltac:(lia) ltac:(lia))
    as (a' & b' & E & L1 & L2 & EC & S1 & S2).
  rewrite E in H. injection H as <- <-. set (n := Z.to_nat (p_inlist p)) in *.
  assert (IN : In (d, v) (combine (firstn n (p_decis p)) (firstn n (p_link p)))).
  { eapply Permutation_in; [symmetry; apply psort_perm|]. rewrite <- EC.
    apply (combine_nth_in _ _ j); rewrite nth_error_firstn by lia; auto. }
  apply in_combine_pos in IN as (i & I1 & I2).
  assert (Li : (i < n)%nat). { assert (i < length (firstn n (p_decis p)))%nat by (apply nth_error_Some; congruence). rewrite firstn_length in *. lia. }
  rewrite nth_error_firstn in I1 by auto. rewrite nth_error_firstn in I2 by auto. apply (HR i d v); auto. lia.
Qed.
Lemma decide_pairs J N p p' : cands_ok N p -> pairs J p -> decide psort p = Ok p' -> pairs J p'.
Proof.
  intros HC HR H. unfold decide in H. rewrite Z.gtb_ltb in H. destruct (Z.ltb_spec 0 (p_inlist p)) as [Hi|Hi]; [|injection H as <-; auto].
  apply bind_ok in H as ([a b] & Hab & H). apply bind_ok in H as (d & _ & H). apply bind_ok in H as (l & _ & H). injection H as <-.
  intros j e v Hj He Hv. cbn [p_inlist p_decis p_link fst snd] in *. eapply sorted_pairs; eauto.
Qed.
Lemma decide_all_pairs (J : nat -> f64 -> Z -> Prop) N cur cur' : (forall h p, nth_error cur h = Some p -> cands_ok N p /\ pairs (J h) p) ->
  decide_all psort (Z.of_nat (length cur)) cur = Ok cur' ->
  forall h q, nth_error cur' h = Some q -> pairs (J h) q.
Proof.
  intros HC H. unfold decide_all in H.
  apply (foldM_inv (fun done s => length s = length cur /\ (forall h, (length done <= h)%nat -> nth_error s h = nth_error cur h) /\
    forall h q, nth_error s h = Some q -> pairs (J h) q)) in H; [apply H| |].
  - split; auto. split; auto. intros h q Hq. now apply HC.
  - intros done h rest s s1 E (L & I1 & I2) Hs. apply zrange_split in E as (_ & Hh & Eh).
    replace h with (Z.of_nat (length done)) in * by lia.
    apply bind_ok in Hs as (p & Hp & Hs). apply pyget_ok_iff in Hp; [|lia]. apply bind_ok in Hs as (p' & Hp' & Hs).
    apply pyset_ok in Hs as (Ls & ->); [|lia]. rewrite Nat2Z.id in *. rewrite app_length. cbn [length].
    split; [now rewrite upd_length|]. split.
    + intros k Hk. rewrite nth_error_upd_neq by lia. apply I1. lia.
    + intros k q Hq. destruct (Nat.eq_dec k (length done)) as [->|N']; [|rewrite nth_error_upd_neq in Hq by auto; auto].
      rewrite nth_error_upd_eq in Hq by auto. injection Hq as <-.
      eapply decide_pairs; [|eauto|eauto]. rewrite I1 in Hp by lia. exact (proj1 (HC _ _ Hp)).
Qed.
Lemma back_decide_pairs (J : nat -> f64 -> Z -> Prop) N cur cur' : (forall h p, nth_error cur h = Some p -> cands_ok N p /\ pairs (J h) p) ->
  back_decide psort (Z.of_nat (length cur)) cur = Ok cur' ->
  forall h q, nth_error cur' h = Some q -> pairs (J h) q.
Proof.
  intros HC H. unfold back_decide in H.
  apply (foldM_inv (fun done s => length s = length cur /\ (forall h, (length done <= h)%nat -> nth_error s h = nth_error cur h) /\
    forall h q, nth_error s h = Some q -> pairs (J h) q)) in H; [apply H| |].
  - split; auto. split; auto. intros h q Hq. now apply HC.
  - intros done h rest s s1 E (L & I1 & I2) Hs. apply zrange_split in E as (_ & Hh & Eh).
    replace h with (Z.of_nat (length done)) in * by lia. rewrite app_length. cbn [length].
    apply bind_ok in Hs as (p & Hp & Hs). apply pyget_ok_iff in Hp; [|lia]. rewrite Nat2Z.id in Hp.
    rewrite Z.gtb_ltb in Hs. destruct (Z.ltb_spec 0 (p_inlist p)) as [Hi|Hi].
    2:{ injection Hs as <-. split; auto. split; auto. intros; apply I1; lia. }
    apply bind_ok in Hs as ([a b] & Hab & Hs). apply pyset_ok in Hs as (Ls & ->); [|lia]. rewrite Nat2Z.id in *. cbn [fst snd].
    split; [now rewrite upd_length|]. split.
    + intros k Hk. rewrite nth_error_upd_neq by lia. apply I1. lia.
    + intros k q Hq. destruct (Nat.eq_dec k (length done)) as [->|N']; [|rewrite nth_error_upd_neq in Hq by auto; auto].
      rewrite nth_error_upd_eq in Hq by auto. injection Hq as <-. pose proof (I2 _ _ Hp) as HP. rewrite I1 in Hp by lia.
      intros j e v Hj He Hv. cbn [p_inlist p_decis p_link] in *. eapply sorted_pairs; eauto. exact (proj1 (HC _ _ Hp)).
Qed.
End Sorted.

Lemma proj_nth ncam ptp x c : (c < ncam)%nat -> nth_error (projections (Z.of_nat ncam) ptp x) c = Some (ptp (Z.of_nat c) x).
Proof.
  intros H. unfold projections. rewrite nth_error_map. replace (nth_error (zrange 0 (Z.of_nat ncam)) c) with (Some (Z.of_nat c)); auto.
  unfold zrange. rewrite nth_error_map, (nth_error_nth' _ O) by (rewrite seq_length; lia).
  rewrite seq_nth by lia. reflexivity.
Qed.
Lemma proj_unique ncam ptp px x : length px = ncam -> (forall c p, nth_error px c = Some p -> p = ptp (Z.of_nat c) x) ->
  px = projections (Z.of_nat ncam) ptp x.
Proof.
  intros L H. apply nth_error_ext. intros c. destruct (nth_error px c) as [p|] eqn:E.
  - rewrite (H c p E). symmetry. apply proj_nth. rewrite <- L. apply nth_error_Some. congruence.
  - symmetry. apply nth_error_None. apply nth_error_None in E. unfold projections. rewrite map_length, zrange_length. lia.
Qed.

Section Score.
Variable psort : list (f64 * Z) -> list (f64 * Z).
Hypothesis psort_perm : forall l, Permutation l (psort l).
Variable pixdist : f64 -> f64 -> f64 -> f64 -> f64.
Variable ncam : nat.
Hypothesis ncam_ok : (1 <= ncam <= 4)%nat.
Variables imx imy : Z.
Variable point_to_pixel : Z -> vec -> f64 * f64.
Variable searchquader : Z -> vec -> f64 * f64 * f64 * f64.
Variable moving : vec -> vec -> vec.
Variable extrap : vec -> vec -> vec -> vec.
Variable vec_subt : vec -> vec -> vec.
Variable vec_diff_norm : vec -> vec -> f64.
Variable angle_acc : vec -> vec -> vec -> f64 * f64.
Variable to_flat : Z -> f64 -> f64 -> f64 * f64.
Variable point_position : list (f64 * f64) -> vec.
Variable tp : tpar.
Variable vl : vol.
Let nc := Z.of_nat ncam.
Local Notation second_loop := (second_loop vec_subt vec_diff_norm angle_acc tp vl).
Local Notation first_body := (first_body pixdist nc imx imy point_to_pixel searchquader moving extrap vec_subt vec_diff_norm angle_acc to_flat point_position tp vl).
Local Notation track_one := (track_one pixdist nc imx imy point_to_pixel searchquader moving extrap vec_subt vec_diff_norm angle_acc to_flat point_position tp vl).
Local Notation trackcorr_step := (trackcorr_step psort pixdist nc imx imy point_to_pixel searchquader moving extrap vec_subt vec_diff_norm angle_acc to_flat point_position tp vl).
Local Notation trackback_one := (trackback_one pixdist nc imx imy point_to_pixel searchquader moving vec_subt vec_diff_norm angle_acc to_flat point_position tp vl).
Local Notation trackback_step := (trackback_step psort pixdist nc imx imy point_to_pixel searchquader moving extrap vec_subt vec_diff_norm angle_acc to_flat point_position tp vl).
Local Notation sight f := (sighting pixdist ncam imx imy point_to_pixel to_flat (fr_targ f)).
Local Notation cams := (shown_by pixdist ncam imx imy searchquader).
Local Notation proj := (projections nc point_to_pixel).

Lemma volume_cams center px frm w f : sorted_candidates_in_volume pixdist nc imx imy searchquader center px frm = Ok w ->
  In f w -> ftnr f <> -1 -> cams frm center px (ftnr f) (freq f).
Proof.
  intros H Hf Hn. destruct (volume_exact pixdist ncam imx imy searchquader center px frm w ncam_ok H) as (ids & L & HC & (d & R0 & R1 & _)).
  exists ids. split; auto. split; auto. apply In_nth_error in Hf as (k & Hk). specialize (R1 k f Hk). destruct (k <? d)%nat; [|lia]. lia.
Qed.

Definition why2 (b2 b3 : frame) (px : list (f64 * f64)) (hp : bool) (x0 x1 x2 : vec) (d : f64) (v : Z) : Prop :=
  exists r, 0 <= v /\ nth_error (fr_path b2) (Z.to_nat v) = Some r /\
    scored vec_subt vec_diff_norm angle_acc point_position tp vl (cams b2 x2 px) (fun x => cams b3 x (proj x)) (sight b3) (map p_x (fr_path b3))
      hp x0 x1 x2 v (p_x r) (if hp then extrap (p_x r) x1 x0 else moving x1 (p_x r)) d.

Lemma second_loop_pairs N wn f b2 b3 px x0 x1 x2 (hp : bool) q p p' :
  let x3 := p_x q in let x5 := if hp then extrap x3 x1 x0 else moving x1 x3 in
  frame_ok b3 -> 0 <= ftnr f < N -> nth_error (fr_path b2) (Z.to_nat (ftnr f)) = Some q -> cams b2 x2 px (ftnr f) (freq f) ->
  sorted_candidates_in_volume pixdist nc imx imy searchquader x5 (proj x5) b3 = Ok wn ->
  cands_ok N p -> pairs (why2 b2 b3 px hp x0 x1 x2) p ->
  second_loop wn f b3 x1 x2 x3 x5 hp p = Ok p' -> pairs (why2 b2 b3 px hp x0 x1 x2) p'.
Proof.
  intros x3 x5 F3 Hf Hq Cf Hw HC HP H. unfold Model_track.second_loop in H.
  apply (while_inv (fun s => cands_ok N s /\ pairs (why2 b2 b3 px hp x0 x1 x2) s)) in H; [apply H|auto|].
  clear p p' HC HP H. intros g s s1 Hg Hgo (S1 & S2) Hs.
  apply andb_true_iff in Hgo as (G1 & G2). apply negb_true_iff, Z.eqb_neq in G1. rewrite Z.gtb_ltb in G2. apply Z.ltb_lt in G2. unfold TR_UNUSED in G1.
  pose proof (volume_ids pixdist ncam ncam_ok imx imy searchquader _ _ _ _ g F3 Hw Hg).
  apply bind_ok in Hs as (r & Hr & Hs). apply pyget_ok_iff in Hr; [|lia].
  destruct (pos3d_in_bounds tp _) eqn:Eb; [|injection Hs as <-; auto]. apply in_bounds_plain in Eb.
  destruct (angle_acc x3 (p_x r) x5) as [a1 c1] eqn:E1.
  destruct (if hp then angle_acc x1 x2 x3 else (a1, c1)) as [a0 c0] eqn:E0.
  destruct (acceptable tp _ _) eqn:Eac; [|injection Hs as <-; auto]. apply acceptable_plain in Eac.
  pose proof Hs as Hb. apply (register_link_ok N) in Hb as (A & B); auto. split; auto.
  eapply register_pairs; [exact S1|exact S2| |exact Hs].
  exists q. split; [lia|]. split; auto. fold x3 x5.
  assert (AA : mean_of (if hp then angle_acc x1 x2 x3 else angle_acc x3 (p_x r) x5) (angle_acc x3 (p_x r) x5) = (mean2 a0 a1, mean2 c0 c1)).
  { rewrite E1. rewrite E0. reflexivity. }
  pose proof (goes_on vec_subt vec_diff_norm angle_acc point_position tp vl (cams b2 x2 px) (fun x => cams b3 x (proj x)) (sight b3) (map p_x (fr_path b3))
      hp x0 x1 x2 (ftnr f) x3 x5 (Z.to_nat (ftnr g)) (p_x r) (freq f) (freq g)) as K.
  cbv zeta in K. rewrite AA in K. apply K; auto.
  - rewrite nth_error_map, Hr. reflexivity.
  - rewrite Z2Nat.id by lia. eapply volume_cams; eauto.
Qed.

Hypothesis no_add : do_add tp = false.
Lemma first_body_pairs b2 b3 px x0 x1 x2 f p0 p p' b2' b3' w : frame_ok b2 -> frame_ok b3 ->
  sorted_candidates_in_volume pixdist nc imx imy searchquader x2 px b2 = Ok w -> In f w ->
  0 <= ftnr f < Z.of_nat (length (fr_path b2)) -> same_core p0 p -> cands_ok (Z.of_nat (length (fr_path b2))) p ->
  pairs (why2 b2 b3 px (0 <=? p_prev p0) x0 x1 x2) p ->
  first_body x0 x1 x2 f (p, b2, b3) = Ok (p', b2', b3') ->
  b2' = b2 /\ b3' = b3 /\ same_core p0 p' /\ cands_ok (Z.of_nat (length (fr_path b2))) p' /\ pairs (why2 b2 b3 px (0 <=? p_prev p0) x0 x1 x2) p'.
Proof.
  intros F2 F3 Hw0 Hf0 Hf SC CO PA H. pose proof SC as (SC1 & SC2 & SC3).
  set (N := Z.of_nat (length (fr_path b2))) in *. set (hp := 0 <=? p_prev p0) in *.
  pose proof (volume_cams _ _ _ _ _ Hw0 Hf0 ltac:(lia)) as Cf.
  unfold Model_track.first_body in H. rewrite SC2 in H. fold hp in H.
  apply bind_ok in H as (q & Hq & H). apply pyget_ok_iff in Hq; [|lia].
  set (x3 := p_x q) in *. set (x5 := if hp then extrap x3 x1 x0 else moving x1 x3) in *.
  apply bind_ok in H as (wn & Hw & H). apply bind_ok in H as (p1 & Hp1 & H).
  assert (G1 : same_core p0 p1 /\ cands_ok N p1 /\ pairs (why2 b2 b3 px hp x0 x1 x2) p1).
  { destruct (_ >? 1); [|injection Hp1 as <-; auto]. pose proof Hp1 as Hp1'.
    apply (second_loop_ok _ _ _ _ _ N) in Hp1 as (A & B); [|exact CO|exact Hf]. split; [eapply same_core_trans; eauto|]. split; auto.
    eapply (second_loop_pairs N wn f b2 b3 px x0 x1 x2 hp q p); eauto. }
  clear Hp1. destruct G1 as (S1 & C1 & P1).
  apply bind_ok in H as ([[quali v2] philf] & Ha & H). apply assess_sighting in Ha as (SG & _).
  apply bind_ok in H as ([p2 b3x] & Hp2 & H).
  assert (G2 : b3x = b3 /\ same_core p0 p2 /\ cands_ok N p2 /\ pairs (why2 b2 b3 px hp x0 x1 x2) p2).
  { rewrite no_add in Hp2. destruct (Z.leb_spec 2 quali) as [Q2|_]; [|injection Hp2 as <- <-; auto].
    destruct (in_volume _ _ _ _ && _) eqn:Ev; [|injection Hp2 as <- <-; auto].
    apply andb_true_iff in Ev as (Ev & Eb). apply in_volume_plain in Ev. apply in_bounds_plain in Eb.
    destruct (angle_acc _ _ _) as [an ac] eqn:Ea. destruct (acceptable tp an ac) eqn:Eac; [|injection Hp2 as <- <-; auto].
    apply acceptable_plain in Eac. apply bind_ok in Hp2 as (p3 & Hp3 & Hp2). injection Hp2 as <- <-. split; auto.
    pose proof Hp3 as Hb. apply (register_link_ok N) in Hb as (A & B); auto. split; [eapply same_core_trans; eauto|]. split; auto.
    eapply register_pairs; [exact C1|exact P1| |exact Hp3]. exists q. split; [lia|]. split; auto. fold x3 x5.
    pose proof (measured_on vec_subt vec_diff_norm angle_acc point_position tp vl (cams b2 x2 px) (fun x => cams b3 x (proj x)) (sight b3) (map p_x (fr_path b3))
      hp x0 x1 x2 (ftnr f) x3 x5 (freq f) quali v2) as K. cbv zeta in K. rewrite Ea in K. apply K; auto. }
  clear Hp2. destruct G2 as (-> & S2 & C2 & P2).
  apply bind_ok in H as (p4 & Hp4 & H). injection H as <- <- <-. split; auto. split; auto.
  destruct (_ && _) eqn:Ec; [|injection Hp4 as <-; auto]. apply andb_true_iff in Ec as (_ & Ehp).
  destruct (pos3d_in_bounds tp _) eqn:Eb; [|injection Hp4 as <-; auto]. apply in_bounds_plain in Eb.
  destruct (angle_acc _ _ _) as [an ac] eqn:Ea. destruct (acceptable tp an ac) eqn:Eac; [|injection Hp4 as <-; auto]. apply acceptable_plain in Eac.
  pose proof Hp4 as Hb. apply (register_link_ok N) in Hb as (A & B); auto. split; [eapply same_core_trans; eauto|]. split; auto.
  eapply register_pairs; [exact C2|exact P2| |exact Hp4]. exists q. split; [lia|]. split; auto. fold x3 x5.
  pose proof (from_past vec_subt vec_diff_norm angle_acc point_position tp vl (cams b2 x2 px) (fun x => cams b3 x (proj x)) (sight b3) (map p_x (fr_path b3))
      hp x0 x1 x2 (ftnr f) x3 x5 (freq f)) as K. cbv zeta in K. rewrite Ea in K. apply K; auto.
Qed.

Lemma track_one_pairs buf0 b1 b2 b3 h b1' b2' b3' : frame_ok b2 -> frame_ok b3 ->
  track_one buf0 (b1, b2, b3) (Z.of_nat h) = Ok (b1', b2', b3') ->
  b2' = b2 /\ b3' = b3 /\ exists p q, nth_error (fr_path b1) h = Some p /\ fr_path b1' = upd (fr_path b1) h q /\
    (forall hp x0 x2 px, past_of moving buf0 p hp x0 x2 -> looked_at ncam point_to_pixel b1 h hp (p_x p) x2 px ->
      pairs (why2 b2 b3 px hp x0 (p_x p) x2) q).
Proof.
  intros F2 F3 H. unfold Model_track.track_one in H.
  apply bind_ok in H as (p & Hp & H). apply pyget_ok_iff in Hp; [|lia]. rewrite Nat2Z.id in Hp.
  apply bind_ok in H as (c & Hc & H). apply pyget_ok_iff in Hc; [|lia]. rewrite Nat2Z.id in Hc.
  apply bind_ok in H as ([[x0 x2] v1] & Hpre & H).
  apply bind_ok in H as (w & Hw & H). apply bind_ok in H as ([[p' b2x] b3x] & Hs & H).
  apply bind_ok in H as (path & Hpath & H). injection H as <- <- <-.
  apply pyset_ok in Hpath as (Lh & ->); [|lia]. rewrite Nat2Z.id in *. cbn [set_path fr_path].
  change (p_prev (reset_inlist p)) with (p_prev p) in *. change (p_x (reset_inlist p)) with (p_x p) in *.
  rewrite no_add in Hs. cbn [andb] in Hs.
  set (rp := reset_inlist p) in *. set (N := Z.of_nat (length (fr_path b2))) in *.
  assert (K : b2x = b2 /\ b3x = b3 /\ pairs (why2 b2 b3 v1 (0 <=? p_prev p) x0 (p_x p) x2) p').
  { assert (Z0 : pairs (why2 b2 b3 v1 (0 <=? p_prev p) x0 (p_x p) x2) rp) by (intros j d v Hj; cbn [rp reset_inlist p_inlist] in Hj; lia).
    destruct (_ =? 1); [injection Hs as <- <- <-; auto|]. apply bind_ok in Hs as ([[p1 b21] b31] & Hwh & Hs). injection Hs as <- <- <-.
    apply (while_inv (fun s => let '(ps, c2, c3) := s in c2 = b2 /\ c3 = b3 /\ same_core p ps /\ cands_ok N ps /\
      pairs (why2 b2 b3 v1 (0 <=? p_prev p) x0 (p_x p) x2) ps)) in Hwh.
    - destruct Hwh as (A & B & _ & _ & C). auto.
    - split; auto. split; auto. split; [repeat split|]. split; auto.
      unfold rp, cands_ok, reset_inlist. cbn [p_inlist p_decis p_link]. repeat split; try lia.
    - intros f [[ps c2] c3] [[ps1 d2] d3] Hf Hgo (-> & -> & A & B & C) Hb.
      apply andb_true_iff in Hgo as (G1 & G2). apply negb_true_iff, Z.eqb_neq in G1. rewrite Z.gtb_ltb in G2. apply Z.ltb_lt in G2. unfold TR_UNUSED in G1.
      pose proof (volume_ids pixdist ncam ncam_ok imx imy searchquader _ _ _ _ f F2 Hw Hf).
      eapply first_body_pairs in Hb; eauto. lia. }
  destruct K as (-> & -> & K). split; auto. split; auto. exists p, p'. split; auto. split; auto.
  intros hp y0 y2 px (Ehp & HY1 & HY2) (LP & LA).
  assert (PRE : y2 = x2 /\ (hp = true -> y0 = x0) /\ v1 = px).
  { rewrite <- Ehp in Hpre. destruct hp.
    - apply bind_ok in Hpre as (q0 & Hq0 & Hpre). injection Hpre as <- <- <-. apply pyget_ok_iff in Hq0; [|lia].
      destruct (HY1 eq_refl) as (q1 & Q1 & -> & ->). assert (q1 = q0) as -> by congruence. split; auto. split; auto. symmetry. exact (proj_unique ncam point_to_pixel px _ LP LA).
    - apply bind_ok in Hpre as (v & Hv & Hpre). injection Hpre as <- <- <-. split; [now apply HY2|]. split; [discriminate|].
      apply (foldM_inv (fun done acc => length acc = length done /\ forall c q, (c < length done)%nat -> nth_error px c = Some q -> nth_error acc c = Some q)) in Hv.
      + destruct Hv as (LV & Hv). rewrite zrange_length in *. replace (Z.to_nat (nc - 0)) with ncam in * by (unfold nc; lia).
        apply nth_error_ext. intros i. destruct (nth_error px i) as [q|] eqn:Eq.
        * apply Hv; auto. rewrite <- LP. apply nth_error_Some. congruence.
        * apply nth_error_None in Eq. apply nth_error_None. lia.
      + split; auto. cbn. lia.
      + intros done j rest acc acc1 E (LV & HV) Hj. apply zrange_split in E as (_ & Hj2 & Ej). replace j with (Z.of_nat (length done)) in * by lia. clear Ej.
        apply bind_ok in Hj as (ix & Hix & Hj). apply pyget_ok_iff in Hix; [|lia]. rewrite Nat2Z.id in Hix. rewrite app_length. cbn [length].
        assert (X : exists q0, acc1 = acc ++ [q0] /\ forall q, nth_error px (length done) = Some q -> q = q0).
        { destruct (Z.eqb_spec ix CORRES_NONE) as [E1|E1].
          - injection Hj as <-. eexists. split; [reflexivity|]. intros q Hq. destruct (LA _ _ Hq) as (rw & ix' & R1 & R2 & R3).
            assert (rw = c) as -> by congruence. assert (ix' = ix) as -> by congruence. unfold CORRES_NONE in E1.
            destruct R3 as [(_ & ->)|(? & _)]; [auto|lia].
          - apply bind_ok in Hj as (tl & Htl & Hj). apply bind_ok in Hj as (t & Ht & Hj). injection Hj as <-. eexists. split; [reflexivity|].
            intros q Hq. destruct (LA _ _ Hq) as (rw & ix' & R1 & R2 & R3).
            assert (rw = c) as -> by congruence. assert (ix' = ix) as -> by congruence. unfold CORRES_NONE in E1.
            destruct R3 as [(? & _)|(I0 & tl' & t' & T1 & T2 & ->)]; [lia|].
            apply pyget_ok_iff in Htl; [|lia]. rewrite Nat2Z.id in Htl. assert (tl' = tl) as -> by congruence.
            apply pyget_ok_iff in Ht; [|lia]. congruence. }
        destruct X as (q0 & -> & X). rewrite app_length. cbn [length]. split; [lia|]. intros c0 q Hc0 Hq.
        destruct (Nat.eq_dec c0 (length done)) as [->|Nd].
        * rewrite (X q Hq), nth_error_app2, LV, Nat.sub_diag by lia. reflexivity.
        * rewrite nth_error_app1 by lia. apply HV; auto. lia. }
  destruct PRE as (-> & E0 & ->). rewrite <- Ehp in K. destruct hp; [now rewrite E0|].
  intros j d v Hj Hd Hv. destruct (K j d v Hj Hd Hv) as (r & R1 & R2 & R3). exists r. split; auto. split; auto.
  destruct R3 as [m x4 n n' A1 A2 A3 A4 aa A5|n n' fl A1 A2 A3 x4 aa A4 A5 A6|n A1].
  - now apply (goes_on _ _ _ _ _ _ _ _ _ _ false) with (m := m).
  - now apply (measured_on _ _ _ _ _ _ _ _ _ _ false).
  - discriminate.
Qed.

(** the particles whose past and place are described, and their pairs *)
Definition described buf0 b1 b2 b3 h p (q : pinfo) : Prop :=
  forall hp x0 x2 px, past_of moving buf0 p hp x0 x2 -> looked_at ncam point_to_pixel b1 h hp (p_x p) x2 px ->
    pairs (why2 b2 b3 px hp x0 (p_x p) x2) q.
Lemma track_all_pairs buf0 b1 b2 b3 c1 c2 c3 : frame_ok b1 -> frame_ok b2 -> frame_ok b3 ->
  foldM (track_one buf0) (zrange 0 (fr_num b1)) (b1, b2, b3) = Ok (c1, c2, c3) ->
  forall h p, nth_error (fr_path b1) h = Some p -> exists q, nth_error (fr_path c1) h = Some q /\ described buf0 b1 b2 b3 h p q.
Proof.
  intros (F1 & _) F2 F3 H.
  apply (foldM_inv (fun done st => TI b1 b2 b3 (length done) st /\ let '(c1, c2, c3) := st in c2 = b2 /\ c3 = b3 /\
    forall h p, nth_error (fr_path b1) h = Some p -> (h < length done)%nat -> exists q, nth_error (fr_path c1) h = Some q /\ described buf0 b1 b2 b3 h p q)) in H.
  - destruct H as (_ & -> & -> & H). intros h p Hp. apply (H h p Hp). rewrite zrange_length.
    assert (h < length (fr_path b1))%nat by (apply nth_error_Some; congruence). lia.
  - split.
    + split; auto. split; auto. split; [apply only_added_refl|]. split; [apply only_added_refl|]. split; auto. split; auto. split; auto.
      intros h p Hp. exists p. split; auto. split; [apply same_core_refl|]. simpl. lia.
    + split; auto. split; auto. cbn. lia.
  - intros done h rest [[d1 d2] d3] [[e1 e2] e3] E ((A1 & A2 & A3 & A4 & A5 & A6 & A7 & A8) & -> & -> & HF) Hs.
    apply zrange_split in E as (_ & Hh & Eh). replace h with (Z.of_nat (length done)) in * by lia. clear Eh.
    pose proof Hs as Hw.
    apply (track_one_ok pixdist ncam ncam_ok) in Hs as (B1 & B2 & B3 & B4 & B5 & B6 & (p & q & Hp & Hq & Sc & Co)); auto; try lia.
    apply track_one_pairs in Hw as (-> & -> & (p' & q' & Hp' & Hq' & V3)); auto.
    rewrite Nat2Z.id in *. assert (p' = p) as -> by congruence.
    assert (LD : (length done < length (fr_path d1))%nat) by (apply nth_error_Some; congruence).
    assert (q' = q) as ->.
    { assert (X : nth_error (fr_path e1) (length done) = Some q) by (rewrite Hq; now apply nth_error_upd_eq).
      rewrite Hq', nth_error_upd_eq in X by auto. congruence. }
    rewrite app_length. cbn [length]. split.
    + split; auto. split; auto. split; [eapply only_added_trans; eauto|]. split; [eapply only_added_trans; eauto|].
      split; [rewrite Hq, upd_length; auto|]. split; [congruence|]. split; [congruence|].
      intros h' p' Hp''. destruct (A8 h' p' Hp'') as (r & Q1 & Q2 & Q3). rewrite Hq.
      destruct (Nat.eq_dec h' (length done)) as [->|Nd].
      * exists q. rewrite nth_error_upd_eq by auto. split; auto.
        assert (r = p) as -> by congruence. split; [eapply same_core_trans; eauto|]. auto.
      * exists r. rewrite nth_error_upd_neq by auto. split; auto. split; auto. intros L. apply Q3. lia.
    + split; auto. split; auto. intros h' p0 Hp0 Lh. rewrite Hq.
      destruct (Nat.eq_dec h' (length done)) as [->|Nd].
      * exists q. rewrite nth_error_upd_eq by auto. split; auto. intros hp x0 x2 px P1 P2.
        destruct (A8 _ _ Hp0) as (p1 & Q1 & (Q2 & Q4 & _) & _). assert (p1 = p) as -> by congruence.
        rewrite <- Q2 in *. apply V3.
        -- unfold past_of in *. rewrite Q4, Q2 in *. exact P1.
        -- injection A7 as Y1 Y2 Y3. unfold looked_at in *. rewrite Y1, Y2. exact P2.
      * destruct (HF h' p0 Hp0 ltac:(lia)) as (q0 & Q0 & Q1). exists q0. rewrite nth_error_upd_neq by auto. auto.
Qed.

Theorem step_scores buf0 b1 b2 b3 c1 c2 c3 cnt :
  frame_ok b1 -> frame_ok b2 -> frame_ok b3 ->
  trackcorr_step buf0 b1 b2 b3 = Ok (c1, c2, c3, cnt) ->
  forall h p q hp x0 x2 px, nth_error (fr_path b1) h = Some p -> nth_error (fr_path c1) h = Some q ->
  past_of moving buf0 p hp x0 x2 -> looked_at ncam point_to_pixel b1 h hp (p_x p) x2 px ->
  pairs (why2 b2 b3 px hp x0 (p_x p) x2) q.
Proof.
  intros F1 F2 F3 H h p q hp x0 x2 px Hp Hq PO LA. unfold Model_track.trackcorr_step in H.
  apply bind_ok in H as ([[d1 d2] d3] & Ht & H).
  pose proof (track_all_pairs _ _ _ _ _ _ _ F1 F2 F3 Ht) as TP.
  apply (track_all_ok pixdist ncam ncam_ok) in Ht as (A1 & A2 & A3 & A4 & A5 & A6 & A7 & A8); auto.
  apply bind_ok in H as (cur & Hd & H). apply bind_ok in H as ([[cur' nxt'] cnt'] & Hl & H). injection H as <- <- <- <-.
  pose proof F1 as (FN & _). rewrite A6, FN, <- A5 in Hd. cbn [set_path fr_path] in Hq.
  destruct (link_all_keeps _ _ _ _ _ _ Hl h q Hq) as (q1 & Q1 & Q2).
  assert (X : pairs (why2 b2 b3 px hp x0 (p_x p) x2) q1).
  { apply (decide_all_pairs psort psort_perm (fun h' d v => h' = h -> why2 b2 b3 px hp x0 (p_x p) x2 d v) (Z.of_nat (length (fr_path d2))) (fr_path d1)) in Q1; auto.
    - intros j d v Hj E1 E2. apply (Q1 j d v); auto.
    - intros h' p' Hp'. assert (h' < length (fr_path d1))%nat by (apply nth_error_Some; congruence).
      destruct (nth_error (fr_path b1) h') as [p0|] eqn:E0; [|apply nth_error_None in E0; lia].
      destruct (A8 h' p0 E0) as (r & R1 & R2 & R3). assert (r = p') as -> by congruence. split; [apply R3; lia|].
      intros j d v Hj E1 E2 ->. assert (p0 = p) as -> by congruence.
      destruct (TP h p Hp) as (r & R1' & R4). assert (r = p') as -> by congruence. exact (R4 hp x0 x2 px PO LA j d v Hj E1 E2). }
  destruct Q2 as [->| ->]; auto.
Qed.

(** ---- backward ---- *)
Definition back_why (buf0 b2 : frame) (p : pinfo) (d : f64) (v : Z) : Prop :=
  exists r q0 n, 0 <= v /\ nth_error (fr_path b2) (Z.to_nat v) = Some r /\ track_begins buf0 p q0 /\
    let x2 := moving (p_x q0) (p_x p) in
    cams b2 x2 (proj x2) v n /\ fits_before moving vec_subt angle_acc tp p q0 r /\
    d = score tp vl (mean_length (vec_diff_norm (p_x p) (p_x r)) (vec_diff_norm (p_x q0) (p_x p))) (angle_acc (p_x p) x2 (p_x r)) n.
Lemma trackback_one_pairs buf0 b1 b2 h b1' b2' p : 0 <= h -> frame_ok b2 ->
  nth_error (fr_path b1) (Z.to_nat h) = Some p -> p_inlist p = 0 ->
  trackback_one buf0 (b1, b2) h = Ok (b1', b2') ->
  exists q, fr_path b1' = upd (fr_path b1) (Z.to_nat h) q /\ pairs (back_why buf0 b2 p) q.
Proof.
  intros Hh F2 Hp HI H. unfold Model_track.trackback_one in H.
  apply bind_ok in H as (p' & Hp' & H). apply pyget_ok_iff in Hp'; auto. assert (p' = p) as -> by congruence. clear Hp'.
  destruct ((p_next p <? 0) || negb (p_prev p =? -1)) eqn:Ec.
  { injection H as <- <-. exists p. split; [now rewrite upd_same|]. intros j d v Hj. lia. }
  apply orb_false_iff in Ec as (E1 & E2). apply negb_false_iff, Z.eqb_eq in E2. apply Z.ltb_ge in E1.
  apply bind_ok in H as (q0 & Hq0 & H). apply pyget_ok_iff in Hq0; auto.
  apply bind_ok in H as (w & Hw & H). apply bind_ok in H as (p1 & Hwh & H).
  set (N := Z.of_nat (length (fr_path b2))) in *.
  change (p_x (reset_inlist p)) with (p_x p) in *. change (p_next (reset_inlist p)) with (p_next p) in *.
  assert (W : pairs (back_why buf0 b2 p) p1).
  { apply (while_inv (fun q => cands_ok N q /\ pairs (back_why buf0 b2 p) q)) in Hwh; [apply Hwh| |].
    - split; [|intros j d v Hj; cbn [reset_inlist p_inlist] in Hj; lia].
      unfold cands_ok, reset_inlist. cbn [p_inlist p_decis p_link]. repeat split; try lia.
    - intros f s s1 Hf Hgo (S1 & S2) Hb. apply bind_ok in Hb as (q & Hq & Hb).
      apply negb_true_iff, Z.eqb_neq in Hgo. unfold TR_UNUSED in Hgo.
      pose proof (volume_ids pixdist ncam ncam_ok imx imy searchquader _ _ _ _ f F2 Hw Hf) as V.
      apply pyget_ok_iff in Hq; [|lia].
      assert (Z.to_nat (ftnr f) < length (fr_path b2))%nat by (apply nth_error_Some; congruence).
      destruct (pos3d_in_bounds tp _) eqn:Eb; [|injection Hb as <-; auto]. destruct (angle_acc _ _ _) as [an ac] eqn:Ea.
      destruct (acceptable tp an ac) eqn:Eac; [|injection Hb as <-; auto]. pose proof Hb as Hb'.
      apply (register_link_ok N) in Hb' as (A & B); auto; [|unfold N; lia]. split; auto.
      eapply register_pairs; [exact S1|exact S2| |exact Hb].
      exists q, q0, (freq f). split; [lia|]. split; auto. split; [split; auto|]. cbv zeta.
      split; [eapply volume_cams; eauto|]. split; [|rewrite Ea; reflexivity].
      split; [now apply in_bounds_plain|]. apply acceptable_plain in Eac. rewrite Ea. exact Eac. }
  apply bind_ok in H as ([p2 b2x] & Hb & H).
  assert (E : p2 = p1).
  { destruct (_ && _); [|injection Hb as <- <-; auto]. apply bind_ok in Hb as ([[quali v2] philf] & _ & Hb).
    destruct (2 <=? quali); [|injection Hb as <- <-; auto]. rewrite empty_volume in Hb. cbn [andb] in Hb.
    injection Hb as <- <-. auto. }
  subst p2. apply bind_ok in H as (path & Hpath & H). injection H as <- <-.
  apply pyset_ok in Hpath as (L & ->); auto. exists p1. cbn [set_path fr_path]. auto.
Qed.
Lemma trackback_all_pairs buf0 b1 b2 c1 c2 : frame_ok b1 -> frame_ok b2 ->
  (forall p, In p (fr_path b1) -> p_inlist p = 0) ->
  foldM (trackback_one buf0) (zrange 0 (fr_num b1)) (b1, b2) = Ok (c1, c2) ->
  forall h p, nth_error (fr_path b1) h = Some p -> exists q, nth_error (fr_path c1) h = Some q /\ pairs (back_why buf0 b2 p) q.
Proof.
  intros (F1 & _) F2 HI H.
  apply (foldM_inv (fun done '(c1, c2) => c2 = b2 /\
    forall h p, nth_error (fr_path b1) h = Some p -> exists q, nth_error (fr_path c1) h = Some q /\
      ((length done <= h)%nat -> q = p) /\ ((h < length done)%nat -> pairs (back_why buf0 b2 p) q))) in H.
  - destruct H as (A & D). intros h p Hp.
    destruct (D h p Hp) as (q & Q1 & _ & Q2). exists q. split; auto. apply Q2. rewrite zrange_length.
    assert (h < length (fr_path b1))%nat by (apply nth_error_Some; congruence). lia.
  - split; auto. intros h p Hp. exists p. split; auto. split; auto. simpl; lia.
  - intros done h rest [d1 d2] [e1 e2] E (-> & D) Hs. apply zrange_split in E as (_ & Hh & Eh).
    replace h with (Z.of_nat (length done)) in * by lia.
    destruct (nth_error (fr_path b1) (length done)) as [p|] eqn:Ep; [|apply nth_error_None in Ep; lia].
    destruct (D _ _ Ep) as (p' & Hp' & Q & _). specialize (Q (le_n _)). subst p'.
    pose proof Hs as Hw.
    assert (Ip : p_inlist p = 0) by (apply HI; eapply nth_error_In; eauto).
    apply (trackback_one_ok pixdist ncam ncam_ok) in Hs as (-> & _); auto; [|lia|rewrite Nat2Z.id; intros x Hx; congruence].
    apply (trackback_one_pairs _ _ _ _ _ _ p) in Hw as (q & Hq & Rq); auto; [|lia|now rewrite Nat2Z.id].
    rewrite Nat2Z.id in *. split; auto. rewrite Hq, app_length. cbn [length].
    assert (LD : (length done < length (fr_path d1))%nat) by (apply nth_error_Some; congruence).
    intros h' p' Hp''. destruct (D h' p' Hp'') as (q' & Q1 & Q2 & Q3).
    destruct (Nat.eq_dec h' (length done)) as [->|Nd].
    + exists q. rewrite nth_error_upd_eq by auto. split; auto. split; [lia|]. assert (p' = p) as -> by congruence. auto.
    + exists q'. rewrite nth_error_upd_neq by auto. split; auto. split; [intros; apply Q2; lia|]. intros; apply Q3; lia.
Qed.
(** linking keeps the candidates; a changed predecessor is the first one *)
Definition keeps_cands (cur cur' : list pinfo) : Prop :=
  forall h q, nth_error cur' h = Some q -> exists p, nth_error cur h = Some p /\
    p_link q = p_link p /\ p_decis q = p_decis p /\ p_inlist q = p_inlist p /\
    (p_prev q = p_prev p \/ (0 < p_inlist p /\ nth_error (p_link p) 0 = Some (p_prev q) /\ nth_error (p_decis p) 0 = Some (p_final q))).
Lemma back_link_keeps p0 p3 num cur nxt cur' nxt' cnt :
  back_link_all extrap angle_acc tp p0 p3 num cur nxt = Ok (cur', nxt', cnt) -> keeps_cands cur cur'.
Proof.
  intros H. unfold back_link_all in H.
  apply (foldM_inv (fun _ '(c, _, _) => keeps_cands cur c)) in H; [exact H| |].
  - intros h q Hq. exists q. auto 10.
  - intros done h rest [[c n] k] [[c' n'] k'] Ez HI Hs. apply zrange_split in Ez as (_ & Hh & _). unfold back_link_one in Hs.
    apply bind_ok in Hs as (p & Hp & Hs). apply pyget_ok_iff in Hp; [|lia].
    apply bind_ok in Hs as ([c1 n1] & Hc & Hs). apply bind_ok in Hs as (pp & _ & Hs). injection Hs as <- <- <-.
    rewrite Z.gtb_ltb in Hc. destruct (Z.ltb_spec 0 (p_inlist p)) as [Hi|_]; [|injection Hc as <- <-; auto].
    apply bind_ok in Hc as (v & Hv & Hc). apply pyget_ok_iff in Hv; [|lia]. change (Z.to_nat 0) with O in Hv.
    apply bind_ok in Hc as (d & Hd & Hc). apply pyget_ok_iff in Hd; [|lia]. change (Z.to_nat 0) with O in Hd. apply bind_ok in Hc as (r & _ & Hc).
    assert (TAKE : (do cur <- pyset c h (take_back p d v); do nxt <- pyset n v (set_next r h); Ok (cur, nxt)) = Ok (c1, n1) -> keeps_cands cur c1).
    { intros Hx. apply bind_ok in Hx as (c2 & Hc2 & Hx). apply bind_ok in Hx as (n2 & _ & Hx). injection Hx as <- <-.
      apply pyset_ok in Hc2 as (L & ->); [|lia]. intros h' q Hq.
      destruct (Nat.eq_dec h' (Z.to_nat h)) as [->|Nh].
      - rewrite nth_error_upd_eq in Hq by auto. injection Hq as <-. destruct (HI _ _ Hp) as (p1 & P1 & P2 & P3 & P4 & _).
        exists p1. cbn [take_back p_link p_decis p_inlist p_prev p_final]. split; auto. split; auto. split; auto. split; auto. right. rewrite <- P2, <- P3, <- P4. auto.
      - rewrite nth_error_upd_neq in Hq by auto. auto. }
    destruct (_ && _); [auto|]. destruct (negb _ && _); [|injection Hc as <- <-; auto].
    apply bind_ok in Hc as (q0 & _ & Hc). apply bind_ok in Hc as (q4 & _ & Hc).
    destruct (angle_acc _ _ _) as [an ac]. destruct (acceptable tp an ac); [|injection Hc as <- <-; auto]. auto.
Qed.
Theorem back_scores buf0 b1 b2 b3 c1 c2 cnt :
  frame_ok b1 -> frame_ok b2 -> (forall p, In p (fr_path b1) -> p_inlist p = 0) ->
  trackback_step buf0 b1 b2 b3 = Ok (c1, c2, cnt) ->
  forall h p q, nth_error (fr_path b1) h = Some p -> nth_error (fr_path c1) h = Some q ->
  pairs (back_why buf0 b2 p) q /\
  (p_prev q = p_prev p \/ (0 < p_inlist q /\ nth_error (p_link q) 0 = Some (p_prev q) /\ nth_error (p_decis q) 0 = Some (p_final q))).
Proof.
  intros F1 F2 HI H h p q Hp Hq. unfold Model_track.trackback_step in H.
  apply bind_ok in H as ([d1 d2] & Ht & H). pose proof (trackback_all_pairs _ _ _ _ _ F1 F2 HI Ht) as W.
  apply (trackback_all_ok pixdist ncam ncam_ok) in Ht as (-> & A1 & A2 & A3); auto.
  apply bind_ok in H as (cur & Hd & H). apply bind_ok in H as ([[cur' nxt'] cnt'] & Hl & H). injection H as <- <- <-.
  pose proof F1 as (FN & _). rewrite A1, FN, <- A2 in Hd, Hl. cbn [set_path fr_path] in Hq.
  destruct (back_link_keeps _ _ _ _ _ _ _ _ Hl h q Hq) as (q1 & Q1 & K1 & K2 & K3 & K4).
  assert (CO : forall h p, nth_error (fr_path d1) h = Some p -> cands_ok (Z.of_nat (length (fr_path b2))) p).
  { intros h' p' Hp'. assert (h' < length (fr_path d1))%nat by (apply nth_error_Some; congruence).
    destruct (nth_error (fr_path b1) h') as [p0|] eqn:E0; [|apply nth_error_None in E0; lia].
    destruct (A3 h' p0 E0) as (r & R1 & R2 & R3 & R4). assert (r = p') as -> by congruence. auto. }
  destruct (back_decide_why psort psort_perm ncam ncam_ok (Z.of_nat (length (fr_path b2))) _ _ CO Hd h q1 Q1) as (p1 & P1 & P2 & P3 & _).
  destruct (A3 h p Hp) as (r & R1 & (_ & R2 & _) & _). assert (r = p1) as -> by congruence.
  split.
  - assert (X : pairs (back_why buf0 b2 p) q1).
    { pose proof Q1 as Q1'. apply (back_decide_pairs psort psort_perm (fun h' d v => h' = h -> back_why buf0 b2 p d v) (Z.of_nat (length (fr_path b2))) (fr_path d1)) in Q1; auto.
      - intros j d v Hj E1 E2. apply (Q1 j d v); auto.
      - intros h' p' Hp'. split; [eauto|]. intros j d v Hj E1 E2 ->. assert (p' = p1) as -> by congruence.
        destruct (W h p Hp) as (r & R1' & R4). assert (r = p1) as -> by congruence. exact (R4 j d v Hj E1 E2). }
    intros j d v. rewrite K1, K2, K3. apply X.
  - rewrite K1, K2, K3. destruct K4 as [K4|K4]; auto. left. congruence.
Qed.
End Score.
