(** Completeness of tracking: what every camera shows is found (C77). *)
From Coq Require Import Permutation.
From Verif Require Import Base Lib F64 Model_corr Model_cand Spec_cand Model_track Spec_track Spec_track2
  Proof_track_search Proof_track_rank Proof_track_reg Proof_track_link Proof_track_step Proof_track_just Prop_track.
Local Open Scope Z_scope.

Lemma hit_fun pixdist sel nf cx cy dl dr du dd imx imy j d d' :
  target_hit pixdist sel nf cx cy dl dr du dd imx imy j d -> target_hit pixdist sel nf cx cy dl dr du dd imx imy j d' -> d = d'.
Proof. intros (t & _ & A & _ & _ & _ & ->) (t' & _ & A' & _ & _ & _ & ->). congruence. Qed.

Lemma seen_slot pixdist imx imy tl q r l dn up k p : seen_in pixdist imx imy tl q (r, l, dn, up) k ->
  y_ascending tl -> popcount (Z.of_nat (length tl) / 2) <= 11 ->
  candsearch_in_pix pixdist tl (Z.of_nat (length tl)) (fst q) (snd q) l r up dn imx imy = Ok p ->
  length p = 4%nat /\ exists i j t, nth_error p i = Some j /\ 0 <= j /\ nth_error tl (Z.to_nat j) = Some t /\ t_tnr t = k.
Proof.
  intros (HC & HD & j & d & t & Hit & Ht & Hk & Huniq & Hcl) Ya Hp E.
  destruct (C16_nearest pixdist tl _ (fst q) (snd q) l r up dn imx imy eq_refl Ya Hp HD) as (p' & E' & N & _).
  rewrite E in E'. injection E' as <-. destruct (N HC) as (js & ds & L & L4 & -> & H1 & H2 & H3).
  assert (J0 : 0 <= j) by (destruct Hit as (? & ? & _); auto).
  split; [rewrite app_length, repeat_length; lia|].
  destruct (H3 j d Hit) as [(i & j' & d' & A & B & C & D)|(L4' & ALL)].
  - assert (j' = j) as -> by (eapply Huniq; eauto). exists i, j, t. split; auto.
    rewrite nth_error_app1 by (apply nth_error_Some; congruence). auto.
  - exfalso. enough (length js <= 3)%nat by lia. apply Hcl.
    + apply NoDup_nth_error. intros a b La Eab.
      destruct (nth_error js a) as [ja|] eqn:Ea; [|apply nth_error_None in Ea; lia]. symmetry in Eab.
      assert (Lb : (b < length js)%nat) by (apply nth_error_Some; congruence).
      destruct (nth_error ds a) as [da|] eqn:Da; [|apply nth_error_None in Da; lia].
      destruct (nth_error ds b) as [db|] eqn:Db; [|apply nth_error_None in Db; lia].
      assert (da = db) as -> by (eapply hit_fun; eauto).
      destruct (Nat.lt_trichotomy a b) as [W|[W|W]]; auto; exfalso;
        [pose proof (H2 a b _ _ W Da Db) as X|pose proof (H2 b a _ _ W Db Da) as X]; rewrite flt_irrefl in X; discriminate.
    + intros j' Hj'. apply In_nth_error in Hj' as (a & Ea). assert (La : (a < length js)%nat) by (apply nth_error_Some; congruence).
      destruct (nth_error ds a) as [da|] eqn:Da; [|apply nth_error_None in Da; lia].
      exists da. split; [eauto|]. apply ALL. eapply nth_error_In; eauto.
Qed.

Lemma while_reach {S} (P Q : S -> Prop) l go (body : foundpix -> S -> result S) s s' i f :
  while_cands l go body s = Ok s' -> nth_error l i = Some f -> P s ->
  (forall i' g s, (i' <= i)%nat -> nth_error l i' = Some g -> P s -> go g s = true) ->
  (forall g s s1, In g l -> go g s = true -> P s -> body g s = Ok s1 -> P s1 /\ (Q s -> Q s1)) ->
  (forall s s1, P s -> body f s = Ok s1 -> Q s1) -> Q s'.
Proof.
  revert s l. induction i as [|i IH]; intros s l H Hi HP Hgo Hb Hf; destruct l as [|g l]; try discriminate; cbn [while_cands] in H.
  - injection Hi as ->. rewrite (Hgo O f s) in H by auto. apply bind_ok in H as (s1 & H1 & H).
    assert (K : P s1 /\ Q s1). { destruct (Hb f s s1 (or_introl eq_refl) (Hgo O f s ltac:(lia) eq_refl HP) HP H1) as (A & _). exact (conj A (Hf s s1 HP H1)). }
    apply (while_inv (fun s => P s /\ Q s)) in H; [apply H|exact K|].
    intros f0 s0 s2 I0 G0 (A & B) E0. destruct (Hb f0 s0 s2 (or_intror I0) G0 A E0) as (C & D). auto.
  - rewrite (Hgo O g s) in H by (auto; lia). apply bind_ok in H as (s1 & H1 & H).
    eapply (IH s1 l); eauto.
    + now destruct (Hb g s s1 (or_introl eq_refl) (Hgo O g s ltac:(lia) eq_refl HP) HP H1) as (A & _).
    + intros i' g' s0 L N. apply (Hgo (Datatypes.S i')); auto. lia.
    + intros g' s0 s2 I0. apply Hb. now right.
Qed.

Section Found.
Variable pixdist : f64 -> f64 -> f64 -> f64 -> f64.
Variable ncam : nat.
Hypothesis ncam_ok : (2 <= ncam <= 4)%nat.
Variables imx imy : Z.
Variable point_to_pixel : Z -> vec -> f64 * f64.
Variable searchquader : Z -> vec -> f64 * f64 * f64 * f64.
Variable moving : vec -> vec -> vec.
Variable extrap : vec -> vec -> vec -> vec.
Variable vec_subt : vec -> vec -> vec.
Variable vec_diff_norm : vec -> vec -> f64.
Variable angle_acc : vec -> vec -> vec -> f64 * f64.
Variable to_flat : Z -> f64 -> f64 -> f64 * f64.
Variable point_position : list (f64 * f64) -> vec.
Variable tp : tpar.
Variable vl : vol.
Let nc := Z.of_nat ncam.
Local Notation second_loop := (second_loop vec_subt vec_diff_norm angle_acc tp vl).
Local Notation first_body := (first_body pixdist nc imx imy point_to_pixel searchquader moving extrap vec_subt vec_diff_norm angle_acc to_flat point_position tp vl).
Local Notation track_one := (track_one pixdist nc imx imy point_to_pixel searchquader moving extrap vec_subt vec_diff_norm angle_acc to_flat point_position tp vl).

Lemma filter_all {A} (f : A -> bool) l : (forall x, In x l -> f x = true) -> filter f l = l.
Proof. induction l as [|x l IH]; intros H; cbn; auto. rewrite H by (now left). f_equal. apply IH. intros; apply H; now right. Qed.
Lemma filter_le {A} (f : A -> bool) l : (length (filter f l) <= length l)%nat.
Proof. induction l as [|x l IH]; cbn; auto. destruct (f x); cbn; lia. Qed.

(** a particle shown by every camera is ranked, and every row up to its own names a particle *)
Lemma seen_ranked frm centre px k w : frame_ok frm -> searchable ncam frm -> length px = ncam -> 0 <= k ->
  seen_everywhere pixdist ncam imx imy searchquader frm centre px k ->
  sorted_candidates_in_volume pixdist nc imx imy searchquader centre px frm = Ok w ->
  (1 < length w)%nat /\
  exists i f, nth_error w i = Some f /\ ftnr f = k /\
    forall i' g, (i' <= i)%nat -> nth_error w i' = Some g -> 0 <= ftnr g < Z.of_nat (length (fr_path frm)).
Proof.
  intros FO SR LP K0 SE H.
  destruct (volume_exact pixdist ncam imx imy searchquader centre px frm w ltac:(lia) H) as (ids & L & HC & (d & R0 & R1 & R2 & R3 & _)).
  assert (SLOT : forall c, (c < ncam)%nat -> seen_by ids c k = true).
  { intros c Hc. destruct (HC c Hc) as (tl & nt & q & p & T1 & T2 & T3 & T4 & T5 & T6).
    pose proof (SE c q tl Hc T3 T1) as SI. destruct (SR c tl Hc T1) as (S1 & S2 & S3 & _).
    assert (nt = Z.of_nat (length tl)) as -> by congruence.
    destruct (searchquader (Z.of_nat c) centre) as [[[r l] dn] up]. destruct (seen_slot _ _ _ _ _ _ _ _ _ _ _ SI S2 S3 T4) as (LP4 & i & j & t & A & B & C & D).
    unfold seen_by. apply existsb_exists. exists k. split; [|apply Z.eqb_refl].
    assert (LI : (i < length p)%nat) by (apply nth_error_Some; congruence).
    destruct (nth_error (firstn 4 (skipn (4 * c) ids)) i) as [v|] eqn:Ev; [|apply nth_error_None in Ev; lia].
    destruct (T6 i v Ev) as (j' & t' & A' & B' & C'). assert (j' = j) as -> by congruence.
    unfold cand_target in B'. destruct (Z.eqb_spec j (-1)); [lia|]. assert (t' = t) as -> by congruence.
    rewrite <- D, <- C'. eapply nth_error_In; eauto. }
  assert (V : votes ncam ids k = nc).
  { unfold votes. destruct (Z.eqb_spec k (-1)); [lia|]. rewrite filter_all, seq_length; auto.
    intros c Hc. apply in_seq in Hc. apply SLOT. lia. }
  assert (SV : survives ncam ids k).
  { pose proof (SLOT O ltac:(lia)) as S0. unfold seen_by in S0. apply existsb_exists in S0 as (v & Iv & Ev). apply Z.eqb_eq in Ev as <-.
    apply In_nth_error in Iv as (a & Ha). assert (La : (a < 4)%nat).
    { assert (a < length (firstn 4 (skipn (4 * 0) ids)))%nat by (apply nth_error_Some; congruence). rewrite firstn_length in H0. lia. }
    rewrite nth_error_firstn, nth_error_skipn in Ha by auto. exists a. split; auto.
    intros k' v' _ _. rewrite V. unfold votes. destruct (v' =? -1); [unfold nc; lia|].
    pose proof (filter_le (fun j => seen_by ids j v') (seq 0 ncam)). rewrite seq_length in H0. unfold nc. lia. }
  destruct (R3 k ltac:(unfold nc in V; lia) SV) as (i & f & Hi & Hf).
  pose proof (R1 i f Hi) as RI. destruct (Nat.ltb_spec i d) as [LD|LD]; [|lia].
  split; [destruct R0 as [(A & _)|(A & ->)]; lia|]. exists i, f. split; auto. split; auto.
  intros i' g Li Hg. pose proof (R1 i' g Hg) as RG. destruct (Nat.ltb_spec i' d) as [LD'|LD']; [|lia].
  destruct RG as (G1 & _ & _ & (a & Ha & _)).
  assert (La : (a < length ids)%nat) by (apply nth_error_Some; congruence).
  pose proof (Nat.div_mod a 4 ltac:(lia)) as DM. pose proof (Nat.mod_upper_bound a 4 ltac:(lia)) as MB.
  destruct (HC (a / 4)%nat ltac:(lia)) as (tl & nt & q & p & T1 & T2 & T3 & T4 & T5 & T6).
  destruct (T6 (a mod 4)%nat (ftnr g)) as (j & t & J1 & J2 & J3).
  { rewrite nth_error_firstn by auto. rewrite nth_error_skipn, <- DM. auto. }
  assert (IT : In t tl) by (unfold cand_target in J2; destruct (j =? -1); eapply nth_error_In; eauto).
  destruct FO as (_ & FO). pose proof (FO tl t ltac:(eapply nth_error_In; eauto) IT).
  destruct (SR (a / 4)%nat tl ltac:(lia) T1) as (_ & _ & _ & S4). specialize (S4 t IT). rewrite J3 in *. lia.
Qed.

Lemma register_more p d v p' : register_link_candidate p d v = Ok p' -> p_inlist p' = p_inlist p + 1 /\ p_prev p' = p_prev p.
Proof. unfold register_link_candidate. intros H. apply bind_ok in H as (a & _ & H). apply bind_ok in H as (b & _ & H). injection H as <-. auto. Qed.
Lemma smooth_acceptable a c : smooth_motion tp (a, c) -> acceptable tp a c = true.
Proof. unfold smooth_motion, acceptable. cbn [fst snd]. intros [(-> & ->)| ->]; auto. apply orb_true_r. Qed.
Lemma limits_bounds d : within_step_limits tp d -> pos3d_in_bounds tp d = true.
Proof. destruct d as [[x y] z]. unfold within_step_limits, pos3d_in_bounds. intros (-> & -> & -> & -> & -> & ->). reflexivity. Qed.

Definition more (p p' : pinfo) : Prop := p_inlist p <= p_inlist p' /\ p_prev p' = p_prev p.
Lemma more_refl p : more p p. Proof. split; auto. lia. Qed.
Lemma more_trans p q r : more p q -> more q r -> more p r. Proof. intros (A & B) (C & D). split; [lia|congruence]. Qed.
Lemma register_more' p d v p' : register_link_candidate p d v = Ok p' -> more p p'.
Proof. intros H. apply register_more in H as (A & B). split; auto. lia. Qed.

Lemma second_loop_more wn f buf3 x1 x2 x3 x5 hp p p' : second_loop wn f buf3 x1 x2 x3 x5 hp p = Ok p' -> more p p'.
Proof.
  intros H. unfold Model_track.second_loop in H.
  apply (while_inv (more p)) in H; auto using more_refl.
  intros g s s1 _ _ S1 Hs. apply bind_ok in Hs as (q & _ & Hs).
  destruct (pos3d_in_bounds tp _); [|injection Hs as <-; auto].
  destruct (angle_acc x3 (p_x q) x5) as [a1 c1]. destruct (if hp then _ else _) as [a0 c0].
  destruct (acceptable tp _ _); [|injection Hs as <-; auto].
  eapply more_trans; [exact S1|]. eapply register_more'; eauto.
Qed.

Lemma second_loop_hit wn f buf3 x1 x2 x3 x5 (hp : bool) p p' i g m q : 0 <= p_inlist p ->
  nth_error wn i = Some g -> ftnr g = Z.of_nat m -> nth_error (fr_path buf3) m = Some q ->
  (forall i' g', (i' <= i)%nat -> nth_error wn i' = Some g' -> 0 <= ftnr g' < Z.of_nat (length (fr_path buf3))) ->
  within_step_limits tp (vec_subt (p_x q) x3) ->
  smooth_motion tp (mean_of (if hp then angle_acc x1 x2 x3 else angle_acc x3 (p_x q) x5) (angle_acc x3 (p_x q) x5)) ->
  second_loop wn f buf3 x1 x2 x3 x5 hp p = Ok p' -> 0 < p_inlist p'.
Proof.
  intros I0 Hg Em Hq Hr HB HS H. unfold Model_track.second_loop in H.
  eapply (while_reach (fun s => 0 <= p_inlist s) (fun s => 0 < p_inlist s)) in H; eauto.
  - intros i' g' s Li Hg' _. destruct (Hr i' g' Li Hg') as (A & B). unfold TR_UNUSED.
    apply andb_true_iff. split; [apply negb_true_iff, Z.eqb_neq; lia|]. rewrite Z.gtb_ltb. apply Z.ltb_lt. lia.
  - clear HS. intros g0 s s1 _ _ S1 Hs. assert (M : more s s1).
    { apply bind_ok in Hs as (q0 & _ & Hs).
      destruct (pos3d_in_bounds tp _); [|injection Hs as <-; auto using more_refl].
      destruct (angle_acc x3 (p_x q0) x5) as [a1 c1]. destruct (if hp then _ else _) as [a0 c0].
      destruct (acceptable tp _ _); [|injection Hs as <-; auto using more_refl]. eapply register_more'; eauto. }
    destruct M. split; lia.
  - intros s s1 S1 Hs. apply bind_ok in Hs as (q0 & Hq0 & Hs). rewrite Em in Hq0. apply pyget_ok_iff in Hq0; [|lia]. rewrite Nat2Z.id in Hq0.
    assert (q0 = q) as -> by congruence. rewrite (limits_bounds _ HB) in Hs.
    rewrite <- mean2_of in HS.
    destruct (angle_acc x3 (p_x q) x5) as [a1 c1]. destruct hp.
    + destruct (angle_acc x1 x2 x3) as [a0 c0]. cbn [fst snd] in HS. rewrite (smooth_acceptable _ _ HS) in Hs. apply register_more in Hs as (A & _). lia.
    + cbn [fst snd] in HS. rewrite (smooth_acceptable _ _ HS) in Hs. apply register_more in Hs as (A & _). lia.
Qed.

Hypothesis no_add : do_add tp = false.

Lemma first_body_more x0 x1 x2 f p b2 b3 p' b2' b3' : first_body x0 x1 x2 f (p, b2, b3) = Ok (p', b2', b3') ->
  b2' = b2 /\ b3' = b3 /\ more p p'.
Proof.
  intros H. unfold Model_track.first_body in H.
  apply bind_ok in H as (q & _ & H). apply bind_ok in H as (wn & _ & H). apply bind_ok in H as (p1 & Hp1 & H).
  assert (G1 : more p p1). { destruct (_ >? 1); [eapply second_loop_more; eauto|injection Hp1 as <-; apply more_refl]. }
  apply bind_ok in H as ([[quali v2] philf] & _ & H). apply bind_ok in H as ([p2 b3x] & Hp2 & H).
  assert (G2 : more p1 p2 /\ b3x = b3).
  { rewrite no_add in Hp2. destruct (2 <=? quali); [|injection Hp2 as <- <-; auto using more_refl].
    destruct (in_volume _ _ _ _ && _); [|injection Hp2 as <- <-; auto using more_refl].
    destruct (angle_acc _ _ _) as [an ac]. destruct (acceptable tp an ac); [|injection Hp2 as <- <-; auto using more_refl].
    apply bind_ok in Hp2 as (p3 & Hp3 & Hp2). injection Hp2 as <- <-. split; auto. eapply register_more'; eauto. }
  destruct G2 as (G2 & ->).
  apply bind_ok in H as (p4 & Hp4 & H). injection H as <- <- <-. split; auto. split; auto.
  eapply more_trans; [exact G1|]. eapply more_trans; [exact G2|].
  destruct (_ && _); [|injection Hp4 as <-; apply more_refl]. destruct (pos3d_in_bounds tp _); [|injection Hp4 as <-; apply more_refl].
  destruct (angle_acc _ _ _) as [an ac]. destruct (acceptable tp an ac); [|injection Hp4 as <-; apply more_refl].
  eapply register_more'; eauto.
Qed.

Lemma projections_length x : length (projections nc point_to_pixel x) = ncam.
Proof. unfold projections. rewrite map_length, zrange_length. unfold nc. lia. Qed.
Lemma projections_nth x c : (c < ncam)%nat -> nth_error (projections nc point_to_pixel x) c = Some (point_to_pixel (Z.of_nat c) x).
Proof.
  intros H. unfold projections. rewrite nth_error_map. replace (nth_error (zrange 0 nc) c) with (Some (Z.of_nat c)); auto.
  unfold zrange. rewrite nth_error_map, (nth_error_nth' _ O) by (rewrite seq_length; unfold nc; lia).
  rewrite seq_nth by (unfold nc; lia). reflexivity.
Qed.
Lemma projections_unique px x : length px = ncam -> (forall c p, nth_error px c = Some p -> p = point_to_pixel (Z.of_nat c) x) ->
  px = projections nc point_to_pixel x.
Proof.
  intros L H. apply nth_error_ext. intros c. destruct (nth_error px c) as [p|] eqn:E.
  - rewrite (H c p E). symmetry. apply projections_nth. rewrite <- L. apply nth_error_Some. congruence.
  - symmetry. apply nth_error_None. apply nth_error_None in E. rewrite projections_length. lia.
Qed.

Local Notation convincing := (convincing pixdist ncam imx imy point_to_pixel searchquader vec_subt angle_acc tp).
Lemma first_body_hit x0 x1 x2 f k q p b2 b3 p' b2' b3' : let hp := 0 <=? p_prev p in
  0 <= p_inlist p -> ftnr f = Z.of_nat k -> nth_error (fr_path b2) k = Some q -> frame_ok b3 -> searchable ncam b3 ->
  convincing b3 hp x1 x2 (p_x q) (if hp then extrap (p_x q) x1 x0 else moving x1 (p_x q)) ->
  first_body x0 x1 x2 f (p, b2, b3) = Ok (p', b2', b3') -> 0 < p_inlist p'.
Proof.
  intros hp I0 Ef Hq F3 S3 HC H. unfold Model_track.first_body in H. fold hp in H.
  apply bind_ok in H as (q' & Hq' & H). rewrite Ef in Hq'. apply pyget_ok_iff in Hq'; [|lia]. rewrite Nat2Z.id in Hq'. assert (q' = q) as -> by congruence. clear Hq'.
  set (x3 := p_x q) in *. set (x5 := if hp then extrap x3 x1 x0 else moving x1 x3) in *.
  apply bind_ok in H as (wn & Hw & H). apply bind_ok in H as (p1 & Hp1 & H).
  assert (G1 : more p p1). { destruct (_ >? 1); [eapply second_loop_more; eauto|injection Hp1 as <-; apply more_refl]. }
  apply bind_ok in H as ([[quali v2] philf] & _ & H). apply bind_ok in H as ([p2 b3x] & Hp2 & H).
  assert (G2 : more p1 p2).
  { rewrite no_add in Hp2. destruct (2 <=? quali); [|injection Hp2 as <- <-; auto using more_refl].
    destruct (in_volume _ _ _ _ && _); [|injection Hp2 as <- <-; auto using more_refl].
    destruct (angle_acc _ _ _) as [an ac]. destruct (acceptable tp an ac); [|injection Hp2 as <- <-; auto using more_refl].
    apply bind_ok in Hp2 as (p3 & Hp3 & Hp2). injection Hp2 as <- <-. eapply register_more'; eauto. }
  clear Hp2. apply bind_ok in H as (p4 & Hp4 & H). injection H as <- <- <-.
  assert (G3 : more p2 p4).
  { destruct (_ && _); [|injection Hp4 as <-; apply more_refl]. destruct (pos3d_in_bounds tp _); [|injection Hp4 as <-; apply more_refl].
    destruct (angle_acc _ _ _) as [an ac]. destruct (acceptable tp an ac); [|injection Hp4 as <-; apply more_refl].
    eapply register_more'; eauto. }
  destruct HC as [Ehp HB HS|m r px Hr LP HP SE HB HS].
  - rewrite Ehp, andb_true_r in Hp4. destruct (Z.eqb_spec (p_inlist p2) 0) as [E0|E0].
    + rewrite (limits_bounds _ HB) in Hp4. destruct (angle_acc x1 x2 x3) as [an ac]. rewrite (smooth_acceptable _ _ HS) in Hp4.
      apply register_more in Hp4 as (A & _). lia.
    + destruct G1, G2, G3. lia.
  - rewrite (projections_unique px x5 LP HP) in SE.
    destruct (seen_ranked _ _ _ _ _ F3 S3 (projections_length x5) (Zle_0_nat m) SE Hw) as (LW & i & g & Hg & Eg & HR).
    replace (Z.of_nat (length wn) >? 1) with true in Hp1 by (symmetry; rewrite Z.gtb_ltb; apply Z.ltb_lt; lia).
    pose proof (second_loop_hit _ _ _ _ _ _ _ _ _ _ i g m r I0 Hg Eg Hr HR HB HS Hp1). destruct G2, G3. lia.
Qed.

(** one particle *)
Lemma track_one_found buf0 b1 b2 b3 h b1' b2' b3' : frame_ok b2 -> frame_ok b3 ->
  track_one buf0 (b1, b2, b3) (Z.of_nat h) = Ok (b1', b2', b3') ->
  b2' = b2 /\ b3' = b3 /\ exists p q, nth_error (fr_path b1) h = Some p /\ fr_path b1' = upd (fr_path b1) h q /\
    (forall hp x0 x2 px k r, searchable ncam b2 -> searchable ncam b3 ->
      past_of moving buf0 p hp x0 x2 -> looked_at ncam point_to_pixel b1 h hp (p_x p) x2 px ->
      seen_everywhere pixdist ncam imx imy searchquader b2 x2 px (Z.of_nat k) -> nth_error (fr_path b2) k = Some r ->
      convincing b3 hp (p_x p) x2 (p_x r) (if hp then extrap (p_x r) (p_x p) x0 else moving (p_x p) (p_x r)) ->
      0 < p_inlist q).
Proof.
  intros F2 F3 H. unfold Model_track.track_one in H.
  apply bind_ok in H as (p & Hp & H). apply pyget_ok_iff in Hp; [|lia]. rewrite Nat2Z.id in Hp.
  apply bind_ok in H as (c & Hc & H). apply pyget_ok_iff in Hc; [|lia]. rewrite Nat2Z.id in Hc.
  apply bind_ok in H as ([[x0 x2] v1] & Hpre & H).
  apply bind_ok in H as (w & Hw & H). apply bind_ok in H as ([[p' b2x] b3x] & Hs & H).
  apply bind_ok in H as (path & Hpath & H). injection H as <- <- <-.
  apply pyset_ok in Hpath as (Lh & ->); [|lia]. rewrite Nat2Z.id in *. cbn [set_path fr_path].
  change (p_prev (reset_inlist p)) with (p_prev p) in *. change (p_x (reset_inlist p)) with (p_x p) in *.
  rewrite no_add in Hs. cbn [andb] in Hs.
  set (rp := reset_inlist p) in *.
  assert (PB : forall f s s1, (fun s : pinfo * frame * frame => let '(ps, c2, c3) := s in more rp ps /\ c2 = b2 /\ c3 = b3) s ->
     first_body x0 (p_x p) x2 f s = Ok s1 -> (let '(ps, c2, c3) := s1 in more rp ps /\ c2 = b2 /\ c3 = b3)).
  { intros f [[ps c2] c3] [[ps1 d2] d3] (A & -> & ->) Hb. apply first_body_more in Hb as (-> & -> & B).
    split; [eapply more_trans; eauto|auto]. }
  assert (KEEP : b2x = b2 /\ b3x = b3).
  { destruct (_ =? 1); [injection Hs as _ <- <-; auto|]. apply bind_ok in Hs as ([[p1 b21] b31] & Hwh & Hs). injection Hs as _ <- <-.
    apply (while_inv (fun s => let '(ps, c2, c3) := s in more rp ps /\ c2 = b2 /\ c3 = b3)) in Hwh.
    - apply Hwh. - split; auto using more_refl. - intros f s s1 _ _. apply PB. }
  destruct KEEP as (-> & ->). split; auto. split; auto. exists p, p'. split; auto. split; auto.
  intros hp y0 y2 px k r S2 S3 (Ehp & HY1 & HY2) (LP & LA) SE Hr CV.
  assert (PRE : y2 = x2 /\ (hp = true -> y0 = x0) /\ v1 = px).
  { rewrite <- Ehp in Hpre. destruct hp.
    - apply bind_ok in Hpre as (q0 & Hq0 & Hpre). injection Hpre as <- <- <-. apply pyget_ok_iff in Hq0; [|lia].
      destruct (HY1 eq_refl) as (q1 & Q1 & -> & ->). assert (q1 = q0) as -> by congruence. split; auto. split; auto. symmetry. now apply projections_unique.
    - apply bind_ok in Hpre as (v & Hv & Hpre). injection Hpre as <- <- <-. split; [now apply HY2|]. split; [discriminate|].
      apply (foldM_inv (fun done acc => length acc = length done /\ forall c q, (c < length done)%nat -> nth_error px c = Some q -> nth_error acc c = Some q)) in Hv.
      + destruct Hv as (LV & Hv). rewrite zrange_length in *. replace (Z.to_nat (nc - 0)) with ncam in * by (unfold nc; lia).
        apply nth_error_ext. intros i. destruct (nth_error px i) as [q|] eqn:Eq.
        * apply Hv; auto. rewrite <- LP. apply nth_error_Some. congruence.
        * apply nth_error_None in Eq. apply nth_error_None. lia.
      + split; auto. cbn. lia.
      + intros done j rest acc acc1 E (LV & HV) Hj. apply zrange_split in E as (_ & Hj2 & Ej). replace j with (Z.of_nat (length done)) in * by lia. clear Ej.
        apply bind_ok in Hj as (ix & Hix & Hj). apply pyget_ok_iff in Hix; [|lia]. rewrite Nat2Z.id in Hix. rewrite app_length. cbn [length].
        assert (X : exists q0, acc1 = acc ++ [q0] /\ forall q, nth_error px (length done) = Some q -> q = q0).
        { destruct (Z.eqb_spec ix CORRES_NONE) as [E1|E1].
          - injection Hj as <-. eexists. split; [reflexivity|]. intros q Hq. destruct (LA _ _ Hq) as (rw & ix' & R1 & R2 & R3).
            assert (rw = c) as -> by congruence. assert (ix' = ix) as -> by congruence. unfold CORRES_NONE in E1.
            destruct R3 as [(_ & ->)|(? & _)]; [auto|lia].
          - apply bind_ok in Hj as (tl & Htl & Hj). apply bind_ok in Hj as (t & Ht & Hj). injection Hj as <-. eexists. split; [reflexivity|].
            intros q Hq. destruct (LA _ _ Hq) as (rw & ix' & R1 & R2 & R3).
            assert (rw = c) as -> by congruence. assert (ix' = ix) as -> by congruence. unfold CORRES_NONE in E1.
            destruct R3 as [(? & _)|(I0 & tl' & t' & T1 & T2 & ->)]; [lia|].
            apply pyget_ok_iff in Htl; [|lia]. rewrite Nat2Z.id in Htl. assert (tl' = tl) as -> by congruence.
            apply pyget_ok_iff in Ht; [|lia]. congruence. }
        destruct X as (q0 & -> & X). rewrite app_length. cbn [length]. split; [lia|]. intros c0 q Hc0 Hq.
        destruct (Nat.eq_dec c0 (length done)) as [->|N].
        * rewrite (X q Hq), nth_error_app2, LV, Nat.sub_diag by lia. reflexivity.
        * rewrite nth_error_app1 by lia. apply HV; auto. lia. }
  destruct PRE as (-> & E0 & ->).
  assert (X5 : (if hp then extrap (p_x r) (p_x p) y0 else moving (p_x p) (p_x r)) = (if hp then extrap (p_x r) (p_x p) x0 else moving (p_x p) (p_x r))).
  { destruct hp; auto. now rewrite E0. }
  rewrite X5 in CV. clear X5.
  destruct (seen_ranked _ _ _ _ _ F2 S2 LP (Zle_0_nat k) SE Hw) as (LW & i & g & Hg & Eg & HR).
  destruct (Z.eqb_spec (Z.of_nat (length w)) 1) as [?|_]; [lia|].
  apply bind_ok in Hs as ([[p1 b21] b31] & Hwh & Hs). injection Hs as -> -> ->.
  eapply (while_reach (fun s => let '(ps, c2, c3) := s in more rp ps /\ c2 = b2 /\ c3 = b3) (fun s => let '(ps, _, _) := s in 0 < p_inlist ps)) in Hwh; eauto.
  - split; auto using more_refl.
  - intros i' g' [[ps c2] c3] Li Hg' (_ & -> & _). destruct (HR i' g' Li Hg') as (A & B). unfold TR_UNUSED.
    apply andb_true_iff. split; [apply negb_true_iff, Z.eqb_neq; lia|]. rewrite Z.gtb_ltb. apply Z.ltb_lt. lia.
  - intros g' s s1 _ _ A Hb. split; [eapply PB; eauto|]. destruct s as [[ps c2] c3], s1 as [[ps1 d2] d3]. apply first_body_more in Hb as (_ & _ & (B & _)). lia.
  - intros [[ps c2] c3] [[ps1 d2] d3] ((M1 & M2) & -> & ->) Hb. change (p_prev rp) with (p_prev p) in M2.
    rewrite Ehp, <- M2 in CV. apply (first_body_hit _ _ _ _ k r) in Hb; auto.
Qed.
End Found.

(** a wanted particle of the next frame ends with a predecessor *)
Lemma link_occupied cur nxt cur' nxt' cnt h k : ready_weak cur nxt ->
  link_all (Z.of_nat (length cur)) cur nxt = Ok (cur', nxt', cnt) -> wants cur h k -> exists h', next_of cur' h' = Z.of_nat k.
Proof.
  intros R E (p & Hp & Hi & Hn).
  assert (Lk : (k < length nxt)%nat).
  { destruct R as (R1 & _). specialize (R1 h p Hp). destruct (Z.ltb_spec 0 (p_inlist p)); lia. }
  assert (Lh : (h < length cur)%nat) by (apply nth_error_Some; congruence).
  pose proof (link_mutual cur nxt R) as (c2 & n2 & t2 & E2 & _ & _ & MU & _). rewrite E in E2. injection E2 as <- <- <-.
  unfold link_all in E.
  apply (foldM_inv (fun done st => Inv2 cur nxt (length done) st /\ ((h < length done)%nat -> 0 <= prev_of (snd (fst st)) k))) in E.
  - destruct E as (_ & E). rewrite zrange_length in E. cbn [fst snd] in E. specialize (E ltac:(lia)).
    exists (Z.to_nat (prev_of nxt' k)). apply MU. lia.
  - split; [|cbn; lia]. split; auto. split; auto. destruct R as (R1 & R2). split.
    + intros h0 p0 Hp0. exists p0. split; auto. split; [exists (p_next p0); destruct p0; reflexivity|]. split; auto. cbn. lia.
    + intros k0 r Hr. exists r. split; auto. split; [exists (p_prev r); destruct r; reflexivity|]. eauto.
  - intros done h0 rest [[cu nx] ct] [[cu1 nx1] ct1] Es (IV & KP) Hs. apply zrange_split in Es as (_ & Hh & Eh).
    replace h0 with (Z.of_nat (length done)) in * by lia. clear Eh.
    destruct (step2_ok cur nxt (length done) (cu, nx, ct) R ltac:(lia) IV) as (st' & X & IV1). rewrite Hs in X. injection X as <-.
    rewrite app_length. cbn [length]. rewrite Nat.add_1_r. split; auto. cbn [fst snd] in *.
    destruct IV as (I1 & I2 & I3 & I4).
    unfold link_one in Hs. apply bind_ok in Hs as (p0 & Hp0 & Hs). apply pyget_ok_iff in Hp0; [|lia]. rewrite Nat2Z.id in Hp0.
    apply bind_ok in Hs as ([cu2 nx2] & Hc & Hs). apply bind_ok in Hs as (p1 & _ & Hs). injection Hs as <- <- _.
    assert (MONO : forall j, 0 <= prev_of nx j -> 0 <= prev_of nx2 j).
    { intros j Hj. destruct (p_inlist p0 >? 0); [|injection Hc as _ <-; auto].
      apply bind_ok in Hc as (r & Hr & Hc).
      assert (W : forall nx', pyset nx (p_next p0) (set_prev r (Z.of_nat (length done))) = Ok nx' -> 0 <= prev_of nx' j).
      { intros nx' Ew. unfold pyset in Ew. destruct (pyidx _ _) as [a|] eqn:Ea; [|discriminate]. injection Ew as <-.
        unfold prev_of. rewrite nth_error_upd. destruct (j =? a)%nat; [|exact Hj].
        destruct (a <? length nx)%nat eqn:La; [cbn; lia|]. exfalso. apply Nat.ltb_ge in La. unfold pyget in Hr. rewrite Ea in Hr.
        apply nth_error_None in La. rewrite La in Hr. discriminate. }
      destruct (p_prev r =? PREV_NONE).
      - apply bind_ok in Hc as (nx' & Ew & Hc). injection Hc as _ <-. auto.
      - apply bind_ok in Hc as (o & _ & Hc). destruct (fgt _ _).
        + apply bind_ok in Hc as (cx & _ & Hc). apply bind_ok in Hc as (nx' & Ew & Hc). injection Hc as _ <-. auto.
        + apply bind_ok in Hc as (cx & _ & Hc). injection Hc as _ <-. auto. }
    intros Lt. destruct (Nat.eq_dec h (length done)) as [->|Nh]; [|apply MONO, KP; lia].
    destruct (I3 _ _ Hp) as (q & Q1 & _ & Q2 & _). specialize (Q2 (le_n _)). subst q. assert (p0 = p) as -> by congruence.
    rewrite Z.gtb_ltb in Hc. destruct (Z.ltb_spec 0 (p_inlist p)); [|lia]. rewrite Hn in Hc.
    apply bind_ok in Hc as (r & Hr & Hc). apply pyget_ok_iff in Hr; [|lia]. rewrite Nat2Z.id in Hr.
    destruct (nth_error nxt k) as [r0|] eqn:Er0; [|apply nth_error_None in Er0; lia].
    destruct (I4 k r0 Er0) as (s & Q3 & _ & Q4). assert (s = r) as -> by congruence.
    destruct (Z.eqb_spec (p_prev r) PREV_NONE) as [EP|EP].
    + apply bind_ok in Hc as (nx' & Ew & Hc). injection Hc as _ <-. apply pyset_ok in Ew as (Lw & ->); [|lia]. rewrite Nat2Z.id.
      unfold prev_of. rewrite nth_error_upd_eq by lia. cbn. lia.
    + apply MONO. rewrite (prev_of_nth _ _ _ Hr). destruct Q4 as [Q4|(h1 & _ & Q4 & _)]; [contradiction|lia].
Qed.

Section Step.
Variable psort : list (f64 * Z) -> list (f64 * Z).
Hypothesis psort_perm : forall l, Permutation l (psort l).
Variable pixdist : f64 -> f64 -> f64 -> f64 -> f64.
Variable ncam : nat.
Hypothesis ncam_ok : (2 <= ncam <= 4)%nat.
Variables imx imy : Z.
Variable point_to_pixel : Z -> vec -> f64 * f64.
Variable searchquader : Z -> vec -> f64 * f64 * f64 * f64.
Variable moving : vec -> vec -> vec.
Variable extrap : vec -> vec -> vec -> vec.
Variable vec_subt : vec -> vec -> vec.
Variable vec_diff_norm : vec -> vec -> f64.
Variable angle_acc : vec -> vec -> vec -> f64 * f64.
Variable to_flat : Z -> f64 -> f64 -> f64 * f64.
Variable point_position : list (f64 * f64) -> vec.
Variable tp : tpar.
Variable vl : vol.
Hypothesis no_add : do_add tp = false.
Let nc := Z.of_nat ncam.
Local Notation track_one := (track_one pixdist nc imx imy point_to_pixel searchquader moving extrap vec_subt vec_diff_norm angle_acc to_flat point_position tp vl).
Local Notation trackcorr_step := (trackcorr_step psort pixdist nc imx imy point_to_pixel searchquader moving extrap vec_subt vec_diff_norm angle_acc to_flat point_position tp vl).
Local Notation convincing := (convincing pixdist ncam imx imy point_to_pixel searchquader vec_subt angle_acc tp).
Local Notation sight f := (sighting pixdist ncam imx imy point_to_pixel to_flat (fr_targ f)).
Local Notation justified b2 b3 := (justified vec_subt angle_acc point_position tp vl (sight b2) (sight b3) (map p_x (fr_path b3))).

(** particle [p] = number [h] of [b1] has something to go to: particle [k] of [b2] *)
Definition follows (buf0 b1 b2 b3 : frame) (h k : nat) (p : pinfo) : Prop :=
  exists hp x0 x2 px r, past_of moving buf0 p hp x0 x2 /\ looked_at ncam point_to_pixel b1 h hp (p_x p) x2 px /\
    seen_everywhere pixdist ncam imx imy searchquader b2 x2 px (Z.of_nat k) /\ nth_error (fr_path b2) k = Some r /\
    convincing b3 hp (p_x p) x2 (p_x r) (if hp then extrap (p_x r) (p_x p) x0 else moving (p_x p) (p_x r)).

Lemma track_all_found buf0 b1 b2 b3 c1 c2 c3 : frame_ok b1 -> frame_ok b2 -> frame_ok b3 -> searchable ncam b2 -> searchable ncam b3 ->
  foldM (track_one buf0) (zrange 0 (fr_num b1)) (b1, b2, b3) = Ok (c1, c2, c3) ->
  c2 = b2 /\ c3 = b3 /\
  forall h k p, nth_error (fr_path b1) h = Some p -> follows buf0 b1 b2 b3 h k p -> exists q, nth_error (fr_path c1) h = Some q /\ 0 < p_inlist q.
Proof.
  intros (F1 & _) F2 F3 S2 S3 H.
  apply (foldM_inv (fun done st => TI b1 b2 b3 (length done) st /\ let '(c1, c2, c3) := st in c2 = b2 /\ c3 = b3 /\
    forall h k p, nth_error (fr_path b1) h = Some p -> (h < length done)%nat -> follows buf0 b1 b2 b3 h k p ->
      exists q, nth_error (fr_path c1) h = Some q /\ 0 < p_inlist q)) in H.
  - destruct H as (_ & -> & -> & H). split; auto. split; auto. intros h k p Hp. apply (H h k p Hp). rewrite zrange_length.
    assert (h < length (fr_path b1))%nat by (apply nth_error_Some; congruence). lia.
  - split.
    + split; auto. split; auto. split; [apply only_added_refl|]. split; [apply only_added_refl|]. split; auto. split; auto. split; auto.
      intros h p Hp. exists p. split; auto. split; [apply same_core_refl|]. simpl. lia.
    + split; auto. split; auto. cbn. lia.
  - intros done h rest [[d1 d2] d3] [[e1 e2] e3] E ((A1 & A2 & A3 & A4 & A5 & A6 & A7 & A8) & -> & -> & HF) Hs.
    apply zrange_split in E as (_ & Hh & Eh). replace h with (Z.of_nat (length done)) in * by lia. clear Eh.
    pose proof Hs as Hw.
    apply (track_one_ok pixdist ncam ltac:(lia)) in Hs as (B1 & B2 & B3 & B4 & B5 & B6 & (p & q & Hp & Hq & Sc & Co)); auto; try lia.
    apply (track_one_found pixdist ncam ncam_ok) in Hw as (-> & -> & (p' & q' & Hp' & Hq' & V3)); auto.
    rewrite Nat2Z.id in *. assert (p' = p) as -> by congruence.
    assert (LD : (length done < length (fr_path d1))%nat) by (apply nth_error_Some; congruence).
    assert (q' = q) as ->.
    { assert (X : nth_error (fr_path e1) (length done) = Some q) by (rewrite Hq; now apply nth_error_upd_eq).
      rewrite Hq', nth_error_upd_eq in X by auto. congruence. }
    rewrite app_length. cbn [length]. split.
    + split; auto. split; auto. split; [eapply only_added_trans; eauto|]. split; [eapply only_added_trans; eauto|].
      split; [rewrite Hq, upd_length; auto|]. split; [congruence|]. split; [congruence|].
      intros h' p' Hp''. destruct (A8 h' p' Hp'') as (r & Q1 & Q2 & Q3). rewrite Hq.
      destruct (Nat.eq_dec h' (length done)) as [->|N].
      * exists q. rewrite nth_error_upd_eq by auto. split; auto.
        assert (r = p) as -> by congruence. split; [eapply same_core_trans; eauto|]. auto.
      * exists r. rewrite nth_error_upd_neq by auto. split; auto. split; auto. intros L. apply Q3. lia.
    + split; auto. split; auto. intros h' k p0 Hp0 Lh FO. rewrite Hq.
      destruct (Nat.eq_dec h' (length done)) as [->|N].
      * exists q. rewrite nth_error_upd_eq by auto. split; auto.
        destruct FO as (hp & x0 & x2 & px & r & P1 & P2 & P3 & P4 & P5).
        destruct (A8 _ _ Hp0) as (p1 & Q1 & (Q2 & Q4 & _) & _). assert (p1 = p) as -> by congruence.
        rewrite <- Q2 in *.
        eapply (V3 hp x0 x2 px k r); auto.
        -- unfold past_of in *. rewrite Q4, Q2 in *. exact P1.
        -- injection A7 as Y1 Y2 Y3. unfold looked_at in *. rewrite Y1, Y2. exact P2.
      * destruct (HF h' k p0 Hp0 ltac:(lia) FO) as (q0 & Q0 & Q1). exists q0. rewrite nth_error_upd_neq by auto. auto.
Qed.

(** what a step without adding particles does with a particle that has something to go to *)
Theorem step_found buf0 b1 b2 b3 c1 c2 c3 cnt h k p :
  frame_ok b1 -> frame_ok b2 -> frame_ok b3 -> searchable ncam b2 -> searchable ncam b3 ->
  (forall p, In p (fr_path b1) -> p_next p = NEXT_NONE) ->
  (forall p, In p (fr_path b2) -> fresh_particle p) ->
  trackcorr_step buf0 b1 b2 b3 = Ok (c1, c2, c3, cnt) ->
  nth_error (fr_path b1) h = Some p -> follows buf0 b1 b2 b3 h k p ->
  c3 = b3 /\ map p_x (fr_path c2) = map p_x (fr_path b2) /\
  exists h' k' r hp x0 x2, next_of (fr_path c1) h' = Z.of_nat k' /\ nth_error (fr_path b2) k' = Some r /\
    (next_of (fr_path c1) h = Z.of_nat k' \/ next_of (fr_path c1) h = NEXT_NONE) /\
    past_of moving buf0 p hp x0 x2 /\
    justified b2 b3 hp (p_x p) x2 (p_x r) (if hp then extrap (p_x r) (p_x p) x0 else moving (p_x p) (p_x r)).
Proof.
  intros F1 F2 F3 S2 S3 N1 N2 H Hp FO.
  unfold Model_track.trackcorr_step in H. apply bind_ok in H as ([[d1 d2] d3] & Ht & H).
  pose proof Ht as Hf. apply track_all_found in Hf as (-> & -> & Hf); auto. destruct (Hf h k p Hp FO) as (q & Hq & Hi). clear Hf.
  pose proof Ht as Hw. apply (track_all_why pixdist ncam ltac:(lia)) in Hw as (_ & _ & W3); auto.
  apply (track_all_ok pixdist ncam ltac:(lia)) in Ht as (A1 & A2 & A3 & A4 & A5 & A6 & A7 & A8); auto.
  apply bind_ok in H as (cur & Hd & H). apply bind_ok in H as ([[cur' nxt'] cnt'] & Hl & H). injection H as <- <- <- <-.
  pose proof F1 as (FN & FT). rewrite A6, FN, <- A5 in Hd, Hl.
  assert (CO : forall h p, nth_error (fr_path d1) h = Some p -> cands_ok (Z.of_nat (length (fr_path b2))) p).
  { intros h0 p0 Hp0. assert (h0 < length (fr_path d1))%nat by (apply nth_error_Some; congruence).
    destruct (nth_error (fr_path b1) h0) as [p1|] eqn:E0; [|apply nth_error_None in E0; lia].
    destruct (A8 h0 p1 E0) as (q1 & Q1 & Q2 & Q3). assert (q1 = p0) as -> by congruence. apply Q3; lia. }
  pose proof Hd as Hd'. apply (decide_all_ok psort psort_perm ncam ltac:(lia) (Z.of_nat (length (fr_path b2)))) in Hd' as (D1 & D2); auto.
  assert (RW : ready_weak cur (fr_path b2)).
  { split.
    - intros h0 q0 Hq0. assert (h0 < length cur)%nat by (apply nth_error_Some; congruence).
      destruct (nth_error (fr_path d1) h0) as [p0|] eqn:E; [|apply nth_error_None in E; lia].
      destruct (D2 h0 p0 E) as (q' & Q1 & Q2 & Q3 & Q4 & Q5). assert (q' = q0) as -> by congruence. rewrite Q2.
      destruct (0 <? p_inlist p0); auto. subst q0.
      destruct (nth_error (fr_path b1) h0) as [p1|] eqn:E0; [|apply nth_error_None in E0; lia].
      destruct (A8 h0 p1 E0) as (q1 & Q1' & (_ & _ & Q2' & _) & Q3'). assert (q1 = p0) as -> by congruence. rewrite Q2'. apply N1. eapply nth_error_In; eauto.
    - intros k0 r Hr. apply N2. eapply nth_error_In; eauto. }
  destruct (D2 h q Hq) as (q1 & Hq1 & I1 & _ & _ & NX). destruct (Z.ltb_spec 0 (p_inlist q)) as [_|?]; [|lia].
  set (k' := Z.to_nat (p_next q1)). assert (Ek : p_next q1 = Z.of_nat k') by (unfold k'; lia).
  assert (WA : wants cur h k') by (exists q1; split; auto; split; auto; lia).
  rewrite <- D1 in Hl. destruct (link_occupied _ _ _ _ _ _ _ RW Hl WA) as (h' & Hh').
  destruct (link_mutual cur (fr_path b2) RW) as (cur2 & nxt2 & cnt2 & E & L1 & L2 & M & T1 & T2).
  rewrite E in Hl. injection Hl as <- <- <-. cbn [set_path fr_path].
  split; auto. split.
  { apply nth_error_ext. intros j. rewrite !nth_error_map. destruct (nth_error (fr_path b2) j) as [r|] eqn:Er.
    - destruct (T2 j r Er) as (s & -> & (v & ->)). reflexivity.
    - assert (nth_error nxt2 j = None) as -> by (apply nth_error_None; apply nth_error_None in Er; lia). reflexivity. }
  destruct (decide_all_reason psort psort_perm _ _ _ CO Hd h q1 Hq1) as (q' & P1 & P2). assert (q' = q) as -> by congruence.
  destruct (Z.ltb_spec 0 (p_inlist q)) as [_|?]; [|lia].
  destruct (W3 h p Hp) as (q'' & P1'' & EX). assert (q'' = q) as -> by congruence.
  destruct (EX ltac:(apply nth_error_Some; congruence)) as (hp & x0 & x2 & HY & RE).
  destruct (P2 _ RE) as (r & R1 & R2). fold k' in R1.
  exists h', k', r, hp, x0, x2. split; auto. split; auto. split; [|split; [exact HY|exact R2]].
  destruct (T1 h q1 Hq1) as (s & Hs & (v & ->)). unfold next_of. rewrite Hs. cbn [set_next p_next].
  destruct (link_all_keeps _ _ _ _ _ _ E h _ Hs) as (q2 & Q2 & [Q3|Q3]); assert (q2 = q1) as -> by congruence.
  - left. rewrite <- Ek. rewrite <- Q3. reflexivity.
  - right. apply (f_equal p_next) in Q3. exact Q3.
Qed.
End Step.
