(** A tracking step whose last frame was never read: it does what it would do with no rows allocated at all. *)
From Coq Require Import Permutation.
From Verif Require Import Base Lib F64 Model_corr Model_cand Model_track Spec_track Proof_track_reg Proof_track_step.
Local Open Scope Z_scope.

Definition strip_rows (f : frame) : frame := mk_frame [] (fr_corr f) (fr_targ f) (fr_numt f) (fr_num f).
Lemma strip_ok f : unread f -> frame_ok (strip_rows f).
Proof. intros (A & _ & C). split; [exact A|]. cbn. intros tl t H1 H2. rewrite (C tl t H1 H2). lia. Qed.
Lemma pyget_in {A} (l : list A) i v : pyget l i = Ok v -> In v l.
Proof.
  unfold pyget. destruct (pyidx _ _) as [k|]; [|discriminate]. destruct (nth_error l k) eqn:En; [|discriminate].
  intros H. injection H as <-. eapply nth_error_In; eauto.
Qed.

Section Step.
Variable psort : list (f64 * Z) -> list (f64 * Z).
Variable pixdist : f64 -> f64 -> f64 -> f64 -> f64.
Variable ncam : nat.
Hypothesis ncam_ok : (1 <= ncam <= 4)%nat.
Variables imx imy : Z.
Variable point_to_pixel : Z -> vec -> f64 * f64.
Variable searchquader : Z -> vec -> f64 * f64 * f64 * f64.
Variable moving : vec -> vec -> vec.
Variable extrap : vec -> vec -> vec -> vec.
Variable vec_subt : vec -> vec -> vec.
Variable vec_diff_norm : vec -> vec -> f64.
Variable angle_acc : vec -> vec -> vec -> f64 * f64.
Variable to_flat : Z -> f64 -> f64 -> f64 * f64.
Variable point_position : list (f64 * f64) -> vec.
Variable tp : tpar.
Variable vl : vol.
Let nc := Z.of_nat ncam.
Local Notation first_body := (first_body pixdist nc imx imy point_to_pixel searchquader moving extrap vec_subt vec_diff_norm angle_acc to_flat point_position tp vl).
Local Notation track_one := (track_one pixdist nc imx imy point_to_pixel searchquader moving extrap vec_subt vec_diff_norm angle_acc to_flat point_position tp vl).
Local Notation trackcorr_step := (trackcorr_step psort pixdist nc imx imy point_to_pixel searchquader moving extrap vec_subt vec_diff_norm angle_acc to_flat point_position tp vl).

Lemma volume_none center proj frm w f : unread frm ->
  sorted_candidates_in_volume pixdist nc imx imy searchquader center proj frm = Ok w -> In f w -> ftnr f = -1.
Proof.
  intros (_ & _ & F2) H Hf.
  destruct (volume_exact pixdist ncam imx imy searchquader center proj frm w ncam_ok H) as (ids & L & HC & (d & R0 & R1 & _)).
  apply In_nth_error in Hf as (k & Hk). specialize (R1 k f Hk). destruct (k <? d)%nat; [|lia].
  destruct R1 as (_ & _ & _ & (i & Hi & _)).
  assert (i < length ids)%nat by (apply nth_error_Some; congruence).
  pose proof (Nat.div_mod i 4 ltac:(lia)) as DM. pose proof (Nat.mod_upper_bound i 4 ltac:(lia)) as MB.
  destruct (HC (i / 4)%nat ltac:(lia)) as (tl & nt & q & p & T1 & T2 & T3 & T4 & T5 & T6).
  destruct (T6 (i mod 4)%nat (ftnr f)) as (j & t & J1 & J2 & J3).
  { rewrite nth_error_firstn by auto. rewrite nth_error_skipn, <- DM. auto. }
  rewrite J3. apply (F2 tl t); [eapply nth_error_In; eauto|].
  unfold cand_target in J2. destruct (j =? -1); eapply nth_error_In; eauto.
Qed.
Lemma rest_none tl cx cy a b c d : candsearch_in_pix_rest pixdist tl 0 cx cy a b c d (-1) imx imy = Ok (0, -1).
Proof. unfold candsearch_in_pix_rest. destruct (center_in_image cx cy imx imy); reflexivity. Qed.
Lemma assess_none pos frm q v i : unread frm -> assess_new_position pixdist nc imx imy point_to_pixel to_flat pos frm = Ok (q, v, i) -> q = 0.
Proof.
  intros (_ & F & _) H. unfold assess_new_position in H. apply bind_ok in H as ([tpos inds] & H1 & H). apply bind_ok in H as ([vd out] & H2 & H). injection H as <- _ _.
  assert (T : forall q, In q tpos -> q = (COORD_UNUSED, COORD_UNUSED)).
  { apply (foldM_inv (fun _ '(tpos, _) => forall q, In q tpos -> q = (COORD_UNUSED, COORD_UNUSED))) in H1; [exact H1|intros q []|].
    intros done cam rest [t1 i1] [t2 i2] _ I Hs. apply bind_ok in Hs as (tl & _ & Hs). apply bind_ok in Hs as (nt & Hnt & Hs). cbv zeta in Hs.
    apply pyget_in, F in Hnt. subst nt. rewrite rest_none in Hs. cbn [bind] in Hs. change (0 >? 0) with false in Hs. cbn iota in Hs. injection Hs as <- <-.
    intros q Hq. apply in_app_or in Hq as [Hq|[<-|[]]]; auto. }
  cbn [fst]. apply (foldM_inv (fun _ '(vd, _) => vd = 0)) in H2; [exact H2|reflexivity|].
  intros done cam rest [v1 o1] [v2 o2] _ -> Hs. apply bind_ok in Hs as (q & Hq & Hs). apply pyget_in, T in Hq. subst q.
  change (feq (fst (COORD_UNUSED, COORD_UNUSED)) COORD_UNUSED) with true in Hs. cbn [negb andb] in Hs. now injection Hs as <- _.
Qed.

Lemma first_body_unread x0 x1 x2 f p b2 b3 s : unread b3 -> first_body x0 x1 x2 f (p, b2, b3) = Ok s ->
  exists p' b2', s = (p', b2', b3) /\ first_body x0 x1 x2 f (p, b2, strip_rows b3) = Ok (p', b2', strip_rows b3).
Proof.
  intros U H. unfold Model_track.first_body in *. apply bind_ok in H as (q & Hq & H). rewrite Hq. cbn [bind].
  apply bind_ok in H as (wn & Hw & H). unfold sorted_candidates_in_volume in *. cbn [strip_rows fr_targ fr_numt]. rewrite Hw. cbn [bind].
  apply bind_ok in H as (p1 & Hp & H).
  set (hp := 0 <=? p_prev p) in *. set (x5 := if hp then extrap (p_x q) x1 x0 else moving x1 (p_x q)) in *.
  assert (P1 : (if Z.of_nat (length wn) >? 1 then second_loop vec_subt vec_diff_norm angle_acc tp vl wn f (strip_rows b3) x1 x2 (p_x q) x5 hp p else Ok p) = Ok p1).
  { destruct (_ >? 1); [|exact Hp]. unfold second_loop in *. destruct wn as [|g wn]; [exact Hp|].
    assert (G : ftnr g = -1) by (eapply volume_none; [exact U|exact Hw|now left]). cbn [while_cands] in *. rewrite G in *. exact Hp. }
  rewrite P1. cbn [bind]. apply bind_ok in H as ([[qu v2] ph] & Ha & H). pose proof (assess_none _ _ _ _ _ U Ha) as ->.
  unfold assess_new_position in *. cbn [strip_rows fr_targ fr_numt]. rewrite Ha. cbn [bind]. change (2 <=? 0) with false in *. cbn iota in *. cbn [bind] in *.
  apply bind_ok in H as (p2 & Hp2 & H). injection H as <-. rewrite Hp2. cbn [bind]. eauto.
Qed.
Lemma while_unread x0 x1 x2 w p b2 b3 s : unread b3 ->
  while_cands w (fun f '(_, buf2, _) => negb (ftnr f =? TR_UNUSED) && (Z.of_nat (length (fr_path buf2)) >? ftnr f)) (first_body x0 x1 x2) (p, b2, b3) = Ok s ->
  exists p' b2', s = (p', b2', b3) /\
    while_cands w (fun f '(_, buf2, _) => negb (ftnr f =? TR_UNUSED) && (Z.of_nat (length (fr_path buf2)) >? ftnr f)) (first_body x0 x1 x2) (p, b2, strip_rows b3) = Ok (p', b2', strip_rows b3).
Proof.
  intros U. revert p b2. induction w as [|f w IH]; intros p b2 H; cbn [while_cands] in *; [discriminate|].
  destruct (_ && _); [|injection H as <-; eauto]. apply bind_ok in H as (s1 & H1 & H). apply first_body_unread in H1 as (p1 & b21 & -> & H1); auto. rewrite H1. cbn [bind]. auto.
Qed.
Lemma track_one_unread buf0 b1 b2 b3 h s : unread b3 -> track_one buf0 (b1, b2, b3) h = Ok s ->
  exists c1 c2, s = (c1, c2, b3) /\ track_one buf0 (b1, b2, strip_rows b3) h = Ok (c1, c2, strip_rows b3).
Proof.
  intros U H. unfold Model_track.track_one in *. apply bind_ok in H as (p & Hp & H). apply bind_ok in H as (c & Hc & H). rewrite Hp, Hc. cbn [bind]. cbv zeta in *.
  apply bind_ok in H as ([[x0 x2] v1] & Hpre & H). rewrite Hpre. cbn [bind]. apply bind_ok in H as (w & Hw & H). rewrite Hw. cbn [bind].
  apply bind_ok in H as ([[p1 b21] b31] & Hs & H). apply bind_ok in H as (path & Hpa & H). injection H as <-.
  destruct (_ =? 1).
  { injection Hs as <- <- <-. cbn [bind]. rewrite Hpa. cbn [bind]. eauto. }
  apply bind_ok in Hs as (s1 & Hwh & Hs). apply while_unread in Hwh as (p2 & b22 & -> & Hwh); auto. rewrite Hwh. cbn [bind].
  destruct (_ && _).
  2:{ injection Hs as <- <- <-. cbn [bind]. rewrite Hpa. cbn [bind]. eauto. }
  apply bind_ok in Hs as ([[qu v2] ph] & Ha & Hs). rewrite Ha. cbn [bind].
  destruct (2 <=? qu); [|injection Hs as <- <- <-; cbn [bind]; rewrite Hpa; cbn [bind]; eauto].
  destruct (in_volume _ _ _ _ && _); [|injection Hs as <- <- <-; cbn [bind]; rewrite Hpa; cbn [bind]; eauto].
  destruct (angle_acc _ _ _) as [an ac]. destruct (acceptable tp an ac); [|injection Hs as <- <- <-; cbn [bind]; rewrite Hpa; cbn [bind]; eauto].
  apply bind_ok in Hs as (p3 & Hp3 & Hs). apply bind_ok in Hs as (b23 & Hb & Hs). injection Hs as <- <- <-. rewrite Hp3. cbn [bind]. rewrite Hb. cbn [bind]. rewrite Hpa. cbn [bind]. eauto.
Qed.
Theorem step_unread buf0 b1 b2 b3 c1 c2 c3 cnt : unread b3 -> trackcorr_step buf0 b1 b2 b3 = Ok (c1, c2, c3, cnt) ->
  c3 = b3 /\ trackcorr_step buf0 b1 b2 (strip_rows b3) = Ok (c1, c2, strip_rows b3, cnt).
Proof.
  intros U H. unfold Model_track.trackcorr_step in *. apply bind_ok in H as ([[d1 d2] d3] & Ht & H).
  assert (T : d3 = b3 /\ foldM (track_one buf0) (zrange 0 (fr_num b1)) (b1, b2, strip_rows b3) = Ok (d1, d2, strip_rows b3)).
  { clear H. revert Ht. generalize (zrange 0 (fr_num b1)) as l. intros l. generalize b1 b2. induction l as [|h l IH]; intros a1 a2 Ht; cbn [foldM] in *.
    - injection Ht as <- <- <-. auto.
    - apply bind_ok in Ht as (s & Hs & Ht). apply track_one_unread in Hs as (e1 & e2 & -> & Hs); auto. rewrite Hs. cbn [bind]. auto. }
  destruct T as (-> & T). rewrite T. cbn [bind]. apply bind_ok in H as (cur & Hd & H). rewrite Hd. cbn [bind].
  apply bind_ok in H as ([[cur' nxt'] cnt'] & Hl & H). injection H as <- <- <- <-. rewrite Hl. auto.
Qed.
End Step.
