(** What a tracking step leaves alone when it adds no particles: positions, priorities, correspondences, targets; and the
    links it makes are indices or "none". *)
From Coq Require Import Permutation.
From Verif Require Import Base Lib F64 Model_corr Model_cand Model_track Spec_track Spec_track2
  Proof_track_search Proof_track_step Proof_track_back Proof_track_just Proof_track_score.
Local Open Scope Z_scope.

(** links that are indices or "none" *)
Definition tame (p : pinfo) : Prop := (p_prev p = PREV_NONE \/ 0 <= p_prev p) /\ (p_next p = NEXT_NONE \/ 0 <= p_next p).
Definition Kp (p q : pinfo) : Prop := p_x q = p_x p /\ p_prio q = p_prio p /\ (tame p -> tame q).
Definition Kf (f g : frame) : Prop :=
  fr_num g = fr_num f /\ fr_corr g = fr_corr f /\ fr_targ g = fr_targ f /\ fr_numt g = fr_numt f /\ Forall2 Kp (fr_path f) (fr_path g).
Lemma Kp_refl p : Kp p p. Proof. repeat split; auto; apply H. Qed.
Lemma Kp_trans p q r : Kp p q -> Kp q r -> Kp p r.
Proof. intros (A & B & C) (A' & B' & C'). split; [congruence|]. split; [congruence|]. auto. Qed.
Lemma F2_refl l : Forall2 Kp l l. Proof. induction l; constructor; auto using Kp_refl. Qed.
Lemma F2_trans l m n : Forall2 Kp l m -> Forall2 Kp m n -> Forall2 Kp l n.
Proof. intros H. revert n. induction H; intros n G; inversion G; subst; constructor; eauto using Kp_trans. Qed.
Lemma Kf_refl f : Kf f f. Proof. repeat (split; auto). apply F2_refl. Qed.
Lemma Kf_trans f g h : Kf f g -> Kf g h -> Kf f h.
Proof. intros (A1 & A2 & A3 & A4 & A5) (B1 & B2 & B3 & B4 & B5). split; [congruence|]. split; [congruence|]. split; [congruence|]. split; [congruence|]. eapply F2_trans; eauto. Qed.
Lemma F2_upd l m k a v : Forall2 Kp l m -> nth_error m k = Some a -> Kp a v -> Forall2 Kp l (upd m k v).
Proof.
  intros H. revert k. induction H as [|x y l m HK H IH]; intros k Hk HV; [destruct k; discriminate|]. destruct k as [|k]; cbn in *.
  - injection Hk as ->. constructor; auto. eapply Kp_trans; eauto.
  - constructor; auto.
Qed.
(** the same, and the candidate list is as long as it was *)
Definition KL (p q : pinfo) : Prop := Kp p q /\ p_inlist q = p_inlist p.
Lemma KL_refl l : Forall2 KL l l. Proof. induction l; constructor; auto. split; auto using Kp_refl. Qed.
Lemma KL_K l m : Forall2 KL l m -> Forall2 Kp l m. Proof. intros H. induction H as [|x y l m (A & _) H IH]; constructor; auto. Qed.
Lemma F2_updL l m k a v : Forall2 KL l m -> nth_error m k = Some a -> KL a v -> Forall2 KL l (upd m k v).
Proof.
  intros H. revert k. induction H as [|x y l m HK H IH]; intros k Hk HV; [destruct k; discriminate|]. destruct k as [|k]; cbn in *.
  - injection Hk as ->. constructor; auto. destruct HK, HV. split; [eapply Kp_trans; eauto|congruence].
  - constructor; auto.
Qed.
Lemma pyset_at {A} (l : list A) i a v l' : pyget l i = Ok a -> pyset l i v = Ok l' -> exists k, nth_error l k = Some a /\ l' = upd l k v.
Proof.
  unfold pyget, pyset. destruct (pyidx (length l) i) as [k|]; [|discriminate]. intros H G. injection G as <-.
  destruct (nth_error l k) eqn:E; [|discriminate]. injection H as <-. eauto.
Qed.
Lemma set_next_K p v : v = NEXT_NONE \/ 0 <= v -> Kp p (set_next p v).
Proof. intros H. split; auto. split; auto. intros (A & B). split; auto. Qed.
Lemma set_prev_K p v : v = PREV_NONE \/ 0 <= v -> Kp p (set_prev p v).
Proof. intros H. split; auto. split; auto. intros (A & B). split; auto. Qed.

Lemma link_all_K num cur nxt cur' nxt' cnt : link_all num cur nxt = Ok (cur', nxt', cnt) -> Forall2 Kp cur cur' /\ Forall2 Kp nxt nxt'.
Proof.
  unfold link_all. intros H. apply (foldM_inv (fun _ st => let '(c, n, _) := st in Forall2 Kp cur c /\ Forall2 Kp nxt n)) in H; auto using F2_refl.
  intros done h rest [[c n] k] [[c1 n1] k1] E (I1 & I2) Hs. apply zrange_split in E as (_ & Hh & _). unfold link_one in Hs.
  apply bind_ok in Hs as (p & Hp & Hs). apply bind_ok in Hs as ([c2 n2] & Hc & Hs). apply bind_ok in Hs as (p1 & _ & Hs). injection Hs as <- <- <-.
  destruct (p_inlist p >? 0); [|injection Hc as <- <-; auto].
  apply bind_ok in Hc as (r & Hr & Hc). destruct (p_prev r =? PREV_NONE).
  - apply bind_ok in Hc as (n3 & Hn & Hc). injection Hc as <- <-. split; auto. destruct (pyset_at _ _ _ _ _ Hr Hn) as (i & Hi & ->).
    eapply F2_upd; eauto. apply set_prev_K. lia.
  - apply bind_ok in Hc as (o & Ho & Hc). destruct (fgt _ _).
    + apply bind_ok in Hc as (c3 & Hc3 & Hc). apply bind_ok in Hc as (n3 & Hn & Hc). injection Hc as <- <-.
      destruct (pyset_at _ _ _ _ _ Hr Hn) as (i & Hi & ->). destruct (pyset_at _ _ _ _ _ Ho Hc3) as (j & Hj & ->).
      split; eapply F2_upd; eauto; [apply set_next_K; auto|apply set_prev_K; lia].
    + apply bind_ok in Hc as (c3 & Hc3 & Hc). injection Hc as <- <-. destruct (pyset_at _ _ _ _ _ Hp Hc3) as (j & Hj & ->).
      split; auto. eapply F2_upd; eauto. apply set_next_K. auto.
Qed.

Section Keep.
Variable psort : list (f64 * Z) -> list (f64 * Z).
Hypothesis psort_perm : forall l, Permutation l (psort l).
Variable pixdist : f64 -> f64 -> f64 -> f64 -> f64.
Variable ncam : nat.
Hypothesis ncam_ok : (1 <= ncam <= 4)%nat.
Variables imx imy : Z.
Variable ptp : Z -> vec -> f64 * f64.
Variable quader : Z -> vec -> f64 * f64 * f64 * f64.
Variable moving : vec -> vec -> vec.
Variable extrap : vec -> vec -> vec -> vec.
Variable sub : vec -> vec -> vec.
Variable norm : vec -> vec -> f64.
Variable angle : vec -> vec -> vec -> f64 * f64.
Variable flat : Z -> f64 -> f64 -> f64 * f64.
Variable point : list (f64 * f64) -> vec.
Variable tp : tpar.
Variable vl : vol.
Local Notation fstep := (trackcorr_step psort pixdist (Z.of_nat ncam) imx imy ptp quader moving extrap sub norm angle flat point tp vl).
Local Notation bstep := (trackback_step psort pixdist (Z.of_nat ncam) imx imy ptp quader moving extrap sub norm angle flat point tp vl).

Lemma rows_K (l m : list pinfo) : length m = length l -> (forall h p, nth_error l h = Some p -> exists q, nth_error m h = Some q /\ Kp p q) -> Forall2 Kp l m.
Proof.
  revert m. induction l as [|p l IH]; intros m L H; destruct m as [|q m]; cbn in L; try discriminate; constructor.
  - destruct (H O p eq_refl) as (q' & E & K). cbn in E. congruence.
  - apply IH; [congruence|]. intros h r Hr. exact (H (S h) r Hr).
Qed.
Lemma core_K p q : same_core p q -> Kp p q.
Proof. intros (A & B & C & D). split; auto. split; auto. unfold tame. rewrite B, C. auto. Qed.

Lemma decide_K N p q : cands_ok N p -> decide psort p = Ok q -> Kp p q.
Proof.
  intros C H. pose proof H as H'. apply (decide_ok psort psort_perm ncam ncam_ok N) in H' as (_ & P & X & T); auto.
  split; auto. split.
  - unfold decide in H. destruct (_ >? 0); [|injection H as <-; auto]. apply bind_ok in H as (ab & _ & H). apply bind_ok in H as (d & _ & H).
    apply bind_ok in H as (l & _ & H). injection H as <-. reflexivity.
  - intros (A & B). destruct (0 <? p_inlist p); [|now subst q; split]. split; [now rewrite P|right; lia].
Qed.
Lemma decide_all_K N num cur cur' : (forall h p, nth_error cur h = Some p -> cands_ok N p) -> num = Z.of_nat (length cur) ->
  decide_all psort num cur = Ok cur' -> Forall2 Kp cur cur'.
Proof.
  intros HC -> H. unfold decide_all in H.
  apply (foldM_inv (fun done s => Forall2 Kp cur s /\ forall h, (length done <= h)%nat -> nth_error s h = nth_error cur h)) in H; auto; [apply H|split; auto using F2_refl|].
  intros done h rest s s1 E (I1 & I2) Hs. apply zrange_split in E as (_ & Hh & Eh). cbn in Eh. replace h with (Z.of_nat (length done)) in * by lia.
  apply bind_ok in Hs as (p & Hp & Hs). apply bind_ok in Hs as (q & Hq & Hs). destruct (pyset_at _ _ _ _ _ Hp Hs) as (k & Hk & Es).
  apply pyset_ok in Hs as (Lk & ->); [|lia]. rewrite Nat2Z.id in *. apply pyget_ok_iff in Hp; [|lia]. rewrite Nat2Z.id in Hp. split.
  - eapply F2_upd; eauto. eapply decide_K; [|exact Hq]. apply (HC (length done)). rewrite <- I2; auto.
  - intros h' Hh'. rewrite app_length in Hh'. cbn [length] in Hh'. rewrite nth_error_upd_neq by lia. apply I2. lia.
Qed.

Lemma step_keeps buf0 b1 b2 b3 c1 c2 c3 cnt : do_add tp = false -> frame_ok b1 -> frame_ok b2 -> frame_ok b3 ->
  fstep buf0 b1 b2 b3 = Ok (c1, c2, c3, cnt) -> Kf b1 c1 /\ Kf b2 c2 /\ c3 = b3.
Proof.
  intros NA F1 F2 F3 H. unfold Model_track.trackcorr_step in H. apply bind_ok in H as ([[d1 d2] d3] & Ht & H).
  assert (E : d2 = b2 /\ d3 = b3).
  { apply (foldM_inv (fun _ '(_, x2, x3) => x2 = b2 /\ x3 = b3)) in Ht; auto.
    intros done h rest [[x1 x2] x3] [[y1 y2] y3] E (-> & ->) Hs. apply zrange_split in E as (_ & Hh & _). replace h with (Z.of_nat (Z.to_nat h)) in Hs by lia.
    eapply (track_one_pairs pixdist ncam ncam_ok) in Hs as (-> & -> & _); auto. }
  apply (track_all_ok pixdist ncam ncam_ok) in Ht as (A1 & A2 & A3 & A4 & A5 & A6 & A7 & A8); auto. destruct E as (-> & ->).
  apply bind_ok in H as (cur & Hd & H). apply bind_ok in H as ([[cur' nxt'] cnt'] & Hl & H). injection H as <- <- <- <-.
  injection A7 as Y1 Y2 Y3. destruct F1 as (FN & _). apply link_all_K in Hl as (L1 & L2).
  apply (decide_all_K (Z.of_nat (length (fr_path b2)))) in Hd; [| |lia].
  - split; [|split; auto].
    + repeat (split; auto). cbn [set_path fr_path]. eapply F2_trans; [|eapply F2_trans; [exact Hd|exact L1]].
      apply rows_K; auto. intros h p Hp. destruct (A8 h p Hp) as (q & Q1 & Q2 & _). eauto using core_K.
    + repeat (split; auto).
  - intros h p Hp. assert (h < length (fr_path d1))%nat by (apply nth_error_Some; congruence).
    destruct (nth_error (fr_path b1) h) as [p0|] eqn:E0; [|apply nth_error_None in E0; lia].
    destruct (A8 h p0 E0) as (q & Q1 & Q2 & Q3). assert (q = p) as -> by congruence. apply Q3. lia.
Qed.

Lemma back_link_all_K p0 p3 N num cur nxt cur' nxt' cnt : (forall h p, nth_error cur h = Some p -> backrow N p) ->
  num = Z.of_nat (length cur) ->
  back_link_all extrap angle tp p0 p3 num cur nxt = Ok (cur', nxt', cnt) -> Forall2 Kp cur cur' /\ Forall2 KL nxt nxt'.
Proof.
  intros HB -> H. unfold back_link_all in H.
  apply (foldM_inv (fun done st => let '(c, n, _) := st in Forall2 Kp cur c /\ Forall2 KL nxt n /\ forall h, (length done <= h)%nat -> nth_error c h = nth_error cur h)) in H; [| split; [apply F2_refl|split; [apply KL_refl|auto]] |].
  { destruct H as (A & B & _); auto. }
  intros done h rest [[c n] k] [[c1 n1] k1] E (I1 & I2 & I3) Hs. apply zrange_split in E as (_ & Hh & Eh). cbn in Eh. replace h with (Z.of_nat (length done)) in * by lia.
  unfold back_link_one in Hs.
  apply bind_ok in Hs as (p & Hp & Hs). apply bind_ok in Hs as ([c2 n2] & Hc & Hs). apply bind_ok in Hs as (p1 & _ & Hs). injection Hs as <- <- <-.
  rewrite app_length. cbn [length].
  assert (SAME : Forall2 Kp cur c /\ Forall2 KL nxt n /\ forall h, (length done + 1 <= h)%nat -> nth_error c h = nth_error cur h).
  { split; auto. split; auto. intros h' Hh'. apply I3. lia. }
  destruct (Z.gtb_spec (p_inlist p) 0) as [Hi|_]; [|injection Hc as <- <-; auto].
  apply bind_ok in Hc as (kk & Hk & Hc). apply bind_ok in Hc as (d & _ & Hc). apply bind_ok in Hc as (r & Hr & Hc).
  assert (Hp0 : nth_error cur (length done) = Some p). { apply pyget_ok_iff in Hp; [|lia]. rewrite Nat2Z.id in Hp. rewrite <- I3; auto. }
  destruct (HB _ _ Hp0) as ((C1 & C2 & C3 & C4) & C5). apply pyget_ok_iff in Hk; [|lia]. assert (K0 : 0 <= kk < N) by (eapply (C4 O); [cbn; lia|exact Hk]).
  assert (GO : forall c3 n3, pyset c (Z.of_nat (length done)) (take_back p d kk) = Ok c3 -> pyset n kk (set_next r (Z.of_nat (length done))) = Ok n3 ->
    Forall2 Kp cur c3 /\ Forall2 KL nxt n3 /\ forall h, (length done + 1 <= h)%nat -> nth_error c3 h = nth_error cur h).
  { intros c3 n3 Hc3 Hn3. destruct (pyset_at _ _ _ _ _ Hp Hc3) as (i & Hii & Ei). destruct (pyset_at _ _ _ _ _ Hr Hn3) as (j & Hj & ->).
    split; [|split].
    - subst c3. eapply F2_upd; eauto. split; auto. split; auto. intros (A & B). split; auto. right. cbn [take_back p_prev]. lia.
    - eapply F2_updL; eauto. split; [apply set_next_K; lia|reflexivity].
    - intros h' Hh'. apply pyset_ok in Hc3 as (_ & ->); [|lia]. rewrite nth_error_upd_neq by lia. apply I3. lia. }
  destruct (_ && _).
  - apply bind_ok in Hc as (c3 & Hc3 & Hc). apply bind_ok in Hc as (n3 & Hn3 & Hc). injection Hc as <- <-. auto.
  - destruct (_ && _); [|injection Hc as <- <-; auto]. apply bind_ok in Hc as (q0 & _ & Hc). apply bind_ok in Hc as (q4 & _ & Hc).
    destruct (angle _ _ _). destruct (acceptable _ _ _); [|injection Hc as <- <-; auto].
    apply bind_ok in Hc as (c3 & Hc3 & Hc). apply bind_ok in Hc as (n3 & Hn3 & Hc). injection Hc as <- <-. auto.
Qed.
Lemma back_keeps buf0 b1 b2 b3 c1 c2 cnt : frame_ok b1 -> frame_ok b2 -> (forall p, In p (fr_path b1) -> p_inlist p = 0) ->
  bstep buf0 b1 b2 b3 = Ok (c1, c2, cnt) -> Kf b1 c1 /\ Kf b2 c2 /\ Forall2 KL (fr_path b2) (fr_path c2).
Proof.
  intros F1 F2 HI H. unfold Model_track.trackback_step in H. apply bind_ok in H as ([d1 d2] & Ht & H).
  assert (E : (fr_corr d1, fr_targ d1, fr_numt d1) = (fr_corr b1, fr_targ b1, fr_numt b1)).
  { apply (foldM_inv (fun _ '(x1, _) => (fr_corr x1, fr_targ x1, fr_numt x1) = (fr_corr b1, fr_targ b1, fr_numt b1))) in Ht; auto.
    intros done h rest [x1 x2] [y1 y2] _ I Hs. unfold Model_track.trackback_one in Hs. apply bind_ok in Hs as (p & _ & Hs). 
    destruct (_ || _); [injection Hs as <- <-; exact I|]. cbv zeta in Hs. repeat (apply bind_ok in Hs as (? & ? & Hs)). destruct x4. apply bind_ok in Hs as (? & _ & Hs). injection Hs as <- <-. exact I. }
  apply (trackback_all_ok pixdist ncam ncam_ok) in Ht as (-> & A1 & A2 & A3); auto.
  apply bind_ok in H as (cur & Hd & H). apply bind_ok in H as ([[cur' nxt'] cnt'] & Hl & H). injection H as <- <- <-.
  destruct F1 as (FN & _). rewrite A1, FN, <- A2 in Hd, Hl. set (N := Z.of_nat (length (fr_path b2))) in *.
  apply (back_decide_ok psort psort_perm ncam ncam_ok N) in Hd as (D1 & D2).
  2:{ intros h p Hp. assert (h < length (fr_path d1))%nat by (apply nth_error_Some; congruence).
      destruct (nth_error (fr_path b1) h) as [p0|] eqn:E0; [|apply nth_error_None in E0; lia].
      destruct (A3 h p0 E0) as (q & Q1 & Q2 & Q3). assert (q = p) as -> by congruence. exact Q3. }
  apply (back_link_all_K _ _ N) in Hl as (L1 & L2); [| |lia].
  - injection E as E1 E2 E3. split.
    + repeat (split; auto). cbn [set_path fr_path]. eapply F2_trans; [|exact L1]. apply rows_K; [lia|].
      intros h p Hp. destruct (A3 h p Hp) as (q & Q1 & Q2 & _). destruct (D2 h q Q1) as (r & R1 & R2 & _). exists r. split; auto.
      apply core_K. eapply same_core_trans; eauto.
    + split; [|exact L2]. repeat (split; auto). now apply KL_K.
  - intros h p Hp. assert (h < length cur)%nat by (apply nth_error_Some; congruence).
    destruct (nth_error (fr_path d1) h) as [p0|] eqn:E0; [|apply nth_error_None in E0; lia].
    destruct (D2 h p0 E0) as (q & Q1 & Q2 & Q3). assert (q = p) as -> by congruence. exact Q3.
Qed.
End Keep.
