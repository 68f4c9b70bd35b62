(** One backward tracking step, for arbitrary geometry. *)
From Coq Require Import Permutation.
From Verif Require Import Base Lib F64 Model_corr Model_cand Spec_cand Model_track Spec_track Proof_track_search Proof_track_rank Proof_track_reg Proof_track_link Proof_track_step.
Local Open Scope Z_scope.

Section Back.
Variable psort : list (f64 * Z) -> list (f64 * Z).
Hypothesis psort_perm : forall l, Permutation l (psort l).
Variable pixdist : f64 -> f64 -> f64 -> f64 -> f64.
Variable ncam : nat.
Hypothesis ncam_ok : (1 <= ncam <= 4)%nat.
Variables imx imy : Z.
Variable point_to_pixel : Z -> vec -> f64 * f64.
Variable searchquader : Z -> vec -> f64 * f64 * f64 * f64.
Variable moving : vec -> vec -> vec.
Variable extrap : vec -> vec -> vec -> vec.
Variable vec_subt : vec -> vec -> vec.
Variable vec_diff_norm : vec -> vec -> f64.
Variable angle_acc : vec -> vec -> vec -> f64 * f64.
Variable to_flat : Z -> f64 -> f64 -> f64 * f64.
Variable point_position : list (f64 * f64) -> vec.
Variable tp : tpar.
Variable vl : vol.
Let nc := Z.of_nat ncam.
Local Notation trackback_one := (trackback_one pixdist nc imx imy point_to_pixel searchquader moving vec_subt vec_diff_norm angle_acc to_flat point_position tp vl).
Local Notation trackback_step := (trackback_step psort pixdist nc imx imy point_to_pixel searchquader moving extrap vec_subt vec_diff_norm angle_acc to_flat point_position tp vl).

(** the volume test 0 < y < 0 never holds, so nothing is ever added *)
Lemma empty_volume v : in_volume vl fzero fzero v = false.
Proof.
  destruct v as [[x y] z]. unfold in_volume. destruct (flt fzero y) eqn:E.
  - rewrite (flt_asym _ _ E). now rewrite !andb_false_r.
  - now rewrite !andb_false_r.
Qed.

Lemma trackback_one_ok buf0 b1 b2 h b1' b2' : 0 <= h -> frame_ok b2 ->
  (forall p, nth_error (fr_path b1) (Z.to_nat h) = Some p -> p_inlist p = 0) ->
  trackback_one buf0 (b1, b2) h = Ok (b1', b2') ->
  b2' = b2 /\ fr_num b1' = fr_num b1 /\
  exists p q, nth_error (fr_path b1) (Z.to_nat h) = Some p /\ fr_path b1' = upd (fr_path b1) (Z.to_nat h) q /\
    same_core p q /\ cands_ok (Z.of_nat (length (fr_path b2))) q /\
    (p_inlist q <> 0 -> p_prev q = PREV_NONE).
Proof.
  intros Hh F2 HI H. unfold Model_track.trackback_one in H.
  apply bind_ok in H as (p & Hp & H). apply pyget_ok_iff in Hp; auto.
  destruct ((p_next p <? 0) || negb (p_prev p =? -1)) eqn:Ec.
  { injection H as <- <-. split; auto. split; auto. exists p, p. split; auto. split; [now rewrite upd_same|].
    split; [apply same_core_refl|]. rewrite (HI p Hp). split; [|congruence].
    unfold cands_ok. rewrite (HI p Hp). repeat split; try lia. }
  apply orb_false_iff in Ec as (E1 & E2). apply negb_false_iff, Z.eqb_eq in E2.
  apply bind_ok in H as (q0 & _ & H). apply bind_ok in H as (w & Hw & H). apply bind_ok in H as (p1 & Hwh & H).
  set (N := Z.of_nat (length (fr_path b2))) in *.
  assert (W : same_core p p1 /\ cands_ok N p1).
  { apply (while_inv (fun q => same_core p q /\ cands_ok N q)) in Hwh; auto.
    - split; [repeat split|]. unfold cands_ok, reset_inlist. cbn [p_inlist p_decis p_link]. repeat split; try lia.
    - intros f s s1 Hf Hgo (S1 & S2) Hb. apply bind_ok in Hb as (q & Hq & Hb).
      apply negb_true_iff, Z.eqb_neq in Hgo. unfold TR_UNUSED in Hgo.
      pose proof (volume_ids pixdist ncam ncam_ok imx imy searchquader _ _ _ _ f F2 Hw Hf) as V.
      apply pyget_ok_iff in Hq; [|lia].
      assert (Z.to_nat (ftnr f) < length (fr_path b2))%nat by (apply nth_error_Some; congruence).
      destruct (pos3d_in_bounds tp _); [|injection Hb as <-; auto]. destruct (angle_acc _ _ _) as [an ac].
      destruct (acceptable tp an ac); [|injection Hb as <-; auto].
      apply (register_link_ok N) in Hb as (A & B); auto; [|unfold N; lia]. split; auto. eapply same_core_trans; eauto. }
  clear Hwh. destruct W as (W1 & W2). apply bind_ok in H as ([p2 b2x] & Hb & H).
  assert (E : p2 = p1 /\ b2x = b2).
  { destruct (_ && _); [|injection Hb as <- <-; auto]. apply bind_ok in Hb as ([[quali v2] philf] & _ & Hb).
    destruct (2 <=? quali); [|injection Hb as <- <-; auto]. rewrite empty_volume in Hb. cbn [andb] in Hb.
    injection Hb as <- <-. auto. }
  destruct E as (-> & ->). apply bind_ok in H as (path & Hpath & H). injection H as <- <-.
  apply pyset_ok in Hpath as (L & ->); auto. split; auto. split; auto. exists p, p1. cbn [set_path fr_path].
  split; auto. split; auto. split; auto. split; auto. intros _. destruct W1 as (_ & -> & _). exact E2.
Qed.

Lemma trackback_all_ok buf0 b1 b2 c1 c2 : frame_ok b1 -> frame_ok b2 ->
  (forall p, In p (fr_path b1) -> p_inlist p = 0) ->
  foldM (trackback_one buf0) (zrange 0 (fr_num b1)) (b1, b2) = Ok (c1, c2) ->
  c2 = b2 /\ fr_num c1 = fr_num b1 /\ length (fr_path c1) = length (fr_path b1) /\
  forall h p, nth_error (fr_path b1) h = Some p -> exists q, nth_error (fr_path c1) h = Some q /\ same_core p q /\
    cands_ok (Z.of_nat (length (fr_path b2))) q /\ (p_inlist q <> 0 -> p_prev q = PREV_NONE).
Proof.
  intros (F1 & _) F2 HI H.
  apply (foldM_inv (fun done '(c1, c2) => c2 = b2 /\ fr_num c1 = fr_num b1 /\ length (fr_path c1) = length (fr_path b1) /\
    forall h p, nth_error (fr_path b1) h = Some p -> exists q, nth_error (fr_path c1) h = Some q /\
      ((length done <= h)%nat -> q = p) /\
      ((h < length done)%nat -> same_core p q /\
        cands_ok (Z.of_nat (length (fr_path b2))) q /\ (p_inlist q <> 0 -> p_prev q = PREV_NONE)))) in H.
  - destruct H as (A & B & C & D). split; auto. split; auto. split; auto. intros h p Hp.
    destruct (D h p Hp) as (q & Q1 & _ & Q2). exists q. split; auto. apply Q2. rewrite zrange_length.
    assert (h < length (fr_path b1))%nat by (apply nth_error_Some; congruence). lia.
  - split; auto. split; auto. split; auto. intros h p Hp. exists p. split; auto. split; auto. simpl; lia.
  - intros done h rest [d1 d2] [e1 e2] E (-> & B & C & D) Hs. apply zrange_split in E as (_ & Hh & Eh).
    replace h with (Z.of_nat (length done)) in * by lia.
    apply trackback_one_ok in Hs as (-> & B' & (p & q & Hp & Hq & S1 & S2 & S3)); auto; try lia.
    2:{ rewrite Nat2Z.id. intros p Hp. assert (length done < length (fr_path d1))%nat by (apply nth_error_Some; congruence).
        destruct (nth_error (fr_path b1) (length done)) as [p0|] eqn:E0; [|apply nth_error_None in E0; lia].
        destruct (D _ _ E0) as (q & Q1 & Q2 & _). specialize (Q2 (le_n _)). subst q.
        apply HI. assert (p0 = p) as <- by congruence. eapply nth_error_In; eauto. }
    rewrite Nat2Z.id in *. split; auto. split; [congruence|]. rewrite Hq, upd_length, app_length. cbn [length]. split; auto.
    intros h' p' Hp'. destruct (D h' p' Hp') as (q' & Q1 & Q2 & Q3).
    destruct (Nat.eq_dec h' (length done)) as [->|N].
    + exists q. rewrite nth_error_upd_eq by (apply nth_error_Some; congruence). split; auto. split; [lia|].
      specialize (Q2 (le_n _)). subst q'. assert (p' = p) as -> by congruence. auto.
    + exists q'. rewrite nth_error_upd_neq by auto. split; auto. split; [intros; apply Q2; lia|]. intros; apply Q3; lia.
Qed.

Definition backrow (N : Z) (p : pinfo) : Prop :=
  cands_ok N p /\ (p_inlist p <> 0 -> p_prev p = PREV_NONE).

Lemma back_decide_ok N cur cur' : (forall h p, nth_error cur h = Some p -> backrow N p) ->
  back_decide psort (Z.of_nat (length cur)) cur = Ok cur' ->
  length cur' = length cur /\
  forall h p, nth_error cur h = Some p -> exists q, nth_error cur' h = Some q /\ same_core p q /\ backrow N q.
Proof.
  intros HC H. unfold back_decide in H.
  apply (foldM_inv (fun done s => length s = length cur /\
    forall h p, nth_error cur h = Some p -> exists q, nth_error s h = Some q /\ same_core p q /\ backrow N q)) in H; auto.
  - split; auto. intros h p Hp. exists p. split; auto. split; [apply same_core_refl|eauto].
  - intros done h rest s s1 E (L & HI) Hs. apply zrange_split in E as (_ & Hh & _).
    apply bind_ok in Hs as (p & Hp & Hs). apply pyget_ok_iff in Hp; [|lia]. rewrite Z.gtb_ltb in Hs.
    destruct (Z.ltb_spec 0 (p_inlist p)) as [Hi|_]; [|injection Hs as <-; auto].
    apply bind_ok in Hs as ([a' b'] & Ha & Hs). apply pyset_ok in Hs as (Ls & ->); [|lia]. cbn [fst snd].
    rewrite upd_length. split; auto. intros k pk Hk. destruct (HI k pk Hk) as (q & Q1 & Q2 & Q3).
    rewrite nth_error_upd. destruct (Nat.eqb_spec k (Z.to_nat h)) as [->|].
    2:{ exists q. auto. }
    apply Nat.ltb_lt in Ls. rewrite Ls. eexists. split; [reflexivity|]. assert (q = p) as -> by congruence.
    split; [exact Q2|]. destruct Q3 as ((A & B & C & D) & P).
    split; [|exact P]. unfold cands_ok. cbn [p_inlist p_decis p_link].
    destruct (sort_links_ok psort psort_perm (p_inlist p) (p_decis p) (p_link p) ltac:(lia) ltac:(lia))
      as (a2 & b2 & E & L1 & L2 & EC & S1 & S2).
    rewrite E in Ha. injection Ha as <- <-. rewrite L1, L2. split; auto. split; auto. split; auto.
    intros j v Hj Hv.
    assert (IN : exists d, In (d, v) (combine (firstn (Z.to_nat (p_inlist p)) a2) (firstn (Z.to_nat (p_inlist p)) b2))).
    { assert (Hv' : nth_error (firstn (Z.to_nat (p_inlist p)) b2) j = Some v) by (rewrite nth_error_firstn by lia; auto).
      destruct (nth_error (firstn (Z.to_nat (p_inlist p)) a2) j) as [d|] eqn:Ed.
      2:{ apply nth_error_None in Ed. rewrite firstn_length in Ed. lia. }
      exists d. revert Hv' Ed. generalize (firstn (Z.to_nat (p_inlist p)) a2) (firstn (Z.to_nat (p_inlist p)) b2). clear.
      revert j. induction j as [|j IH]; intros [|x l] [|y m] H1 H2; try discriminate; simpl in *.
      - injection H1 as ->. injection H2 as ->. auto.
      - right. eapply IH; eauto. }
    destruct IN as (d & IN). rewrite EC in IN.
    eapply Permutation_in in IN; [|symmetry; apply psort_perm]. apply in_combine_r in IN.
    apply In_nth_error in IN as (i & Hi'). assert (Li : (i < length (firstn (Z.to_nat (p_inlist p)) (p_link p)))%nat) by (apply nth_error_Some; congruence).
    rewrite firstn_length in Li. rewrite nth_error_firstn in Hi' by lia. apply (D i v); auto. lia.
Qed.

Definition Inv3 (N : Z) (cur0 nxt0 : list pinfo) (m : nat) (st : list pinfo * list pinfo * Z) : Prop :=
  let '(cur, nxt, cnt) := st in
  length cur = length cur0 /\ length nxt = length nxt0 /\ back_mutual cur nxt /\
  (forall h, (m <= h)%nat -> nth_error cur h = nth_error cur0 h) /\
  (forall h p, nth_error cur0 h = Some p -> exists q, nth_error cur h = Some q /\ p_x q = p_x p /\ p_next q = p_next p /\
     (p_prev p <> PREV_NONE -> p_prev q = p_prev p)) /\
  (forall k r, nth_error nxt0 k = Some r -> exists s, nth_error nxt k = Some s /\ p_x s = p_x r /\ p_inlist s = p_inlist r /\ p_prev s = p_prev r /\
     (p_next r <> NEXT_NONE -> p_next s = p_next r)).

Lemma back_link_ok N p0 p3 cur0 nxt0 m st st' : N = Z.of_nat (length nxt0) ->
  (forall h p, nth_error cur0 h = Some p -> backrow N p) ->
  (m < length cur0)%nat -> Inv3 N cur0 nxt0 m st ->
  back_link_one extrap angle_acc tp p0 p3 st (Z.of_nat m) = Ok st' -> Inv3 N cur0 nxt0 (S m) st'.
Proof.
  destruct st as [[cur nxt] cnt]. intros HN HB Hm (I1 & I2 & I3 & I4 & I5 & I6) H. unfold back_link_one in H.
  apply bind_ok in H as (p & Hp & H). apply pyget_ok_iff in Hp; [|lia]. rewrite Nat2Z.id in Hp.
  assert (Hp0 : nth_error cur0 m = Some p) by (rewrite <- I4; auto).
  destruct (HB m p Hp0) as ((B1 & B2 & B3 & B4) & B5).
  assert (SAME : Inv3 N cur0 nxt0 (S m) (cur, nxt, cnt)).
  { split; auto. split; auto. split; auto. split; auto. intros h Hh. apply I4. lia. }
  apply bind_ok in H as ([cur1 nxt1] & Hc & H). apply bind_ok in H as (pp & _ & H). injection H as <-.
  assert (G : Inv3 N cur0 nxt0 (S m) (cur1, nxt1, cnt)); [|exact G].
  rewrite Z.gtb_ltb in Hc. destruct (Z.ltb_spec 0 (p_inlist p)) as [Hi|_]; [|injection Hc as <- <-; auto].
  apply bind_ok in Hc as (k & Hk & Hc). apply bind_ok in Hc as (d & _ & Hc). apply bind_ok in Hc as (r & Hr & Hc).
  apply pyget_ok_iff in Hk; [|lia]. assert (Kr : 0 <= k < N) by (apply (B4 O k); auto).
  apply pyget_ok_iff in Hr; [|lia]. specialize (B5 ltac:(lia)).
  assert (TAKE : p_next r = NEXT_NONE ->
     (do cur <- pyset cur (Z.of_nat m) (take_back p d k); do nxt <- pyset nxt k (set_next r (Z.of_nat m)); Ok (cur, nxt)) = Ok (cur1, nxt1) ->
     Inv3 N cur0 nxt0 (S m) (cur1, nxt1, cnt)).
  { intros Hn Hx. apply bind_ok in Hx as (c' & Hc' & Hx). apply bind_ok in Hx as (n' & Hn' & Hx). injection Hx as <- <-.
    apply pyset_ok in Hc' as (Lc & ->); [|lia]. apply pyset_ok in Hn' as (Ln & ->); [|lia]. rewrite Nat2Z.id in *.
    split; [now rewrite upd_length|]. split; [now rewrite upd_length|]. split; [|split; [|split]].
    - intros h k'. rewrite prev_of_upd, next_of_upd by auto. cbn [take_back p_prev set_next p_next].
      assert (PM : prev_of cur m = PREV_NONE) by (rewrite (prev_of_nth _ _ _ Hp); auto).
      assert (NK : next_of nxt (Z.to_nat k) = NEXT_NONE) by (rewrite (next_of_nth _ _ _ Hr); auto).
      destruct (Nat.eqb_spec h m) as [->|Nh], (Nat.eqb_spec k' (Z.to_nat k)) as [->|Nk].
      + split; auto. intros _. lia.
      + split; [intros E; exfalso; apply Nk; lia|]. intros E. apply I3 in E. rewrite PM in E. unfold PREV_NONE in E. lia.
      + split; [|intros E; exfalso; apply Nh; lia]. intros E. apply I3 in E. rewrite NK in E. unfold NEXT_NONE in E. lia.
      + apply I3.
    - intros h Hh. rewrite nth_error_upd_neq by lia. apply I4. lia.
    - intros h ph Hh. destruct (I5 h ph Hh) as (q & Q1 & Q2 & Q3 & Q4). destruct (Nat.eq_dec h m) as [->|N'].
      + exists (take_back p d k). rewrite nth_error_upd_eq by auto. cbn [take_back p_x p_next p_prev].
        assert (ph = p) as -> by congruence. repeat split; auto. congruence.
      + exists q. rewrite nth_error_upd_neq by auto. auto.
    - intros k' rr Hrr. destruct (I6 k' rr Hrr) as (s & S1 & S2 & Si & S3 & S4). destruct (Nat.eq_dec k' (Z.to_nat k)) as [->|N'].
      + exists (set_next r (Z.of_nat m)). rewrite nth_error_upd_eq by auto. cbn [set_next p_x p_prev p_next p_inlist].
        assert (s = r) as -> by congruence. repeat split; auto. intros E. specialize (S4 E). congruence.
      + exists s. rewrite nth_error_upd_neq by auto. auto. }
  destruct (_ && _) eqn:E1.
  - apply andb_true_iff in E1 as (_ & E1). apply Z.eqb_eq in E1. apply TAKE; auto.
  - destruct (negb _ && _) eqn:E2; [|injection Hc as <- <-; auto].
    apply andb_true_iff in E2 as (_ & E2). apply Z.eqb_eq in E2.
    apply bind_ok in Hc as (q0 & _ & Hc). apply bind_ok in Hc as (q4 & _ & Hc).
    destruct (angle_acc _ _ _) as [an ac]. destruct (acceptable tp an ac); [|injection Hc as <- <-; auto].
    apply TAKE; auto.
Qed.

Theorem trackback_step_links buf0 b1 b2 b3 c1 c2 cnt :
  frame_ok b1 -> frame_ok b2 ->
  (forall p, In p (fr_path b1) -> p_inlist p = 0) ->
  back_mutual (fr_path b1) (fr_path b2) ->
  trackback_step buf0 b1 b2 b3 = Ok (c1, c2, cnt) ->
  back_mutual (fr_path c1) (fr_path c2) /\
  length (fr_path c1) = length (fr_path b1) /\ length (fr_path c2) = length (fr_path b2) /\
  (forall h p, nth_error (fr_path b1) h = Some p -> exists q, nth_error (fr_path c1) h = Some q /\ p_x q = p_x p /\
     p_next q = p_next p /\ (p_prev p <> PREV_NONE -> p_prev q = p_prev p)) /\
  (forall k r, nth_error (fr_path b2) k = Some r -> exists s, nth_error (fr_path c2) k = Some s /\ p_x s = p_x r /\
     p_inlist s = p_inlist r /\ p_prev s = p_prev r /\ (p_next r <> NEXT_NONE -> p_next s = p_next r)) /\
  (fr_num c2, fr_corr c2, fr_targ c2) = (fr_num b2, fr_corr b2, fr_targ b2).
Proof.
  intros F1 F2 HI HM H. unfold Model_track.trackback_step in H.
  apply bind_ok in H as ([d1 d2] & Ht & H). apply trackback_all_ok in Ht as (-> & A1 & A2 & A3); auto.
  apply bind_ok in H as (cur & Hd & H). apply bind_ok in H as ([[cur' nxt'] cnt'] & Hl & H). injection H as <- <- <-.
  pose proof F1 as (FN & _). rewrite A1, FN, <- A2 in Hd, Hl. set (N := Z.of_nat (length (fr_path b2))) in *.
  apply (back_decide_ok N) in Hd as (D1 & D2).
  2:{ intros h p Hp. assert (h < length (fr_path d1))%nat by (apply nth_error_Some; congruence).
      destruct (nth_error (fr_path b1) h) as [p0|] eqn:E0; [|apply nth_error_None in E0; lia].
      destruct (A3 h p0 E0) as (q & Q1 & Q2 & Q3 & Q4). assert (q = p) as -> by congruence. split; auto. }
  assert (CORE : forall h p, nth_error (fr_path b1) h = Some p -> exists q, nth_error cur h = Some q /\ same_core p q /\ backrow N q).
  { intros h p Hp. destruct (A3 h p Hp) as (q & Q1 & Q2 & _). destruct (D2 h q Q1) as (r & R1 & R2 & R3). exists r.
    split; auto. split; auto. eapply same_core_trans; eauto. }
  assert (BK : forall h q, nth_error cur h = Some q -> exists p, nth_error (fr_path b1) h = Some p /\ same_core p q /\ backrow N q).
  { intros h q Hq. assert (h < length cur)%nat by (apply nth_error_Some; congruence).
    destruct (nth_error (fr_path b1) h) as [p|] eqn:E0; [|apply nth_error_None in E0; lia].
    destruct (CORE h p E0) as (q' & Q1 & Q2 & Q3). assert (q' = q) as -> by congruence. eauto. }
  assert (M0 : back_mutual cur (fr_path b2)).
  { intros h k. specialize (HM h k). cut (prev_of cur h = prev_of (fr_path b1) h); [intros ->; exact HM|].
    unfold prev_of. destruct (nth_error cur h) as [q|] eqn:Eq.
    - destruct (BK h q Eq) as (p & -> & (_ & -> & _) & _). reflexivity.
    - assert (nth_error (fr_path b1) h = None) as -> by (apply nth_error_None; apply nth_error_None in Eq; lia). reflexivity. }
  unfold back_link_all in Hl.
  apply (foldM_inv (fun done st => Inv3 N cur (fr_path b2) (length done) st)) in Hl.
  - destruct Hl as (I1 & I2 & I3 & I4 & I5 & I6). cbn [set_path fr_path fr_num fr_corr fr_targ].
    split; auto. split; [lia|]. split; auto. split; [|split; auto].
    intros h p Hp. destruct (CORE h p Hp) as (q & Q1 & (Q2 & Q3 & Q4 & _) & _). destruct (I5 h q Q1) as (s & S1 & S2 & S3 & S4).
    exists s. rewrite Q3 in S4. repeat split; auto; congruence.
  - split; auto. split; auto. split; auto. split; auto. split.
    + intros h p Hp. exists p. auto.
    + intros k r Hr. exists r. auto.
  - intros done h rest s s1 E HI3 Hs. apply zrange_split in E as (_ & Hh & Eh). rewrite app_length. cbn [length].
    replace (length done + 1)%nat with (S (length done)) by lia.
    replace h with (Z.of_nat (length done)) in * by lia.
    eapply back_link_ok; eauto; [|lia]. intros h' p' Hp'. destruct (BK h' p' Hp') as (_ & _ & _ & HX). auto.
Qed.
End Back.
