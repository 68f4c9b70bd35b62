(** Backward step: every new link respects the limits. *)
From Coq Require Import Permutation.
From Verif Require Import Base Lib F64 Model_corr Model_cand Spec_cand Model_track Spec_track Proof_track_search Proof_track_rank Proof_track_reg Proof_track_link Proof_track_step Proof_track_back Proof_track_just.
Local Open Scope Z_scope.

Section JustBack.
Variable psort : list (f64 * Z) -> list (f64 * Z).
Hypothesis psort_perm : forall l, Permutation l (psort l).
Variable pixdist : f64 -> f64 -> f64 -> f64 -> f64.
Variable ncam : nat.
Hypothesis ncam_ok : (1 <= ncam <= 4)%nat.
Variables imx imy : Z.
Variable point_to_pixel : Z -> vec -> f64 * f64.
Variable searchquader : Z -> vec -> f64 * f64 * f64 * f64.
Variable moving : vec -> vec -> vec.
Variable extrap : vec -> vec -> vec -> vec.
Variable vec_subt : vec -> vec -> vec.
Variable vec_diff_norm : vec -> vec -> f64.
Variable angle_acc : vec -> vec -> vec -> f64 * f64.
Variable to_flat : Z -> f64 -> f64 -> f64 * f64.
Variable point_position : list (f64 * f64) -> vec.
Variable tp : tpar.
Variable vl : vol.
Let nc := Z.of_nat ncam.
Local Notation trackback_one := (trackback_one pixdist nc imx imy point_to_pixel searchquader moving vec_subt vec_diff_norm angle_acc to_flat point_position tp vl).
Local Notation trackback_step := (trackback_step psort pixdist nc imx imy point_to_pixel searchquader moving extrap vec_subt vec_diff_norm angle_acc to_flat point_position tp vl).

Definition why_back (buf0 b2 : frame) (p : pinfo) (v : Z) : Prop :=
  0 <= p_next p /\ p_prev p = PREV_NONE /\
  exists q q0, nth_error (fr_path b2) (Z.to_nat v) = Some q /\ nth_error (fr_path buf0) (Z.to_nat (p_next p)) = Some q0 /\
    within_step_limits tp (vec_subt (p_x p) (p_x q)) /\
    smooth_motion tp (angle_acc (p_x p) (moving (p_x q0) (p_x p)) (p_x q)).

Lemma trackback_one_why buf0 b1 b2 h b1' b2' p : 0 <= h -> frame_ok b2 ->
  nth_error (fr_path b1) (Z.to_nat h) = Some p -> p_inlist p = 0 ->
  trackback_one buf0 (b1, b2) h = Ok (b1', b2') ->
  exists q, fr_path b1' = upd (fr_path b1) (Z.to_nat h) q /\ reasons (why_back buf0 b2 p) q.
Proof.
  intros Hh F2 Hp HI H. unfold Model_track.trackback_one in H.
  apply bind_ok in H as (p' & Hp' & H). apply pyget_ok_iff in Hp'; auto. assert (p' = p) as -> by congruence. clear Hp'.
  destruct ((p_next p <? 0) || negb (p_prev p =? -1)) eqn:Ec.
  { injection H as <- <-. exists p. split; [now rewrite upd_same|]. intros j v Hj. lia. }
  apply orb_false_iff in Ec as (E1 & E2). apply negb_false_iff, Z.eqb_eq in E2. apply Z.ltb_ge in E1.
  apply bind_ok in H as (q0 & Hq0 & H). apply pyget_ok_iff in Hq0; auto.
  apply bind_ok in H as (w & Hw & H). apply bind_ok in H as (p1 & Hwh & H).
  set (N := Z.of_nat (length (fr_path b2))) in *.
  change (p_x (reset_inlist p)) with (p_x p) in *. change (p_next (reset_inlist p)) with (p_next p) in *.
  assert (W : reasons (why_back buf0 b2 p) p1).
  { apply (while_inv (fun q => cands_ok N q /\ reasons (why_back buf0 b2 p) q)) in Hwh; [apply Hwh| |].
    - split; [|intros j v Hj; cbn [reset_inlist p_inlist] in Hj; lia].
      unfold cands_ok, reset_inlist. cbn [p_inlist p_decis p_link]. repeat split; try lia.
    - intros f s s1 Hf Hgo (S1 & S2) Hb. apply bind_ok in Hb as (q & Hq & Hb).
      apply negb_true_iff, Z.eqb_neq in Hgo. unfold TR_UNUSED in Hgo.
      pose proof (volume_ids pixdist ncam ncam_ok imx imy searchquader _ _ _ _ f F2 Hw Hf) as V.
      apply pyget_ok_iff in Hq; [|lia].
      assert (Z.to_nat (ftnr f) < length (fr_path b2))%nat by (apply nth_error_Some; congruence).
      destruct (pos3d_in_bounds tp _) eqn:Eb; [|injection Hb as <-; auto]. destruct (angle_acc _ _ _) as [an ac] eqn:Ea.
      destruct (acceptable tp an ac) eqn:Eac; [|injection Hb as <-; auto]. pose proof Hb as Hb'.
      apply (register_link_ok N) in Hb' as (A & B); auto; [|unfold N; lia]. split; auto.
      apply (register_reason _ N _ _ _ _ S1 S2) in Hb; auto.
      split; auto. split; auto. exists q, q0. split; auto. split; auto.
      split; [now apply in_bounds_plain|]. apply acceptable_plain in Eac. rewrite Ea. exact Eac. }
  apply bind_ok in H as ([p2 b2x] & Hb & H).
  assert (E : p2 = p1).
  { destruct (_ && _); [|injection Hb as <- <-; auto]. apply bind_ok in Hb as ([[quali v2] philf] & _ & Hb).
    destruct (2 <=? quali); [|injection Hb as <- <-; auto]. rewrite empty_volume in Hb. cbn [andb] in Hb.
    injection Hb as <- <-. auto. }
  subst p2. apply bind_ok in H as (path & Hpath & H). injection H as <- <-.
  apply pyset_ok in Hpath as (L & ->); auto. exists p1. cbn [set_path fr_path]. auto.
Qed.

Lemma trackback_all_why buf0 b1 b2 c1 c2 : frame_ok b1 -> frame_ok b2 ->
  (forall p, In p (fr_path b1) -> p_inlist p = 0) ->
  foldM (trackback_one buf0) (zrange 0 (fr_num b1)) (b1, b2) = Ok (c1, c2) ->
  forall h p, nth_error (fr_path b1) h = Some p -> exists q, nth_error (fr_path c1) h = Some q /\ reasons (why_back buf0 b2 p) q.
Proof.
  intros (F1 & _) F2 HI H.
  apply (foldM_inv (fun done '(c1, c2) => c2 = b2 /\
    forall h p, nth_error (fr_path b1) h = Some p -> exists q, nth_error (fr_path c1) h = Some q /\
      ((length done <= h)%nat -> q = p) /\ ((h < length done)%nat -> reasons (why_back buf0 b2 p) q))) in H.
  - destruct H as (A & D). intros h p Hp.
    destruct (D h p Hp) as (q & Q1 & _ & Q2). exists q. split; auto. apply Q2. rewrite zrange_length.
    assert (h < length (fr_path b1))%nat by (apply nth_error_Some; congruence). lia.
  - split; auto. intros h p Hp. exists p. split; auto. split; auto. simpl; lia.
  - intros done h rest [d1 d2] [e1 e2] E (-> & D) Hs. apply zrange_split in E as (_ & Hh & Eh).
    replace h with (Z.of_nat (length done)) in * by lia.
    destruct (nth_error (fr_path b1) (length done)) as [p|] eqn:Ep; [|apply nth_error_None in Ep; lia].
    destruct (D _ _ Ep) as (p' & Hp' & Q & _). specialize (Q (le_n _)). subst p'.
    pose proof Hs as Hw.
    assert (Ip : p_inlist p = 0) by (apply HI; eapply nth_error_In; eauto).
    apply (trackback_one_ok pixdist ncam ncam_ok) in Hs as (-> & _); auto; [|lia|rewrite Nat2Z.id; intros x Hx; congruence].
    apply (trackback_one_why _ _ _ _ _ _ p) in Hw as (q & Hq & Rq); auto; [|lia|now rewrite Nat2Z.id].
    rewrite Nat2Z.id in *. split; auto. rewrite Hq, app_length. cbn [length].
    assert (LD : (length done < length (fr_path d1))%nat) by (apply nth_error_Some; congruence).
    intros h' p' Hp''. destruct (D h' p' Hp'') as (q' & Q1 & Q2 & Q3).
    destruct (Nat.eq_dec h' (length done)) as [->|N].
    + exists q. rewrite nth_error_upd_eq by auto. split; auto. split; [lia|]. assert (p' = p) as -> by congruence. auto.
    + exists q'. rewrite nth_error_upd_neq by auto. split; auto. split; [intros; apply Q2; lia|]. intros; apply Q3; lia.
Qed.

(** sorting permutes the candidates *)
Lemma sorted_reason J N p a b : cands_ok N p -> reasons J p -> 0 < p_inlist p ->
  sort_links psort (p_inlist p) (p_decis p) (p_link p) = Ok (a, b) ->
  forall v, nth_error b 0 = Some v -> J v.
Proof.
  intros (A & B & C & D) HR Hi H v Hv.
  destruct (sort_links_ok psort psort_perm (p_inlist p) (p_decis p) (p_link p) ltac:(lia) ltac:(lia))
    as (a' & b' & E & L1 & L2 & EC & S1 & S2).
  rewrite E in H. injection H as <- <-.
  destruct a' as [|d a']; [cbn in L1; lia|]. destruct b' as [|b0 b']; [discriminate|]. cbn in Hv. injection Hv as ->.
  assert (IN : In (d, v) (combine (firstn (Z.to_nat (p_inlist p)) (p_decis p)) (firstn (Z.to_nat (p_inlist p)) (p_link p)))).
  { eapply Permutation_in; [symmetry; apply psort_perm|]. rewrite <- EC.
    destruct (Z.to_nat (p_inlist p)) eqn:En; [lia|]. left. reflexivity. }
  apply in_combine_r in IN; apply In_nth_error in IN as (j & Hj).
  assert (Lj : (j < length (firstn (Z.to_nat (p_inlist p)) (p_link p)))%nat) by (apply nth_error_Some; congruence).
  rewrite firstn_length in Lj; rewrite nth_error_firstn in Hj by lia. apply (HR j v); auto. lia.
Qed.
Lemma back_decide_why N cur cur' : (forall h p, nth_error cur h = Some p -> cands_ok N p) ->
  back_decide psort (Z.of_nat (length cur)) cur = Ok cur' ->
  forall h q, nth_error cur' h = Some q -> exists p, nth_error cur h = Some p /\ p_prev q = p_prev p /\ p_inlist q = p_inlist p /\
    (0 < p_inlist p -> forall J, reasons J p -> forall v, nth_error (p_link q) 0 = Some v -> J v).
Proof.
  intros HC H. unfold back_decide in H.
  apply (foldM_inv (fun done s => length s = length cur /\
    (forall h, (length done <= h)%nat -> nth_error s h = nth_error cur h) /\
    (forall h q, (h < length done)%nat -> nth_error s h = Some q -> exists p, nth_error cur h = Some p /\ p_prev q = p_prev p /\ p_inlist q = p_inlist p /\
       (0 < p_inlist p -> forall J, reasons J p -> forall v, nth_error (p_link q) 0 = Some v -> J v)))) in H.
  - destruct H as (L & _ & H). intros h q Hq. apply (H h q); auto. rewrite zrange_length.
    assert (h < length cur')%nat by (apply nth_error_Some; congruence). lia.
  - split; auto. split; auto. simpl. lia.
  - intros done h rest s s1 E (L & I1 & I2) Hs. apply zrange_split in E as (_ & Hh & Eh).
    replace h with (Z.of_nat (length done)) in * by lia.
    apply bind_ok in Hs as (p & Hp & Hs). apply pyget_ok_iff in Hp; [|lia]. rewrite Nat2Z.id in Hp.
    pose proof Hp as Hp0. rewrite I1 in Hp0 by lia.
    rewrite Z.gtb_ltb in Hs. rewrite app_length. cbn [length].
    destruct (Z.ltb_spec 0 (p_inlist p)) as [Hi|Hi].
    + apply bind_ok in Hs as ([a b] & Hab & Hs). apply pyset_ok in Hs as (Ls & ->); [|lia]. rewrite Nat2Z.id in *. cbn [fst snd].
      rewrite upd_length. split; auto. split.
      * intros k Hk. rewrite nth_error_upd_neq by lia. apply I1. lia.
      * intros k q Hk Hq. destruct (Nat.eq_dec k (length done)) as [->|N'].
        -- rewrite nth_error_upd_eq in Hq by auto. injection Hq as <-. exists p. split; auto. split; auto. split; auto.
           intros _ J HR v Hv. cbn [p_link] in Hv. eapply sorted_reason; eauto.
        -- rewrite nth_error_upd_neq in Hq by auto. apply I2; auto. lia.
    + injection Hs as <-. split; auto. split; [intros; apply I1; lia|].
      intros k q Hk Hq. destruct (Nat.eq_dec k (length done)) as [->|N']; [|apply I2; auto; lia].
      assert (q = p) as -> by congruence. exists p. split; auto. split; auto. split; auto. lia.
Qed.

(** linking: a changed predecessor is the first candidate *)
Lemma back_link_first p0 p3 num cur nxt cur' nxt' cnt :
  back_link_all extrap angle_acc tp p0 p3 num cur nxt = Ok (cur', nxt', cnt) ->
  forall h q, nth_error cur' h = Some q -> exists p, nth_error cur h = Some p /\
    (p_prev q = p_prev p \/ (0 < p_inlist p /\ nth_error (p_link p) 0 = Some (p_prev q))).
Proof.
  intros H. unfold back_link_all in H.
  apply (foldM_inv (fun _ '(c, _, _) => forall h q, nth_error c h = Some q -> exists p, nth_error cur h = Some p /\
    p_link q = p_link p /\ p_inlist q = p_inlist p /\
    (p_prev q = p_prev p \/ (0 < p_inlist p /\ nth_error (p_link p) 0 = Some (p_prev q))))) in H.
  - intros h q Hq. destruct (H h q Hq) as (p & A & _ & _ & B). eauto.
  - intros h q Hq. exists q. auto.
  - intros done h rest [[c n] k] [[c' n'] k'] Ez HI Hs. apply zrange_split in Ez as (_ & Hh & _). unfold back_link_one in Hs.
    apply bind_ok in Hs as (p & Hp & Hs). apply pyget_ok_iff in Hp; [|lia].
    apply bind_ok in Hs as ([c1 n1] & Hc & Hs). apply bind_ok in Hs as (pp & _ & Hs). injection Hs as <- <- <-.
    rewrite Z.gtb_ltb in Hc. destruct (Z.ltb_spec 0 (p_inlist p)) as [Hi|_]; [|injection Hc as <- <-; auto].
    apply bind_ok in Hc as (v & Hv & Hc). apply pyget_ok_iff in Hv; [|lia]. change (Z.to_nat 0) with O in Hv.
    apply bind_ok in Hc as (d & _ & Hc). apply bind_ok in Hc as (r & _ & Hc).
    assert (TAKE : (do cur <- pyset c h (take_back p d v); do nxt <- pyset n v (set_next r h); Ok (cur, nxt)) = Ok (c1, n1) ->
      forall h q, nth_error c1 h = Some q -> exists p, nth_error cur h = Some p /\ p_link q = p_link p /\ p_inlist q = p_inlist p /\
        (p_prev q = p_prev p \/ (0 < p_inlist p /\ nth_error (p_link p) 0 = Some (p_prev q)))).
    { intros Hx. apply bind_ok in Hx as (c2 & Hc2 & Hx). apply bind_ok in Hx as (n2 & _ & Hx). injection Hx as <- <-.
      apply pyset_ok in Hc2 as (L & ->); [|lia]. intros h' q Hq.
      destruct (Nat.eq_dec h' (Z.to_nat h)) as [->|Nh].
      - rewrite nth_error_upd_eq in Hq by auto. injection Hq as <-. destruct (HI _ _ Hp) as (p1 & P1 & P2 & P3 & _).
        exists p1. cbn [take_back p_link p_inlist p_prev]. split; auto. split; auto. split; auto. right. rewrite <- P2, <- P3. auto.
      - rewrite nth_error_upd_neq in Hq by auto. auto. }
    destruct (_ && _); [auto|]. destruct (negb _ && _); [|injection Hc as <- <-; auto].
    apply bind_ok in Hc as (q0 & _ & Hc). apply bind_ok in Hc as (q4 & _ & Hc).
    destruct (angle_acc _ _ _) as [an ac]. destruct (acceptable tp an ac); [|injection Hc as <- <-; auto]. auto.
Qed.

Theorem back_justified buf0 b1 b2 b3 c1 c2 cnt :
  frame_ok b1 -> frame_ok b2 -> (forall p, In p (fr_path b1) -> p_inlist p = 0) ->
  trackback_step buf0 b1 b2 b3 = Ok (c1, c2, cnt) ->
  forall h k, prev_of (fr_path c1) h = Z.of_nat k -> prev_of (fr_path b1) h <> Z.of_nat k ->
    exists p, nth_error (fr_path b1) h = Some p /\ why_back buf0 b2 p (Z.of_nat k).
Proof.
  intros F1 F2 HI H h k Hk Hn. unfold Model_track.trackback_step in H.
  apply bind_ok in H as ([d1 d2] & Ht & H). pose proof (trackback_all_why _ _ _ _ _ F1 F2 HI Ht) as W.
  apply (trackback_all_ok pixdist ncam ncam_ok) in Ht as (-> & A1 & A2 & A3); auto.
  apply bind_ok in H as (cur & Hd & H). apply bind_ok in H as ([[cur' nxt'] cnt'] & Hl & H). injection H as <- <- <-.
  pose proof F1 as (FN & _). rewrite A1, FN, <- A2 in Hd, Hl. cbn [set_path fr_path] in Hk.
  unfold prev_of in Hk. destruct (nth_error cur' h) as [q|] eqn:Eq; [|unfold PREV_NONE in Hk; lia].
  destruct (back_link_first _ _ _ _ _ _ _ _ Hl h q Eq) as (q1 & Q1 & Q2).
  assert (CO : forall h p, nth_error (fr_path d1) h = Some p -> cands_ok (Z.of_nat (length (fr_path b2))) p).
  { intros h' p Hp. assert (h' < length (fr_path d1))%nat by (apply nth_error_Some; congruence).
    destruct (nth_error (fr_path b1) h') as [p0|] eqn:E0; [|apply nth_error_None in E0; lia].
    destruct (A3 h' p0 E0) as (r & R1 & R2 & R3 & R4). assert (r = p) as -> by congruence. auto. }
  destruct (back_decide_why _ _ _ CO Hd h q1 Q1) as (p1 & P1 & P2 & P3 & P4).
  assert (Lh : (h < length (fr_path d1))%nat) by (apply nth_error_Some; congruence).
  destruct (nth_error (fr_path b1) h) as [p|] eqn:Ep; [|apply nth_error_None in Ep; lia].
  exists p. split; auto. destruct (W h p Ep) as (p1' & P1' & RE). assert (p1' = p1) as -> by congruence.
  destruct (A3 h p Ep) as (r & R1 & (_ & R2 & _) & _). assert (r = p1) as -> by congruence.
  destruct Q2 as [Q2|(Q2 & Q3)].
  - exfalso. apply Hn. unfold prev_of. rewrite Ep. congruence.
  - rewrite P3 in Q2. rewrite Hk in Q3. eapply P4; eauto.
Qed.
End JustBack.
