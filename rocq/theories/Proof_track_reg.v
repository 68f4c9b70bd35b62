(** Registration of pixel candidates (track.py:100-147) and the candidate list
    of one search volume (572-627). *)
From Verif Require Import Base Lib F64 Model_corr Model_cand Spec_cand Model_track Spec_track Proof_track_rank.
Local Open Scope Z_scope.

Lemma forC_inv {S A} (P : S -> Prop) (f : A -> S -> ctl S) l s s' :
  runC (forC l f s) = Ok s' -> P s ->
  (forall a s, In a l -> P s -> match f a s with Next s1 | Ret s1 => P s1 | Raise _ => True end) -> P s'.
Proof.
  revert s. induction l as [|a l IH]; intros s H HP Hs; cbn [forC] in H.
  - cbn in H. congruence.
  - pose proof (Hs a s (or_introl eq_refl) HP) as Ha. destruct (f a s) as [s1|s1|e]; cbn in H; try congruence.
    eapply IH; eauto. intros; apply Hs; auto. now right.
Qed.

Section Reg.
Variable pixdist : f64 -> f64 -> f64 -> f64 -> f64.

(** the search always answers with four entries, each -1 or an index *)
Lemma candsearch_four nf num cx cy dl dr du dd imx imy p :
  candsearch_in_pix pixdist nf num cx cy dl dr du dd imx imy = Ok p ->
  exists a b c d, p = [a; b; c; d] /\ -1 <= a /\ -1 <= b /\ -1 <= c /\ -1 <= d.
Proof.
  unfold candsearch_in_pix. destruct (center_in_image cx cy imx imy).
  2:{ intros [= <-]. exists (-1), (-1), (-1), (-1). repeat split; lia. }
  unfold pix_start. intros H. apply bind_ok in H as (j0 & Hj & H). apply bind_ok in H as (b & Hb & H).
  apply bind_ok in Hj as (j1 & _ & Hj). injection Hj as Hj.
  assert (J0 : 0 <= j0) by (subst j0; destruct (Z.ltb_spec (j1 - 12) 0); lia).
  apply (forC_inv (fun b : best4 => let '(q1, q2, q3, q4) := b in -1 <= fst q1 /\ -1 <= fst q2 /\ -1 <= fst q3 /\ -1 <= fst q4)) in Hb.
  - destruct b as [[[q1 q2] q3] q4]. injection H as <-. exists (fst q1), (fst q2), (fst q3), (fst q4). tauto.
  - cbn. unfold TR_UNUSED. lia.
  - intros j s Hj' Hs. apply In_zrange in Hj'. unfold pix_step, tryC. destruct (pyget nf j); auto.
    destruct (negb _); auto. destruct (fgt _ _); auto. destruct (inside _ _); auto.
    destruct s as [[[q1 q2] q3] q4]. unfold best4_insert.
    repeat (match goal with |- context [if ?x then _ else _] => destruct x end); cbn [fst] in *; lia.
Qed.



Lemma pyget_cand nf c t : -1 <= c -> pyget nf c = Ok t -> cand_target nf c = Some t.
Proof.
  intros Hc H. unfold cand_target. destruct (Z.eqb_spec c (-1)) as [->|N].
  - unfold pyget, pyidx in H. cbn [Z.leb] in H. change (0 <=? -1) with false in H. cbn [andb] in H.
    destruct ((- Z.of_nat (length nf) <=? -1) && (-1 <? 0)) eqn:E; [|discriminate].
    apply andb_true_iff in E as (E & _). apply Z.leb_le in E.
    replace (Z.to_nat (-1 + Z.of_nat (length nf))) with (length nf - 1)%nat in H by lia.
    destruct (nth_error nf _); congruence.
  - apply pyget_ok_iff in H; auto. lia.
Qed.



Lemma register_ok nf num cam cx cy dl dr du dd imx imy pts base pts' :
  0 <= base -> 0 <= cam ->
  register_closest_neighbs pixdist nf num cam cx cy dl dr du dd imx imy pts base = Ok pts' ->
  exists p, candsearch_in_pix pixdist nf num cx cy dl dr du dd imx imy = Ok p /\
    (Z.to_nat base + 4 <= length pts)%nat /\ length pts' = length pts /\
    (forall i f, nth_error pts i = Some f -> ~ (Z.to_nat base <= i < Z.to_nat base + 4)%nat -> nth_error pts' i = Some f) /\
    (forall i f, (i < 4)%nat -> nth_error pts (Z.to_nat base + i) = Some f ->
       exists g, nth_error pts' (Z.to_nat base + i) = Some g /\ slot_after nf p cam f g i).
Proof.
  intros Hb Hcam H. unfold register_closest_neighbs in H. apply bind_ok in H as (p & Hp & H).
  exists p. split; auto. destruct (candsearch_four _ _ _ _ _ _ _ _ _ _ _ Hp) as (a & b & c & d & -> & A & B & C & D).
  pose proof (foldM_inv (fun done s => length s = length pts /\
     ((length done > 0)%nat -> (Z.to_nat base + length done <= length pts)%nat) /\
     (forall i f, nth_error pts i = Some f -> ~ (Z.to_nat base <= i < Z.to_nat base + length done)%nat -> nth_error s i = Some f) /\
     (forall i f, (i < length done)%nat -> nth_error pts (Z.to_nat base + i) = Some f ->
        exists g, nth_error s (Z.to_nat base + i) = Some g /\ slot_after nf [a; b; c; d] cam f g i))
     _ _ _ _ H) as INV. cbn beta in INV.
  destruct INV as (I1 & I2 & I3 & I4).
  - split; auto. split; [simpl; lia|]. split; auto. intros i f Hi. simpl in Hi. lia.
  - clear H pts'. intros done ci rest s s1 E (S1 & S2 & S3 & S4) Hs.
    apply zrange_split in E as (Ed & Hci & Eci). set (k := length done) in *.
    apply bind_ok in Hs as (cc & Hcc & Hs). apply bind_ok in Hs as (f & Hf & Hs).
    apply pyget_ok_iff in Hcc; [|lia]. apply pyget_ok_iff in Hf; [|lia].
    change MAX_CANDS with 4 in Hci.
    assert (CC : -1 <= cc).
    { replace (Z.to_nat ci) with k in Hcc by lia. destruct k as [|[|[|[|k]]]]; simpl in Hcc; try (injection Hcc as <-; auto). lia. }
    destruct (Z.eqb_spec cc PT_UNUSED) as [E|_]; [unfold PT_UNUSED in E; lia|].
    apply bind_ok in Hs as (wc & Hwc & Hs). apply bind_ok in Hs as (t & Ht & Hs).
    apply pyset_ok in Hwc as (Lwc & ->); auto. apply pyset_ok in Hs as (Ls & ->); [|lia].
    replace (Z.to_nat (base + ci)) with (Z.to_nat base + k)%nat in * by lia.
    assert (Hf0 : nth_error pts (Z.to_nat base + k) = Some f).
    { destruct (nth_error pts (Z.to_nat base + k)) as [f'|] eqn:E'; [|apply nth_error_None in E'; lia].
      specialize (S3 _ _ E' ltac:(lia)). congruence. }
    rewrite app_length. cbn [length]. split; [now rewrite upd_length|]. split; [lia|]. split.
    + intros i f' Hi Hn. rewrite nth_error_upd_neq by lia. apply S3; auto. lia.
    + intros i f' Hi Hf'. destruct (Nat.eq_dec i k) as [->|Nik].
      * assert (f' = f) as -> by congruence. rewrite nth_error_upd_eq by auto. eexists. split; [reflexivity|].
        exists cc, t. cbn [ftnr freq whichcam]. split; [now replace (Z.to_nat ci) with k in Hcc by lia|].
        split; [now apply pyget_cand|]. auto.
      * rewrite nth_error_upd_neq by lia. apply S4; auto. lia.
  - rewrite zrange_length in *. change (Z.to_nat (MAX_CANDS - 0)) with 4%nat in *. split; [lia|]. auto.
Qed.

Lemma register_no_targets num cam cx cy dl dr du dd imx imy pts base p :
  0 <= base < Z.of_nat (length pts) ->
  (forall f, In f pts -> 0 <= cam < Z.of_nat (length (whichcam f))) ->
  candsearch_in_pix pixdist [] num cx cy dl dr du dd imx imy = Ok p ->
  register_closest_neighbs pixdist [] num cam cx cy dl dr du dd imx imy pts base = Exn IndexError.
Proof.
  intros Hb Hw Hp. unfold register_closest_neighbs. rewrite Hp. cbn [bind].
  destruct (candsearch_four _ _ _ _ _ _ _ _ _ _ _ Hp) as (a & b & c & d & -> & A & B & C & D).
  rewrite zrange_cons by (unfold MAX_CANDS; lia). cbn [foldM].
  rewrite (pyget_nonneg _ 0 a) by (auto; lia). cbn [bind]. rewrite Z.add_0_r.
  destruct (pyget_in_range pts base) as (f & Hf & Hf'); [lia|]. rewrite Hf. cbn [bind].
  destruct (Z.eqb_spec a PT_UNUSED) as [E|_]; [unfold PT_UNUSED in E; lia|].
  rewrite pyset_in_range by (apply Hw; eapply nth_error_In; eauto). cbn [bind].
  assert (pyget (@nil target) a = Exn IndexError) as ->; [|reflexivity].
  unfold pyget. destruct (pyidx (length (@nil target)) a) as [k|] eqn:E; auto. apply pyidx_lt in E. simpl in E. lia.
Qed.
End Reg.

(** ---- the candidate list of a search volume ---- *)
Section Volume.
Variable pixdist : f64 -> f64 -> f64 -> f64 -> f64.
Variable ncam : nat.
Variables imx imy : Z.
Variable searchquader : Z -> vec -> f64 * f64 * f64 * f64.

Local Notation cam_slots := (Spec_track.cam_slots pixdist imx imy searchquader).


Lemma nth_error_repeat' {A} (a : A) n i : (i < n)%nat -> nth_error (repeat a n) i = Some a.
Proof. revert i. induction n as [|n IH]; intros [|i] H; simpl; try lia; auto. apply IH. lia. Qed.

Theorem volume_exact center proj frm w : (1 <= ncam <= 4)%nat ->
  sorted_candidates_in_volume pixdist (Z.of_nat ncam) imx imy searchquader center proj frm = Ok w ->
  exists ids, length ids = (4 * ncam)%nat /\
    (forall c, (c < ncam)%nat -> cam_slots center proj frm c (firstn 4 (skipn (4 * c) ids))) /\
    ranking ncam ids w.
Proof.
  intros Hn H. unfold sorted_candidates_in_volume in H. apply bind_ok in H as (pts & Hp & H).
  change MAX_CANDS with 4 in *. set (n := (4 * ncam)%nat) in *.
  replace (Z.to_nat (Z.of_nat ncam * 4)) with n in * by lia.
  pose proof (foldM_inv (fun done s => length s = n /\
     (forall i, (4 * length done <= i < n)%nat -> nth_error s i = Some empty_fp) /\
     (forall c, (c < length done)%nat -> exists ids4, cam_slots center proj frm c ids4 /\
        forall i, (i < 4)%nat -> exists f, nth_error s (4 * c + i) = Some f /\ nth_error ids4 i = Some (ftnr f) /\ freq f = 0 /\
           whichcam f = upd [0; 0; 0; 0] c 1))
     _ _ _ _ Hp) as INV. cbn beta in INV.
  destruct INV as (I1 & I2 & I3).
  { split; [apply repeat_length|]. split; [|simpl; lia]. intros i Hi. apply nth_error_repeat'. lia. }
  { clear Hp H w. intros done cam rest s s1 E (S1 & S2 & S3) Hs.
    apply zrange_split in E as (Ed & Hc & Ec). set (k := length done) in *.
    assert (Ecam : cam = Z.of_nat k) by lia. rewrite Ecam in *. clear Ed Ec Ecam cam.
    apply bind_ok in Hs as (tl & Htl & Hs). apply bind_ok in Hs as (nt & Hnt & Hs). apply bind_ok in Hs as (q & Hq & Hs).
    destruct (searchquader (Z.of_nat k) center) as [[[r l] dn] up] eqn:Eq.
    apply pyget_ok_iff in Htl; [|lia]. apply pyget_ok_iff in Hnt; [|lia]. apply pyget_ok_iff in Hq; [|lia].
    rewrite Nat2Z.id in *.
    apply register_ok in Hs as (p & Hp & R1 & R2 & R3 & R4); [|lia|lia].
    replace (Z.to_nat (Z.of_nat k * 4)) with (4 * k)%nat in * by lia.
    rewrite app_length. cbn [length]. split; [lia|]. split.
    - intros i Hi. apply R3; [apply S2; lia|lia].
    - intros c Hcc. destruct (Nat.eq_dec c k) as [->|Nc].
      + assert (G : forall i, (i < 4)%nat -> exists g, nth_error s1 (4 * k + i) = Some g /\
            slot_after tl p (Z.of_nat k) empty_fp g i).
        { intros i Hi. apply R4; auto. apply S2. lia. }
        destruct (G 0%nat ltac:(lia)) as (g0 & A0 & B0). destruct (G 1%nat ltac:(lia)) as (g1 & A1 & B1).
        destruct (G 2%nat ltac:(lia)) as (g2 & A2 & B2). destruct (G 3%nat ltac:(lia)) as (g3 & A3 & B3).
        exists [ftnr g0; ftnr g1; ftnr g2; ftnr g3]. split.
        * exists tl, nt, q, p. rewrite Eq. split; auto. split; auto. split; auto. split; auto. split; auto.
          intros [|[|[|[|i]]]] v Hv; simpl in Hv; try (destruct i; discriminate); injection Hv as <-.
          -- destruct B0 as (c & t & C1 & C2 & C3 & _). eauto.
          -- destruct B1 as (c & t & C1 & C2 & C3 & _). eauto.
          -- destruct B2 as (c & t & C1 & C2 & C3 & _). eauto.
          -- destruct B3 as (c & t & C1 & C2 & C3 & _). eauto.
        * intros [|[|[|[|i]]]] Hi; try lia.
          -- exists g0. destruct B0 as (c & t & C1 & C2 & C3 & C4 & C5). rewrite C5, C4, Nat2Z.id. auto.
          -- exists g1. destruct B1 as (c & t & C1 & C2 & C3 & C4 & C5). rewrite C5, C4, Nat2Z.id. auto.
          -- exists g2. destruct B2 as (c & t & C1 & C2 & C3 & C4 & C5). rewrite C5, C4, Nat2Z.id. auto.
          -- exists g3. destruct B3 as (c & t & C1 & C2 & C3 & C4 & C5). rewrite C5, C4, Nat2Z.id. auto.
      + destruct (S3 c ltac:(lia)) as (ids4 & C1 & C2). exists ids4. split; auto.
        intros i Hi. destruct (C2 i Hi) as (f & F1 & F2). exists f. split; auto. apply R3; auto. lia. }
  rewrite zrange_length in I2, I3. replace (Z.to_nat (Z.of_nat ncam - 0)) with ncam in * by lia.
  assert (SL : forall c ids4, (c < ncam)%nat -> length ids4 = 4%nat ->
     (forall i, (i < 4)%nat -> exists f, nth_error pts (4 * c + i) = Some f /\ nth_error ids4 i = Some (ftnr f) /\ freq f = 0 /\
           whichcam f = upd [0; 0; 0; 0] c 1) -> firstn 4 (skipn (4 * c) (map ftnr pts)) = ids4).
  { intros c ids4 Hc L4 HI. apply nth_error_ext. intros i. destruct (Nat.lt_ge_cases i 4) as [Hi|Hi].
    - rewrite nth_error_firstn by auto. rewrite nth_error_skipn, nth_error_map.
      destruct (HI i Hi) as (f & -> & -> & _). reflexivity.
    - transitivity (@None Z); [|symmetry]; apply nth_error_None; [rewrite firstn_length; lia|lia]. }
  assert (HR : registered ncam pts).
  { split; auto. intros f Hf. apply In_nth_error in Hf as (k & Hk).
    assert (k < length pts)%nat by (apply nth_error_Some; congruence).
    pose proof (Nat.div_mod k 4 ltac:(lia)) as DM. pose proof (Nat.mod_upper_bound k 4 ltac:(lia)) as MB.
    destruct (I3 (k / 4)%nat ltac:(lia)) as (ids4 & C1 & C2).
    destruct (C2 (k mod 4)%nat MB) as (f' & F1 & F2 & F3 & F4). rewrite <- DM in F1. assert (f' = f) as -> by congruence.
    split; auto. split; [rewrite F4, upd_length; simpl; lia|].
    intros j Hj Hw Hne. destruct (Nat.eq_dec j (k / 4)) as [->|Nj].
    - apply (proj2 (seen_by_ex ncam (map ftnr pts) (k / 4) (ftnr f) ltac:(rewrite map_length; lia))).
      exists (k mod 4)%nat. split; auto. rewrite <- DM, nth_error_map, Hk. reflexivity.
    - rewrite F4, nth_error_upd_neq in Hw by auto. destruct j as [|[|[|[|j]]]]; simpl in Hw; try discriminate. destruct j; discriminate. }
  apply bind_ok in H as ([nc out] & Hs & H).
  destruct (sort_exact ncam pts ltac:(lia) HR) as (d & out' & E & L & P1 & P2 & P3 & P4 & P5).
  rewrite E in Hs. injection Hs as <- <-.
  exists (map ftnr pts). split; [rewrite map_length; auto|]. split.
  { intros c Hc. destruct (I3 c Hc) as (ids4 & C1 & C2). rewrite (SL c ids4); auto. destruct C1 as (? & ? & ? & ? & ?). tauto. }
  assert (Dl : (d <= n)%nat).
  { destruct (Nat.le_gt_cases d n); auto. destruct (nth_error out' 0) as [f|] eqn:E0; [|apply nth_error_None in E0; lia].
    (* d counts rows *)
    exfalso. clear -E L I1 H0. unfold sort_candidates_by_freq in E.
    do 5 (apply bind_ok in E as (? & _ & E)). apply bind_ok in E as (k & Hk & E). injection E as -> _.
    apply (foldM_inv (fun done k => k <= Z.of_nat (length done))) in Hk; [|simpl; lia|].
    - rewrite zrange_length in Hk. change MAX_CANDS with 4 in Hk. lia.
    - intros done a rest s s1 _ Hs Hs1. apply bind_ok in Hs1 as (g & _ & Hs1). injection Hs1 as <-.
      rewrite app_length. simpl. destruct (freq g =? 0); lia. }
  destruct (Z.gtb_spec (Z.of_nat d) 0) as [Hd|Hd].
  - injection H as <-. exists d. replace (Z.to_nat (Z.of_nat d + 1)) with (S d) by lia.
    assert (FN : forall k f, nth_error (firstn (S d) out') k = Some f -> nth_error out' k = Some f).
    { intros k f Hk. assert (k < length (firstn (S d) out'))%nat by (apply nth_error_Some; congruence).
      rewrite firstn_length in H. rewrite nth_error_firstn in Hk by lia. auto. }
    split; [rewrite firstn_length; lia|]. split; [intros k f Hk; apply P1; auto|]. split.
    { intros i j f g Hij Hf Hg. eapply P2; eauto. } split; [|split].
    + intros v V1 V2. destruct (P3 v V1 V2) as (k & f & Hk & Hf). exists k, f. split; auto.
      specialize (P1 k f Hk). destruct (Nat.ltb_spec k d); [|exfalso; destruct P1 as (P1 & _); rewrite Hf in P1; subst v; cbn in V1; lia].
      rewrite nth_error_firstn by lia. auto.
    + intros f v Hf Hv. eapply P4; eauto.
    + intros k f Hk. eapply P5; eauto.
  - injection H as <-. assert (d = O) as -> by lia.
    assert (V0 : forall v, In v (map ftnr pts) -> votes ncam (map ftnr pts) v = 0).
    { intros v Hv. destruct (nth_error out' 0) as [f|] eqn:E0; [|apply nth_error_None in E0; lia].
      pose proof (P4 f v eq_refl Hv). pose proof (P1 _ _ E0) as (_ & Hf). pose proof (votes_nonneg ncam (map ftnr pts) v). lia. }
    exists O. split; [simpl; lia|]. split; [|split; [|split; [|split]]].
    + intros [|k] f Hf; simpl in Hf; [injection Hf as <-; split; reflexivity|destruct k; discriminate].
    + intros i j f g Hij Hf Hg. destruct i as [|i]; [|destruct i; discriminate]. destruct j as [|j]; [|destruct j; discriminate].
      injection Hf as <-. injection Hg as <-. lia.
    + intros v V1 (k & Hk & _). rewrite V0 in V1; [lia|]. eapply nth_error_In; eauto.
    + intros f v Hf Hv. rewrite V0 by auto. injection Hf as <-. cbn. lia.
    + intros [|k] f Hf; simpl in Hf; [injection Hf as <-; discriminate|destruct k; discriminate].
Qed.
End Volume.
