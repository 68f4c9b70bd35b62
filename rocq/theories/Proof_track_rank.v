(** Candidate ranking (track.py:490-530): what sort_candidates_by_freq returns. *)
From Coq Require Import Sorted.
From Verif Require Import Base Lib F64 Model_corr Model_cand Spec_cand Model_track Spec_track.
Local Open Scope Z_scope.

(** ---- marking and counting ---- *)
Section Rank.
Variable ncam : nat.
Let nc := Z.of_nat ncam.

Definition marked (b : nat -> bool) (f : foundpix) (wc : list Z) : Prop :=
  forall c, nth_error wc c = if b c then match nth_error (whichcam f) c with Some _ => Some 1 | None => None end
                             else nth_error (whichcam f) c.

Lemma seen_by_ex ids j v : (4 * j + 4 <= length ids)%nat ->
  (seen_by ids j v = true <-> exists m, (m < 4)%nat /\ nth_error ids (4 * j + m) = Some v).
Proof.
  intros HL. unfold seen_by. rewrite existsb_exists. split.
  - intros (x & Hx & E). apply Z.eqb_eq in E as <-. apply In_nth_error in Hx as (m & Hm).
    assert (m < length (firstn 4 (skipn (4 * j) ids)))%nat by (apply nth_error_Some; congruence).
    rewrite firstn_length in H. exists m. split; [lia|].
    rewrite nth_error_firstn in Hm by lia. rewrite nth_error_skipn in Hm. exact Hm.
  - intros (m & Hm & E). exists v. split; [|apply Z.eqb_refl].
    apply nth_error_In with (n := m). rewrite nth_error_firstn by auto. rewrite nth_error_skipn. exact E.
Qed.

Lemma marked_length b f wc : marked b f wc -> length wc = length (whichcam f).
Proof.
  intros H. destruct (Nat.lt_trichotomy (length wc) (length (whichcam f))) as [L|[E|L]]; auto; exfalso.
  - specialize (H (length wc)). assert (nth_error wc (length wc) = None) by now apply nth_error_None.
    rewrite H0 in H. destruct (nth_error (whichcam f) (length wc)) eqn:E.
    + destruct (b _); discriminate.
    + apply nth_error_None in E. lia.
  - specialize (H (length (whichcam f))). assert (nth_error (whichcam f) (length (whichcam f)) = None) by now apply nth_error_None.
    rewrite H0 in H. assert (nth_error wc (length (whichcam f)) <> None) by now apply nth_error_Some.
    apply H1. rewrite H. now destruct (b _).
Qed.

Lemma row_upd {A} (l : list A) i j a b : nth_error l i = Some a ->
  nth_error (upd l i b) j = if (j =? i)%nat then Some b else nth_error l j.
Proof.
  intros H. rewrite nth_error_upd. destruct (Nat.eqb_spec j i); auto.
  assert (i < length l)%nat by (apply nth_error_Some; congruence).
  now apply Nat.ltb_lt in H0 as ->.
Qed.

Lemma mark_cams_ok pts : length pts = (4 * ncam)%nat ->
  (forall f, In f pts -> (ncam <= length (whichcam f))%nat) ->
  let ids := map ftnr pts in
  exists pts', mark_cams nc pts = Ok pts' /\ length pts' = length pts /\
    forall i f, nth_error pts i = Some f -> exists wc, nth_error pts' i = Some (mk_fp (ftnr f) (freq f) wc) /\
      marked (fun c => (c <? ncam)%nat && seen_by ids c (ftnr f)) f wc.
Proof.
  intros HL HW ids. unfold mark_cams, nc. change MAX_CANDS with 4.
  pose (P := fun (i : Z) (s : list foundpix) => length s = length pts /\ map ftnr s = ids /\
    forall k f, nth_error pts k = Some f ->
      if Z.of_nat k <? i then
        exists wc, nth_error s k = Some (mk_fp (ftnr f) (freq f) wc) /\
          marked (fun c => (c <? ncam)%nat && seen_by ids c (ftnr f)) f wc
      else nth_error s k = Some f).
  destruct (loop_total P (fun pts i => foldM (fun pts j => foldM (fun pts m =>
        do f <- pyget pts i; do g <- pyget pts (4 * j + m);
        if ftnr f =? ftnr g then do wc <- pyset (whichcam f) j 1; pyset pts i (mk_fp (ftnr f) (freq f) wc)
        else Ok pts) (zrange 0 4) pts) (zrange 0 (Z.of_nat ncam)) pts) 0 (Z.of_nat ncam * 4) pts) as (s' & Es & (S1 & S2 & S3)).
  - lia.
  - split; auto. split; auto. intros k f Hk. destruct (Z.ltb_spec (Z.of_nat k) 0); [lia|auto].
  - intros i s Hi (S1 & S2 & S3).
    destruct (nth_error pts (Z.to_nat i)) as [f|] eqn:Ef; [|apply nth_error_None in Ef; lia].
    assert (Hf : nth_error s (Z.to_nat i) = Some f).
    { specialize (S3 _ _ Ef). destruct (Z.ltb_spec (Z.of_nat (Z.to_nat i)) i); [lia|auto]. }
    pose proof (HW f (nth_error_In _ _ Ef)) as Hwf.
    pose (Q := fun (j : Z) (t : list foundpix) => exists wc, t = upd s (Z.to_nat i) (mk_fp (ftnr f) (freq f) wc) /\
      marked (fun c => (Z.of_nat c <? j) && seen_by ids c (ftnr f)) f wc).
    destruct (loop_total Q (fun pts j => foldM (fun pts m =>
        do f <- pyget pts i; do g <- pyget pts (4 * j + m);
        if ftnr f =? ftnr g then do wc <- pyset (whichcam f) j 1; pyset pts i (mk_fp (ftnr f) (freq f) wc)
        else Ok pts) (zrange 0 4) pts) 0 (Z.of_nat ncam) s) as (t & Et & (wc & Ewc & Mwc)).
    + lia.
    + exists (whichcam f). split.
      * rewrite upd_same; auto. destruct f; auto.
      * intros c. destruct (Z.ltb_spec (Z.of_nat c) 0); [lia|reflexivity].
    + intros j t Hj (wc & -> & Mwc).
      pose (R := fun (m : Z) (t : list foundpix) => exists wc, t = upd s (Z.to_nat i) (mk_fp (ftnr f) (freq f) wc) /\
        marked (fun c => ((Z.of_nat c <? j) && seen_by ids c (ftnr f)) ||
                  ((Z.of_nat c =? j) && existsb (Z.eqb (ftnr f)) (firstn (Z.to_nat m) (skipn (4 * Z.to_nat j) ids)))) f wc).
      destruct (loop_total R (fun pts m =>
        do f <- pyget pts i; do g <- pyget pts (4 * j + m);
        if ftnr f =? ftnr g then do wc <- pyset (whichcam f) j 1; pyset pts i (mk_fp (ftnr f) (freq f) wc)
        else Ok pts) 0 4 (upd s (Z.to_nat i) (mk_fp (ftnr f) (freq f) wc))) as (t & Et & (wc' & Ewc & Mwc')).
      * lia.
      * exists wc. split; auto. intros c. rewrite (Mwc c). simpl firstn. simpl existsb. rewrite andb_false_r, orb_false_r. reflexivity.
      * intros m t Hm (wc' & -> & Mwc').
        set (fi := mk_fp (ftnr f) (freq f) wc').
        assert (Gi : pyget (upd s (Z.to_nat i) fi) i = Ok fi).
        { apply pyget_nonneg; [lia|]. rewrite (row_upd s _ _ f) by auto. now rewrite Nat.eqb_refl. }
        rewrite Gi. cbn [bind].
        destruct (nth_error ids (Z.to_nat (4 * j + m))) as [v|] eqn:Ev;
          [|apply nth_error_None in Ev; unfold ids in Ev; rewrite map_length in Ev; lia].
        assert (IDS : map ftnr (upd s (Z.to_nat i) fi) = ids).
        { rewrite map_upd. unfold fi. cbn [ftnr]. rewrite upd_same; auto. now rewrite nth_error_map, Hf. }
        pose proof Ev as Ev'. rewrite <- IDS, nth_error_map in Ev'.
        destruct (nth_error (upd s (Z.to_nat i) fi) (Z.to_nat (4 * j + m))) as [g|] eqn:Eg; [|discriminate].
        cbn in Ev'. injection Ev' as Ev'. rewrite (pyget_nonneg _ _ g) by (auto; lia). cbn [bind]. rewrite Ev'.
        assert (EX : existsb (Z.eqb (ftnr f)) (firstn (Z.to_nat (m + 1)) (skipn (4 * Z.to_nat j) ids)) =
                     existsb (Z.eqb (ftnr f)) (firstn (Z.to_nat m) (skipn (4 * Z.to_nat j) ids)) || (ftnr f =? v)).
        { replace (Z.to_nat (m + 1)) with (S (Z.to_nat m)) by lia.
          assert (HN : nth_error (skipn (4 * Z.to_nat j) ids) (Z.to_nat m) = Some v).
          { rewrite nth_error_skipn. rewrite <- Ev. f_equal. lia. }
          clear -HN. revert HN. generalize (skipn (4 * Z.to_nat j) ids) (Z.to_nat m).
          induction l as [|a l IH]; intros [|n] H; simpl in H; try discriminate.
          - injection H as ->. simpl. now rewrite orb_false_r.
          - specialize (IH n H). cbn [firstn existsb]. cbn [firstn] in IH. rewrite IH. now rewrite orb_assoc. }
        unfold fi at 1. cbn [ftnr].
        destruct (Z.eqb_spec (ftnr f) v) as [Efv|Nfv].
        -- unfold fi at 1. cbn [whichcam].
           pose proof (marked_length _ _ _ Mwc') as LW.
           rewrite pyset_in_range by lia. cbn [bind].
           rewrite pyset_in_range by (rewrite upd_length; lia). rewrite upd_upd.
           eexists. split; [reflexivity|]. eexists. split; [reflexivity|].
           intros c. rewrite nth_error_upd. rewrite EX, orb_true_r, andb_true_r.
           destruct (Nat.eqb_spec c (Z.to_nat j)) as [->|Nc].
           ++ replace (Z.of_nat (Z.to_nat j) =? j) with true by (symmetry; apply Z.eqb_eq; lia). rewrite orb_true_r.
              replace (Z.to_nat j <? length wc')%nat with true by (symmetry; apply Nat.ltb_lt; lia).
              destruct (nth_error (whichcam f) (Z.to_nat j)) eqn:E; auto. apply nth_error_None in E. lia.
           ++ rewrite (Mwc' c). replace (Z.of_nat c =? j) with false by (symmetry; apply Z.eqb_neq; lia).
              cbn [andb]. reflexivity.
        -- eexists. split; [reflexivity|]. exists wc'. split; [reflexivity|].
           intros c. rewrite EX, orb_false_r. apply Mwc'.
      * exists t. split; auto. exists wc'. split; auto. intros c. rewrite (Mwc' c).
        change (Z.to_nat 4) with 4%nat.
        replace (existsb (Z.eqb (ftnr f)) (firstn 4 (skipn (4 * Z.to_nat j) ids))) with (seen_by ids (Z.to_nat j) (ftnr f)) by reflexivity.
        destruct (Z.eqb_spec (Z.of_nat c) j) as [Ec|Nc].
        -- destruct (Z.ltb_spec (Z.of_nat c) j); [lia|]. destruct (Z.ltb_spec (Z.of_nat c) (j + 1)); [|lia].
           replace (Z.to_nat j) with c by lia. reflexivity.
        -- rewrite orb_false_r. destruct (Z.ltb_spec (Z.of_nat c) j), (Z.ltb_spec (Z.of_nat c) (j + 1)); try lia; reflexivity.
    + exists t. split; auto. split; [rewrite Ewc, upd_length; auto|]. split.
      { rewrite Ewc, map_upd. cbn [ftnr]. rewrite upd_same; auto. now rewrite nth_error_map, Hf. }
      intros k g Hk. rewrite Ewc, (row_upd s _ _ f) by auto.
      destruct (Nat.eqb_spec k (Z.to_nat i)) as [->|Nk].
      * destruct (Z.ltb_spec (Z.of_nat (Z.to_nat i)) (i + 1)); [|lia]. assert (g = f) as -> by congruence.
        exists wc. split; auto. intros c. rewrite (Mwc c).
        replace (Z.of_nat c <? Z.of_nat ncam) with (c <? ncam)%nat; auto.
        destruct (Nat.ltb_spec c ncam), (Z.ltb_spec (Z.of_nat c) (Z.of_nat ncam)); lia || auto.
      * specialize (S3 k g Hk). destruct (Z.ltb_spec (Z.of_nat k) i), (Z.ltb_spec (Z.of_nat k) (i + 1)); try lia; auto.
  - exists s'. split; auto. split; auto. intros i f Hf. specialize (S3 i f Hf).
    assert (i < length pts)%nat by (apply nth_error_Some; congruence).
    destruct (Z.ltb_spec (Z.of_nat i) (Z.of_nat ncam * 4)); [auto|lia].
Qed.

Definition is1 (wc : list Z) (c : nat) : bool := match nth_error wc c with Some v => v =? 1 | None => false end.
Definition cnt (f : foundpix) (j : nat) : Z :=
  if ftnr f =? -1 then 0 else Z.of_nat (length (filter (is1 (whichcam f)) (seq 0 j))).
Lemma cnt_S f j : cnt f (S j) = cnt f j + (if is1 (whichcam f) j && negb (ftnr f =? -1) then 1 else 0).
Proof.
  unfold cnt. destruct (ftnr f =? -1); [rewrite andb_false_r; lia|]. rewrite andb_true_r.
  rewrite seq_S, filter_app, app_length. cbn [filter plus]. destruct (is1 (whichcam f) j); simpl; lia.
Qed.

Lemma count_freq_ok pts : length pts = (4 * ncam)%nat ->
  (forall f, In f pts -> (ncam <= length (whichcam f))%nat) ->
  exists pts', count_freq nc pts = Ok pts' /\ length pts' = length pts /\
    forall i f, nth_error pts i = Some f -> nth_error pts' i = Some (mk_fp (ftnr f) (freq f + cnt f ncam) (whichcam f)).
Proof.
  intros HL HW. unfold count_freq, nc. change MAX_CANDS with 4.
  pose (P := fun (i : Z) (s : list foundpix) => length s = length pts /\
    forall k f, nth_error pts k = Some f -> nth_error s k =
      if Z.of_nat k <? i then Some (mk_fp (ftnr f) (freq f + cnt f ncam) (whichcam f)) else Some f).
  destruct (loop_total P (fun pts i => foldM (fun pts j =>
      do f <- pyget pts i; do c <- pyget (whichcam f) j;
      if (c =? 1) && negb (ftnr f =? TR_UNUSED) then
        pyset pts i (mk_fp (ftnr f) (freq f + 1) (whichcam f))
      else Ok pts) (zrange 0 (Z.of_nat ncam)) pts) 0 (Z.of_nat ncam * 4) pts) as (s' & Es & (S1 & S3)).
  - lia.
  - split; auto. intros k f Hk. destruct (Z.ltb_spec (Z.of_nat k) 0); [lia|auto].
  - intros i s Hi (S1 & S3).
    destruct (nth_error pts (Z.to_nat i)) as [f|] eqn:Ef; [|apply nth_error_None in Ef; lia].
    assert (Hf : nth_error s (Z.to_nat i) = Some f).
    { specialize (S3 _ _ Ef). destruct (Z.ltb_spec (Z.of_nat (Z.to_nat i)) i); [lia|auto]. }
    pose proof (HW f (nth_error_In _ _ Ef)) as Hwf.
    pose (Q := fun (j : Z) (t : list foundpix) => t = upd s (Z.to_nat i) (mk_fp (ftnr f) (freq f + cnt f (Z.to_nat j)) (whichcam f))).
    destruct (loop_total Q (fun pts j =>
      do f <- pyget pts i; do c <- pyget (whichcam f) j;
      if (c =? 1) && negb (ftnr f =? TR_UNUSED) then
        pyset pts i (mk_fp (ftnr f) (freq f + 1) (whichcam f))
      else Ok pts) 0 (Z.of_nat ncam) s) as (t & Et & Qt).
    + lia.
    + unfold Q. change (cnt f (Z.to_nat 0)) with (cnt f 0). replace (cnt f 0) with 0 by (unfold cnt; destruct (_ =? _); auto).
      rewrite Z.add_0_r. rewrite upd_same; auto. destruct f; auto.
    + intros j t Hj ->. set (fi := mk_fp (ftnr f) (freq f + cnt f (Z.to_nat j)) (whichcam f)).
      assert (Gi : pyget (upd s (Z.to_nat i) fi) i = Ok fi).
      { apply pyget_nonneg; [lia|]. rewrite (row_upd s _ _ f) by auto. now rewrite Nat.eqb_refl. }
      rewrite Gi. cbn [bind].
      destruct (nth_error (whichcam f) (Z.to_nat j)) as [v|] eqn:Ev; [|apply nth_error_None in Ev; lia].
      unfold fi at 1. cbn [whichcam]. rewrite (pyget_nonneg _ _ v) by (auto; lia). cbn [bind].
      unfold fi at 1 2 3 4. cbn [ftnr freq whichcam]. unfold Q.
      replace (Z.to_nat (j + 1)) with (S (Z.to_nat j)) by lia. rewrite cnt_S. unfold is1. rewrite Ev. change TR_UNUSED with (-1).
      destruct ((v =? 1) && negb (ftnr f =? -1)).
      * rewrite pyset_in_range by (rewrite upd_length; lia). rewrite upd_upd. eexists. split; [reflexivity|].
        rewrite Z.add_assoc. reflexivity.
      * eexists. split; [reflexivity|]. rewrite Z.add_0_r. reflexivity.
    + exists t. split; auto. unfold Q in Qt. rewrite Nat2Z.id in Qt. split; [rewrite Qt, upd_length; auto|].
      intros k g Hk. rewrite Qt, (row_upd s _ _ f) by auto.
      destruct (Nat.eqb_spec k (Z.to_nat i)) as [->|Nk].
      * destruct (Z.ltb_spec (Z.of_nat (Z.to_nat i)) (i + 1)); [|lia]. assert (g = f) as -> by congruence. reflexivity.
      * specialize (S3 k g Hk). destruct (Z.ltb_spec (Z.of_nat k) i), (Z.ltb_spec (Z.of_nat k) (i + 1)); try lia; auto.
  - exists s'. split; auto. split; auto. intros i f Hf. specialize (S3 i f Hf).
    assert (i < length pts)%nat by (apply nth_error_Some; congruence).
    destruct (Z.ltb_spec (Z.of_nat i) (Z.of_nat ncam * 4)); [auto|lia].
Qed.

Lemma votes_ok pts : registered ncam pts ->
  exists pts', (do p <- mark_cams nc pts; count_freq nc p) = Ok pts' /\ length pts' = length pts /\
    map ftnr pts' = map ftnr pts /\ forall f, In f pts' -> freq f = votes ncam (map ftnr pts) (ftnr f).
Proof.
  intros (HL & HR). set (ids := map ftnr pts) in *.
  destruct (mark_cams_ok pts HL) as (p1 & E1 & L1 & H1); [intros f Hf; now apply HR|].
  rewrite E1. cbn [bind].
  assert (BK : forall i g, nth_error p1 i = Some g -> exists f, nth_error pts i = Some f /\ ftnr g = ftnr f /\ freq g = freq f /\
     marked (fun c => (c <? ncam)%nat && seen_by ids c (ftnr f)) f (whichcam g)).
  { intros i g Hg. assert (i < length p1)%nat by (apply nth_error_Some; congruence).
    destruct (nth_error pts i) as [f|] eqn:Ef; [|apply nth_error_None in Ef; lia].
    destruct (H1 i f Ef) as (wc & Ew & Mw). exists f. rewrite Ew in Hg. injection Hg as <-. cbn [ftnr freq whichcam]. auto. }
  destruct (count_freq_ok p1) as (p2 & E2 & L2 & H2); [lia| |].
  { intros g Hg. apply In_nth_error in Hg as (i & Hi). destruct (BK i g Hi) as (f & Ef & _ & _ & Mw).
    rewrite (marked_length _ _ _ Mw). apply HR. eapply nth_error_In; eauto. }
  exists p2. split; auto. split; [lia|]. split.
  - apply nth_error_ext. intros i. unfold ids. rewrite !nth_error_map.
    destruct (nth_error p1 i) as [g|] eqn:Eg.
    + rewrite (H2 i g Eg). destruct (BK i g Eg) as (f & -> & Ef & _). cbn. now rewrite Ef.
    + apply nth_error_None in Eg. assert (nth_error p2 i = None) as -> by (apply nth_error_None; lia).
      assert (nth_error pts i = None) as -> by (apply nth_error_None; lia). reflexivity.
  - intros h Hh. apply In_nth_error in Hh as (i & Hi).
    assert (i < length p2)%nat by (apply nth_error_Some; congruence).
    destruct (nth_error p1 i) as [g|] eqn:Eg; [|apply nth_error_None in Eg; lia].
    rewrite (H2 i g Eg) in Hi. injection Hi as <-. cbn [freq ftnr].
    destruct (BK i g Eg) as (f & Ef & F1 & F2 & Mw).
    destruct (HR f (nth_error_In _ _ Ef)) as (R1 & R2 & R3).
    rewrite F2, R1. unfold votes, cnt. rewrite F1. destruct (Z.eqb_spec (ftnr f) (-1)) as [|N]; [lia|].
    rewrite Z.add_0_l. f_equal. f_equal. apply filter_ext_in. intros c Hc. apply in_seq in Hc. unfold is1. rewrite (Mw c).
    replace (c <? ncam)%nat with true by (symmetry; apply Nat.ltb_lt; lia). cbn [andb].
    destruct (nth_error (whichcam f) c) as [v|] eqn:Ev; [|apply nth_error_None in Ev; lia].
    destruct (seen_by ids c (ftnr f)) eqn:Es; [reflexivity|].
    destruct (Z.eqb_spec v 1) as [->|]; auto. rewrite <- Es. symmetry. apply R3; auto. lia.
Qed.
End Rank.

(** ---- the "sort" is a running maximum from the right ---- *)
Fixpoint suffmax (l : list foundpix) : list foundpix :=
  match l with
  | [] => []
  | a :: t => match suffmax t with
              | [] => [a]
              | b :: r => (if freq a <? freq b then b else a) :: b :: r
              end
  end.
Lemma suffmax_length l : length (suffmax l) = length l.
Proof. induction l as [|a l IH]; simpl; auto. destruct (suffmax l); simpl in *; lia. Qed.
Lemma suffmax_cons a l b r : suffmax l = b :: r -> suffmax (a :: l) = (if freq a <? freq b then b else a) :: suffmax l.
Proof. intros H. simpl. now rewrite H. Qed.

Lemma suffmax_spec l k f : nth_error (suffmax l) k = Some f <->
  exists k', (k <= k')%nat /\ nth_error l k' = Some f /\
    (forall i g, (k' < i)%nat -> nth_error l i = Some g -> freq g <= freq f) /\
    (forall i g, (k <= i < k')%nat -> nth_error l i = Some g -> freq g < freq f).
Proof.
  revert k f. induction l as [|a l IH]; intros k f.
  { simpl. split; [destruct k; discriminate|]. intros (k' & _ & H & _). destruct k'; discriminate. }
  destruct k as [|k].
  - destruct (suffmax l) as [|b r] eqn:Es.
    + assert (l = []) as -> by (destruct l; auto; apply (f_equal (@length _)) in Es; rewrite suffmax_length in Es; discriminate).
      simpl. split.
      * intros [= <-]. exists O. split; [lia|]. split; auto. split; intros i g Hi H; [destruct i as [|[|i]]; try lia; discriminate|lia].
      * intros (k' & _ & H & _). destruct k' as [|[|k']]; simpl in H; try discriminate. auto.
    + assert (Hb : nth_error (suffmax l) 0 = Some b) by now rewrite Es.
      pose proof (proj1 (IH 0%nat b) eq_refl) as (kb & _ & Kb & Gb & Lb).
      rewrite (suffmax_cons a l b r Es). cbn [nth_error].
      destruct (Z.ltb_spec (freq a) (freq b)) as [Hlt|Hge].
      * split.
        -- intros [= <-]. exists (S kb). split; [lia|]. split; auto. split.
           ++ intros [|i] g Hi H; [lia|]. apply (Gb i g); [lia|auto].
           ++ intros [|i] g Hi H; simpl in H; [injection H as <-; auto|]. apply (Lb i g); [lia|auto].
        -- intros (k' & _ & Hk & Gk & Lk). f_equal. destruct k' as [|k'].
           ++ simpl in Hk. injection Hk as <-. specialize (Gk (S kb) b ltac:(lia) Kb). lia.
           ++ assert (X : nth_error (b :: r) 0 = Some f).
              { apply IH. exists k'. split; [lia|]. split; auto. split.
                - intros i g Hi H. apply (Gk (S i) g); [lia|auto].
                - intros i g Hi H. apply (Lk (S i) g); [lia|auto]. }
              simpl in X. congruence.
      * split.
        -- intros [= <-]. exists O. split; [lia|]. split; auto. split; [|intros; lia].
           intros [|i] g Hi H; [lia|]. simpl in H. destruct (Nat.lt_trichotomy i kb) as [Hl|[->|Hl]].
           ++ specialize (Lb i g ltac:(lia) H). lia.
           ++ assert (g = b) as -> by congruence. auto.
           ++ specialize (Gb i g Hl H). lia.
        -- intros (k' & _ & Hk & Gk & Lk). f_equal. destruct k' as [|k']; [simpl in Hk; congruence|].
           pose proof (Lk O a ltac:(lia) eq_refl) as La.
           assert (X : nth_error (b :: r) 0 = Some f).
           { apply IH. exists k'. split; [lia|]. split; auto. split.
             - intros i g Hi H. apply (Gk (S i) g); [lia|auto].
             - intros i g Hi H. apply (Lk (S i) g); [lia|auto]. }
           simpl in X. injection X as ->. lia.
  - assert (E : nth_error (suffmax (a :: l)) (S k) = nth_error (suffmax l) k).
    { simpl. destruct (suffmax l) eqn:Es; simpl; auto. }
    rewrite E, IH. split.
    + intros (k' & K1 & K2 & K3 & K4). exists (S k'). split; [lia|]. split; auto. split.
      * intros [|i] g Hi H; [lia|]. apply (K3 i g); [lia|auto].
      * intros [|i] g Hi H; [lia|]. apply (K4 i g); [lia|auto].
    + intros (k' & K1 & K2 & K3 & K4). destruct k' as [|k']; [lia|]. exists k'. split; [lia|]. split; auto. split.
      * intros i g Hi H. apply (K3 (S i) g); [lia|auto].
      * intros i g Hi H. apply (K4 (S i) g); [lia|auto].
Qed.

Lemma suffmax_desc l i j f g : (i <= j)%nat -> nth_error (suffmax l) i = Some f -> nth_error (suffmax l) j = Some g ->
  freq g <= freq f.
Proof.
  intros Hij Hf Hg. apply suffmax_spec in Hf as (a & A1 & A2 & A3 & A4). apply suffmax_spec in Hg as (b & B1 & B2 & B3 & B4).
  destruct (Nat.lt_trichotomy a b) as [H|[->|H]].
  - now apply (A3 b).
  - assert (f = g) by congruence. subst. lia.
  - destruct (Nat.lt_ge_cases b i); [lia|]. specialize (A4 b g ltac:(lia) B2). lia.
Qed.
Lemma suffmax_fix l : (forall i j f g, (i <= j)%nat -> nth_error l i = Some f -> nth_error l j = Some g -> freq g <= freq f) ->
  suffmax l = l.
Proof.
  intros H. apply nth_error_ext. intros i. destruct (nth_error l i) as [f|] eqn:E.
  - apply suffmax_spec. exists i. split; [lia|]. split; auto. split; [|intros; lia].
    intros j g Hj Hg. apply (H i j); auto. lia.
  - apply nth_error_None. apply nth_error_None in E. now rewrite suffmax_length.
Qed.

Lemma pass_ok (pts : list foundpix) n : length pts = n -> forall d i, (d + i = n)%nat -> (1 <= i)%nat ->
  foldM view_swap (rev (zrange (Z.of_nat i) (Z.of_nat n))) pts = Ok (firstn (i - 1) pts ++ suffmax (skipn (i - 1) pts)).
Proof.
  intros HL. induction d as [|d IH]; intros i Hd Hi.
  - rewrite zrange_empty by lia. simpl. f_equal. rewrite suffmax_fix.
    + now rewrite firstn_skipn.
    + intros a b f g Hab Hf Hg.
      assert (b < length (skipn (i - 1) pts))%nat by (apply nth_error_Some; congruence).
      rewrite skipn_length in H. assert (a = b) by lia. subst. assert (f = g) by congruence. subst. lia.
  - rewrite zrange_cons by lia. simpl rev. rewrite foldM_app. replace (Z.of_nat i + 1) with (Z.of_nat (S i)) by lia.
    rewrite (IH (S i)) by lia. replace (S i - 1)%nat with i by lia. cbn [bind foldM].
    destruct (nth_error pts (i - 1)) as [a|] eqn:Ea; [|apply nth_error_None in Ea; lia].
    assert (Sk : skipn (i - 1) pts = a :: skipn i pts).
    { clear -Ea Hi. revert Ea. replace (skipn i pts) with (skipn (S (i - 1)) pts) by (f_equal; lia).
      generalize (i - 1)%nat as m. revert pts. induction pts as [|b pts IHp]; intros [|m] E; simpl in E; try discriminate.
      - injection E as ->. reflexivity.
      - simpl skipn at 1. rewrite (IHp m E). reflexivity. }
    assert (Fi : firstn i pts = firstn (i - 1) pts ++ [a]).
    { clear -Ea Hi. replace (firstn i pts) with (firstn (S (i - 1)) pts) by (f_equal; lia).
      revert Ea. generalize (i - 1)%nat as m. revert pts. induction pts as [|b pts IHp]; intros [|m] E; simpl in E; try discriminate.
      - injection E as ->. reflexivity.
      - cbn [firstn app]. f_equal. apply IHp; auto. }
    destruct (suffmax (skipn i pts)) as [|b r] eqn:Es.
    { apply (f_equal (@length _)) in Es. rewrite suffmax_length, skipn_length in Es. simpl in Es. lia. }
    assert (L1 : length (firstn (i - 1) pts) = (i - 1)%nat) by (rewrite firstn_length; lia).
    rewrite Sk, (suffmax_cons a _ b r Es), Es, Fi.
    unfold view_swap. rewrite (pyget_nonneg _ (Z.of_nat i - 1) a); [|lia|].
    2:{ rewrite <- app_assoc, nth_error_app2 by lia. rewrite L1.
        replace (Z.to_nat (Z.of_nat i - 1) - (i - 1))%nat with O by lia. reflexivity. }
    rewrite (pyget_nonneg _ (Z.of_nat i) b); [|lia|].
    2:{ rewrite <- app_assoc, nth_error_app2 by lia. rewrite L1.
        replace (Z.to_nat (Z.of_nat i) - (i - 1))%nat with 1%nat by lia. reflexivity. }
    cbn [bind]. destruct (freq a <? freq b).
    + rewrite pyset_in_range by (rewrite !app_length; cbn [length]; lia). cbn [bind]. f_equal. rewrite <- app_assoc. cbn [app].
      rewrite <- (upd_app_len (firstn (i - 1) pts) (b :: r) a b). f_equal. lia.
    + cbn [bind]. rewrite <- app_assoc. reflexivity.
Qed.

Lemma bubble_ok ncam pts : (1 <= ncam)%nat -> length pts = (4 * ncam)%nat ->
  bubble (Z.of_nat ncam) pts = Ok (suffmax pts).
Proof.
  intros Hn HL. unfold bubble. change MAX_CANDS with 4. set (n := (4 * ncam)%nat) in *.
  replace (Z.of_nat ncam * 4) with (Z.of_nat n) by lia.
  rewrite zrange_cons by lia. cbn [foldM].
  pose proof (pass_ok pts n HL (n - 1) 1 ltac:(lia) ltac:(lia)) as P1.
  change (Z.of_nat 1) with 1 in P1. rewrite P1. cbn [bind Nat.sub firstn skipn app].
  destruct (loop_total (fun _ s => s = suffmax pts)
    (fun pts i => foldM view_swap (rev (zrange i (Z.of_nat n))) pts) (1 + 1) (Z.of_nat n) (suffmax pts)) as (s & Es & ->); auto.
  - lia.
  - intros i s Hi ->. eexists. split; [|reflexivity].
    pose proof (pass_ok (suffmax pts) n ltac:(rewrite suffmax_length; lia) (n - Z.to_nat i) (Z.to_nat i) ltac:(lia) ltac:(lia)) as P.
    rewrite Z2Nat.id in P by lia. rewrite P. f_equal.
    rewrite <- (firstn_skipn (Z.to_nat i - 1) (suffmax pts)) at 3. f_equal. apply suffmax_fix.
    intros a b f g Hab Hf Hg. rewrite nth_error_skipn in Hf, Hg. eapply suffmax_desc; [|exact Hf|exact Hg]. lia.
Qed.

(** ---- pruning ---- *)
Definition wipe (b : bool) (f : foundpix) : foundpix := if b then mk_fp (-1) 0 (whichcam f) else f.
(** row [k] is wiped once the first [i] rows have been compared with the later ones *)
Definition dead (B : list foundpix) (i k : nat) (f : foundpix) : bool :=
  (1 <=? i)%nat && (1 <=? k)%nat && ((freq f <? 2) || existsb (Z.eqb (ftnr f)) (firstn (min i k) (map ftnr B))).

Lemma existsb_firstn_S (l : list Z) n v w : nth_error l n = Some w ->
  existsb (Z.eqb v) (firstn (S n) l) = existsb (Z.eqb v) (firstn n l) || (v =? w).
Proof.
  revert n. induction l as [|a l IH]; intros [|n] H; simpl in H; try discriminate.
  - injection H as ->. simpl. now rewrite orb_false_r.
  - specialize (IH n H). cbn [firstn existsb]. cbn [firstn] in IH. rewrite IH. now rewrite orb_assoc.
Qed.

Lemma prune_ok ncam B (w : Z -> Z) : length B = (4 * ncam)%nat -> w (-1) = 0 ->
  (forall f, In f B -> freq f = w (ftnr f)) ->
  exists C, prune (Z.of_nat ncam) B = Ok C /\ length C = length B /\
    forall k f, nth_error B k = Some f -> nth_error C k = Some (wipe (dead B (length B) k f) f).
Proof.
  intros HL W0 HW. unfold prune. change MAX_CANDS with 4.
  set (n := length B) in *. replace (Z.of_nat ncam * 4) with (Z.of_nat n) by lia.
  pose (P := fun (i : Z) (s : list foundpix) => length s = n /\
    forall k f, nth_error B k = Some f -> nth_error s k = Some (wipe (dead B (Z.to_nat i) k f) f)).
  assert (FM : forall f g, In f B -> In g B -> ftnr f = ftnr g -> freq f = freq g).
  { intros f g Hf Hg E. rewrite (HW f Hf), (HW g Hg), E. reflexivity. }
  destruct (loop_total P (fun pts i => foldM (fun pts j =>
      do f <- pyget pts i; do g <- pyget pts j;
      if (ftnr f =? ftnr g) || (freq g <? 2) then pyset pts j (mk_fp TR_UNUSED 0 (whichcam g)) else Ok pts)
      (zrange (i + 1) (Z.of_nat n)) pts) 0 (Z.of_nat n) B) as (s & Es & (S1 & S2)).
  - lia.
  - split; auto.
  - intros i s Hi (S1 & S2).
    pose (Q := fun (j : Z) (t : list foundpix) => length t = n /\
      forall k f, nth_error B k = Some f ->
        nth_error t k = Some (wipe (dead B (if Z.of_nat k <? j then S (Z.to_nat i) else Z.to_nat i) k f) f)).
    destruct (loop_total Q (fun pts j =>
      do f <- pyget pts i; do g <- pyget pts j;
      if (ftnr f =? ftnr g) || (freq g <? 2) then pyset pts j (mk_fp TR_UNUSED 0 (whichcam g)) else Ok pts)
      (i + 1) (Z.of_nat n) s) as (t & Et & (T1 & T2)).
    + lia.
    + split; auto. intros k f Hk. destruct (Z.ltb_spec (Z.of_nat k) (i + 1)) as [Hlt|]; auto.
      rewrite (S2 k f Hk). f_equal. f_equal. unfold dead.
      replace (min (S (Z.to_nat i)) k) with k by lia. replace (min (Z.to_nat i) k) with k by lia.
      destruct k as [|k]; [simpl; now rewrite !andb_false_r|].
      destruct (Z.to_nat i) eqn:Ei; [lia|reflexivity].
    + intros j t Hj (T1 & T2).
      destruct (nth_error B (Z.to_nat i)) as [f|] eqn:Ef; [|apply nth_error_None in Ef; lia].
      destruct (nth_error B (Z.to_nat j)) as [g|] eqn:Eg; [|apply nth_error_None in Eg; lia].
      pose proof (T2 _ _ Ef) as Tf. pose proof (T2 _ _ Eg) as Tg.
      destruct (Z.ltb_spec (Z.of_nat (Z.to_nat i)) j); [|lia].
      destruct (Z.ltb_spec (Z.of_nat (Z.to_nat j)) j); [lia|].
      set (df := dead B (S (Z.to_nat i)) (Z.to_nat i) f) in *.
      set (dg := dead B (Z.to_nat i) (Z.to_nat j) g) in *.
      rewrite (pyget_nonneg t i _ ltac:(lia) Tf). cbn [bind].
      rewrite (pyget_nonneg t j _ ltac:(lia) Tg). cbn [bind].
      assert (KEY : dead B (S (Z.to_nat i)) (Z.to_nat j) g =
        dg || ((ftnr (wipe df f) =? ftnr (wipe dg g)) || (freq (wipe dg g) <? 2))).
      { destruct dg eqn:Dg.
        - cbn [orb]. unfold dg, dead in Dg. unfold dead. apply andb_true_iff in Dg as (D1 & D2). apply andb_true_iff in D1 as (D0 & D1).
          rewrite D1. cbn [Nat.leb andb]. apply orb_true_iff in D2 as [->|D2]; auto. apply orb_true_iff. right.
          apply existsb_exists in D2 as (x & X1 & X2). apply existsb_exists. exists x. split; auto.
          revert X1. replace (min (Z.to_nat i) (Z.to_nat j)) with (Z.to_nat i) by lia.
          replace (min (S (Z.to_nat i)) (Z.to_nat j)) with (S (Z.to_nat i)) by lia.
          intros X1. rewrite <- (firstn_skipn (Z.to_nat i) (firstn (S (Z.to_nat i)) (map ftnr B))).
          rewrite firstn_firstn. replace (min (Z.to_nat i) (S (Z.to_nat i))) with (Z.to_nat i) by lia. apply in_or_app; auto.
        - cbn [orb wipe]. unfold dead. replace (1 <=? Z.to_nat j)%nat with true by (symmetry; apply Nat.leb_le; lia).
          cbn [Nat.leb andb]. replace (min (S (Z.to_nat i)) (Z.to_nat j)) with (S (Z.to_nat i)) by lia.
          rewrite (existsb_firstn_S _ _ (ftnr g) (ftnr f)) by (now rewrite nth_error_map, Ef).
          destruct (freq g <? 2) eqn:Fg; [rewrite orb_true_r; auto|]. rewrite orb_false_r. cbn [orb].
          (* not wiped earlier: no equal id among the first i rows *)
          assert (NE : existsb (Z.eqb (ftnr g)) (firstn (Z.to_nat i) (map ftnr B)) = false).
          { unfold dg, dead in Dg. replace (1 <=? Z.to_nat j)%nat with true in Dg by (symmetry; apply Nat.leb_le; lia).
            replace (min (Z.to_nat i) (Z.to_nat j)) with (Z.to_nat i) in Dg by lia. rewrite Fg in Dg.
            destruct (Z.to_nat i) as [|i']; [reflexivity|]. cbn [Nat.leb andb orb] in Dg. exact Dg. }
          rewrite NE. cbn [orb].
          destruct df eqn:Df; cbn [wipe ftnr]; [|apply Z.eqb_sym].
          (* row i is wiped *)
          assert (Gn : ftnr g <> -1).
          { intros E. pose proof (HW g (nth_error_In _ _ Eg)) as X. rewrite E, W0 in X. rewrite X in Fg. discriminate. }
          destruct (Z.eqb_spec (ftnr g) (ftnr f)) as [Egf|]; [|destruct (Z.eqb_spec (-1) (ftnr g)); auto; congruence].
          exfalso. unfold df, dead in Df. apply andb_true_iff in Df as (D0 & D1). apply orb_true_iff in D1 as [D1|D1].
          + rewrite (FM f g) in D1; eauto using nth_error_In. congruence.
          + replace (min (S (Z.to_nat i)) (Z.to_nat i)) with (Z.to_nat i) in D1 by lia. rewrite Egf in NE. congruence. }
      assert (ST : forall r, nth_error r (Z.to_nat j) = Some (wipe (dead B (S (Z.to_nat i)) (Z.to_nat j) g) g) ->
        length r = n -> (forall k, k <> Z.to_nat j -> nth_error r k = nth_error t k) -> Q (j + 1) r).
      { intros r R1 R2 R3. split; auto. intros k h Hk. destruct (Nat.eq_dec k (Z.to_nat j)) as [->|Nk].
        - destruct (Z.ltb_spec (Z.of_nat (Z.to_nat j)) (j + 1)); [|lia]. assert (h = g) as -> by congruence. auto.
        - rewrite R3 by auto. rewrite (T2 k h Hk).
          destruct (Z.ltb_spec (Z.of_nat k) j), (Z.ltb_spec (Z.of_nat k) (j + 1)); try lia; auto. }
      destruct ((ftnr (wipe df f) =? ftnr (wipe dg g)) || (freq (wipe dg g) <? 2)) eqn:EC.
      * rewrite pyset_in_range by lia. eexists. split; [reflexivity|]. apply ST.
        -- rewrite nth_error_upd_eq by lia. rewrite KEY, orb_true_r. unfold wipe at 2. f_equal. unfold TR_UNUSED. f_equal.
           destruct dg; reflexivity.
        -- now rewrite upd_length.
        -- intros k Nk. now apply nth_error_upd_neq.
      * eexists. split; [reflexivity|]. apply ST; auto. rewrite KEY, orb_false_r. exact Tg.
    + exists t. split; auto. split; auto. intros k f Hk. rewrite (T2 k f Hk).
      assert (k < n)%nat by (apply nth_error_Some; congruence).
      destruct (Z.ltb_spec (Z.of_nat k) (Z.of_nat n)); [|lia]. replace (Z.to_nat (i + 1)) with (S (Z.to_nat i)) by lia. reflexivity.
  - exists s. split; auto. split; auto. intros k f Hk. rewrite (S2 k f Hk). rewrite Nat2Z.id. reflexivity.
Qed.

(** ---- counting the rows left ---- *)
Lemma count_rows (l pre : list foundpix) k :
  foldM (fun k i => do f <- pyget (pre ++ l) i; Ok (if freq f =? 0 then k else k + 1))
        (zrange (Z.of_nat (length pre)) (Z.of_nat (length pre + length l))) k =
  Ok (k + Z.of_nat (length (filter (fun f => negb (freq f =? 0)) l))).
Proof.
  revert pre k. induction l as [|a l IH]; intros pre k.
  - rewrite zrange_empty by (simpl; lia). simpl. f_equal. lia.
  - rewrite zrange_cons by (simpl; lia). cbn [foldM].
    rewrite (pyget_nonneg _ _ a); [|lia|rewrite Nat2Z.id, nth_error_app2, Nat.sub_diag by lia; reflexivity].
    cbn [bind]. specialize (IH (pre ++ [a]) (if freq a =? 0 then k else k + 1)).
    rewrite <- app_assoc in IH. cbn [app] in IH. rewrite app_length in IH. cbn [length] in IH.
    replace (Z.of_nat (length pre) + 1) with (Z.of_nat (length pre + 1)) by lia.
    replace (length pre + length (a :: l))%nat with (length pre + 1 + length l)%nat by (simpl; lia).
    rewrite IH. f_equal. cbn [filter]. destruct (freq a =? 0); cbn [negb length]; lia.
Qed.

Lemma desc_prefix (l : list foundpix) :
  (forall i j f g, (i <= j)%nat -> nth_error l i = Some f -> nth_error l j = Some g -> freq g <= freq f) ->
  (forall f, In f l -> 0 <= freq f) ->
  forall k f, nth_error l k = Some f ->
    ((k < length (filter (fun f => negb (freq f =? 0)%Z) l))%nat <-> freq f <> 0).
Proof.
  induction l as [|a l IH]; intros HD HN k f Hk; [destruct k; discriminate|].
  assert (HD' : forall i j f g, (i <= j)%nat -> nth_error l i = Some f -> nth_error l j = Some g -> freq g <= freq f).
  { intros i j g h Hij Hg Hh. apply (HD (S i) (S j)); auto. lia. }
  specialize (IH HD' (fun f Hf => HN f (or_intror Hf))).
  cbn [filter]. destruct (Z.eqb_spec (freq a) 0) as [E|E]; cbn [negb].
  - (* all zero *)
    assert (Z0 : forall g, In g l -> freq g = 0).
    { intros g Hg. pose proof (HN g (or_intror Hg)). apply In_nth_error in Hg as (i & Hi).
      specialize (HD O (S i) a g ltac:(lia) eq_refl Hi). lia. }
    assert (filter (fun f => negb (freq f =? 0)) l = []) as ->.
    { clear -Z0. induction l as [|b l IHl]; auto. cbn [filter]. rewrite (Z0 b) by (left; auto). cbn. apply IHl. intros; apply Z0; right; auto. }
    cbn [length]. split; [lia|]. intros H. exfalso. apply H. destruct k as [|k]; simpl in Hk.
    + congruence.
    + apply Z0. eapply nth_error_In; eauto.
  - cbn [length]. destruct k as [|k]; simpl in Hk.
    + injection Hk as <-. split; auto. lia.
    + rewrite <- (IH k f Hk). lia.
Qed.

Lemma votes_nonneg ncam ids v : 0 <= votes ncam ids v.
Proof. unfold votes. destruct (_ =? _); lia. Qed.
Lemma votes_pos ncam ids v : length ids = (4 * ncam)%nat -> In v ids -> v <> -1 -> 1 <= votes ncam ids v.
Proof.
  intros HL Hv Hn. unfold votes. destruct (Z.eqb_spec v (-1)); [congruence|].
  apply In_nth_error in Hv as (k & Hk). assert (k < length ids)%nat by (apply nth_error_Some; congruence).
  pose proof (Nat.div_mod k 4 ltac:(lia)) as DM. pose proof (Nat.mod_upper_bound k 4 ltac:(lia)) as MB.
  assert (In (k / 4)%nat (filter (fun j => seen_by ids j v) (seq 0 ncam))).
  { apply filter_In. split; [apply in_seq; lia|]. apply (proj2 (seen_by_ex ncam ids (k / 4) v ltac:(lia))). exists (k mod 4)%nat. split; auto. now rewrite <- DM. }
  destruct (filter _ _); [destruct H0|simpl; lia].
Qed.

Theorem sort_exact ncam pts : (1 <= ncam)%nat -> registered ncam pts ->
  let ids := map ftnr pts in
  exists d out, sort_candidates_by_freq pts (Z.of_nat ncam) = Ok (Z.of_nat d, out) /\
    length out = length pts /\
    (forall k f, nth_error out k = Some f ->
       if (k <? d)%nat then ftnr f <> -1 /\ freq f = votes ncam ids (ftnr f) /\ 1 <= freq f /\ survives ncam ids (ftnr f)
       else ftnr f = -1 /\ freq f = 0) /\
    (forall i j f g, (i <= j)%nat -> nth_error out i = Some f -> nth_error out j = Some g -> freq g <= freq f) /\
    (forall v, 2 <= votes ncam ids v -> survives ncam ids v -> exists k f, nth_error out k = Some f /\ ftnr f = v) /\
    (forall f v, nth_error out 0 = Some f -> In v ids -> votes ncam ids v <= freq f) /\
    (forall k f, nth_error out k = Some f -> freq f = 1 -> d = 1%nat).
Proof.
  intros Hn HR ids. destruct HR as (HL & HR'). pose proof (conj HL HR' : registered ncam pts) as HR.
  destruct (votes_ok ncam pts HR) as (A & EA & LA & IA & VA).
  assert (Lids : length ids = (4 * ncam)%nat) by (unfold ids; now rewrite map_length).
  fold ids in IA, VA.
  unfold sort_candidates_by_freq.
  destruct (mark_cams (Z.of_nat ncam) pts) as [p1|]; cbn [bind] in EA |- *; [|discriminate]. rewrite EA. cbn [bind].
  rewrite bubble_ok by lia. cbn [bind]. set (B := suffmax A).
  assert (LB : length B = length pts) by (unfold B; rewrite suffmax_length; auto).
  assert (BA : forall f, In f B -> In f A).
  { intros f Hf. apply In_nth_error in Hf as (k & Hk). apply suffmax_spec in Hk as (k' & _ & H & _). eapply nth_error_In; eauto. }
  assert (VB : forall f, In f B -> freq f = votes ncam ids (ftnr f)) by auto.
  assert (W0 : votes ncam ids (-1) = 0) by reflexivity.
  destruct (prune_ok ncam B (votes ncam ids)) as (C & EC & LC & HC); auto; [lia|].
  rewrite EC. cbn [bind]. rewrite bubble_ok by lia. cbn [bind]. set (D := suffmax C).
  assert (LD : length D = length pts) by (unfold D; rewrite suffmax_length; lia).
  change MAX_CANDS with 4. replace (Z.of_nat ncam * 4) with (Z.of_nat (length D)) by lia.
  pose proof (count_rows D [] 0) as CR. cbn [app length Nat.add] in CR. change (Z.of_nat 0) with 0 in CR. rewrite CR. cbn [bind]. rewrite Z.add_0_l.
  set (d := length (filter (fun f => negb (freq f =? 0)) D)).
  assert (BD : forall k g, nth_error C k = Some g -> exists f, nth_error B k = Some f /\ g = wipe (dead B (length B) k f) f).
  { intros k g Hg. assert (k < length C)%nat by (apply nth_error_Some; congruence).
    destruct (nth_error B k) as [f|] eqn:E; [|apply nth_error_None in E; lia].
    exists f. split; auto. rewrite (HC k f E) in Hg. congruence. }
  assert (SB : forall k f, nth_error B k = Some f -> survives ncam ids (ftnr f)).
  { intros k f Hk. apply suffmax_spec in Hk as (k' & _ & H1 & H2 & _). exists k'. split.
    - rewrite <- IA, nth_error_map, H1. reflexivity.
    - intros i v Hi Hv. rewrite <- IA, nth_error_map in Hv. destruct (nth_error A i) as [g|] eqn:Eg; [|discriminate].
      cbn in Hv. injection Hv as <-. rewrite <- (VA g), <- (VA f) by (eapply nth_error_In; eauto). eauto. }
  assert (DESC : forall i j f g, (i <= j)%nat -> nth_error D i = Some f -> nth_error D j = Some g -> freq g <= freq f).
  { intros i j f g. apply suffmax_desc. }
  assert (DB : forall k f, nth_error D k = Some f -> freq f <> 0 ->
    exists k', (k <= k')%nat /\ nth_error B k' = Some f /\ dead B (length B) k' f = false).
  { intros k f Hk Hf. apply suffmax_spec in Hk as (k' & K1 & K2 & _). apply BD in K2 as (g & G1 & G2).
    exists k'. split; auto. destruct (dead B (length B) k' g) eqn:E; [rewrite G2 in Hf; cbn in Hf; congruence|].
    cbn [wipe] in G2. subst g. auto. }
  assert (NN : forall f, In f D -> 0 <= freq f).
  { intros f Hf. destruct (Z.eq_dec (freq f) 0) as [->|N]; [lia|]. apply In_nth_error in Hf as (k & Hk).
    destruct (DB k f Hk N) as (k' & _ & H & _). rewrite (VB f) by (eapply nth_error_In; eauto). apply votes_nonneg. }
  pose proof (desc_prefix D DESC NN) as PF. fold d in PF.
  exists d, D. split; auto. split; auto. split; [|split; [auto|split; [|split]]].
  - intros k f Hk. destruct (Nat.ltb_spec k d) as [Hd|Hd].
    + apply (PF k f Hk) in Hd. destruct (DB k f Hk Hd) as (k' & _ & H & _).
      pose proof (VB f (nth_error_In _ _ H)) as V. split.
      { intros E. rewrite E, W0 in V. auto. }
      split; auto. split; [|eapply SB; eauto]. pose proof (NN f (nth_error_In _ _ Hk)). lia.
    + assert (Z0 : freq f = 0).
      { destruct (Z.eq_dec (freq f) 0); auto. apply (PF k f Hk) in n. lia. }
      split; auto. apply suffmax_spec in Hk as (k' & _ & K2 & _). apply BD in K2 as (g & G1 & G2).
      destruct (dead B (length B) k' g); cbn [wipe] in G2; subst f; cbn [ftnr]; auto.
      pose proof (VB g (nth_error_In _ _ G1)) as V. destruct (Z.eq_dec (ftnr g) (-1)); auto.
      assert (1 <= votes ncam ids (ftnr g)); [|lia]. apply votes_pos; auto.
      rewrite <- IA. apply in_map, BA. eapply nth_error_In; eauto.
  - intros v Hv2 (k & Hk & Hlate).
    (* v is in B *)
    assert (EB : exists k f, nth_error B k = Some f /\ ftnr f = v).
    { rewrite <- IA, nth_error_map in Hk. destruct (nth_error A k) as [f|] eqn:Ef; [|discriminate]. cbn in Hk. injection Hk as Hk.
      exists k, f. split; auto. apply suffmax_spec. exists k. split; [lia|]. split; auto. split; [|intros; lia].
      intros i g Hi Hg. rewrite (VA g), (VA f), Hk by (eapply nth_error_In; eauto). apply (Hlate i); auto.
      rewrite <- IA, nth_error_map, Hg. reflexivity. }
    assert (FB : exists k f, nth_error B k = Some f /\ ftnr f = v /\ existsb (Z.eqb v) (firstn k (map ftnr B)) = false).
    { destruct EB as (kb & f & H1 & H2). clear -H1 H2. revert f H1 H2. induction kb as [kb IH] using lt_wf_ind. intros f H1 H2.
      destruct (existsb (Z.eqb v) (firstn kb (map ftnr B))) eqn:E; [|eauto].
      apply existsb_exists in E as (x & X1 & X2). apply Z.eqb_eq in X2 as <-. apply In_nth_error in X1 as (i & Hi).
      assert (i < length (firstn kb (map ftnr B)))%nat by (apply nth_error_Some; congruence). rewrite firstn_length in H.
      rewrite nth_error_firstn in Hi by lia. rewrite nth_error_map in Hi. destruct (nth_error B i) as [g|] eqn:Eg; [|discriminate].
      injection Hi as Hi. apply (IH i ltac:(lia) g); auto. }
    destruct FB as (kb & f & H1 & H2 & H3). exists kb, f. split; auto.
    assert (FV : freq f = votes ncam ids v) by (rewrite (VB f), H2; [auto|eapply nth_error_In; eauto]).
    assert (HD : dead B (length B) kb f = false).
    { unfold dead. rewrite H2. assert (kb < length B)%nat by (apply nth_error_Some; congruence).
      replace (min (length B) kb) with kb by lia. rewrite H3. destruct (Z.ltb_spec (freq f) 2); [lia|]. cbn. now rewrite andb_false_r. }
    apply suffmax_spec. exists kb. split; [lia|]. split; [rewrite (HC kb f H1), HD; auto|]. split; [|intros; lia].
    intros i g Hi Hg. apply BD in Hg as (h & G1 & G2). assert (freq h <= freq f).
    { eapply suffmax_desc; [|exact H1|exact G1]. lia. }
    destruct (dead B (length B) i h); cbn [wipe] in G2; subst g; cbn [freq]; auto. lia.
  - intros f v Hf Hv. rewrite <- IA in Hv. apply in_map_iff in Hv as (g & <- & Hg). rewrite <- (VA g Hg).
    apply In_nth_error in Hg as (i & Hi).
    destruct (nth_error B 0) as [b|] eqn:Eb; [|apply nth_error_None in Eb; lia].
    assert (Gb : freq g <= freq b).
    { apply suffmax_spec in Eb as (k' & _ & K2 & K3 & K4). destruct (Nat.lt_trichotomy i k') as [Hl|[->|Hl]].
      - specialize (K4 i g ltac:(lia) Hi). lia.
      - assert (g = b) by congruence. subst; lia.
      - eauto. }
    assert (nth_error D 0 = Some b).
    { apply suffmax_spec. exists O. split; auto. split; [|split; [|intros; lia]].
      - rewrite (HC O b Eb). f_equal. unfold dead. cbn [Nat.leb]. now rewrite andb_false_r.
      - intros j h Hj Hh. apply BD in Hh as (h' & G1 & G2). assert (freq h' <= freq b).
        { eapply suffmax_desc; [|exact Eb|exact G1]. lia. }
        destruct (dead B (length B) j h'); cbn [wipe] in G2; subst h; cbn [freq]; auto.
        rewrite (VB b) by (eapply nth_error_In; eauto). apply votes_nonneg. }
    assert (f = b) by congruence. subst; auto.
  - intros k f Hk Hf. destruct (DB k f Hk ltac:(lia)) as (k' & K1 & K2 & K3).
    assert (X : forall k f, nth_error D k = Some f -> freq f = 1 -> k = O).
    { intros j h Hj Hh. destruct (DB j h Hj ltac:(lia)) as (j' & J1 & J2 & J3). unfold dead in J3. rewrite Hh in J3.
      change (1 <? 2) with true in J3. cbn [orb] in J3. rewrite andb_true_r in J3.
      destruct j' as [|j']; [lia|]. assert (S j' < length B)%nat by (apply nth_error_Some; congruence).
      destruct (length B); [lia|]. discriminate. }
    pose proof (X k f Hk Hf) as ->.
    assert (D0 : (0 < d)%nat) by (apply (PF O f Hk); lia).
    destruct (nth_error D 1) as [g|] eqn:Eg; [|apply nth_error_None in Eg; lia].
    assert (freq g <= 1) by (rewrite <- Hf; eapply DESC; [|exact Hk|exact Eg]; lia).
    pose proof (NN g (nth_error_In _ _ Eg)).
    assert (freq g <> 1) by (intros E; discriminate (X _ _ Eg E)).
    assert (~ (1 < d)%nat) by (intros Hd; apply (PF 1%nat g Eg) in Hd; lia). lia.
Qed.
