(** Properties C65-C67: why links are made. *)
From Coq Require Import Permutation Sorted.
From Verif Require Import Base F64 Model_corr Model_cand Spec_cand Lib Model_track Spec_track
  Proof_track_search Proof_track_step Proof_track_back Proof_track_just Proof_track_just2 Proof_track_ex.
Local Open Scope Z_scope.

(** ===== C65: every link made by a forward step has a reason =====
    for arbitrary geometry.  Natural expectation: the displacement of every link lies
    within the configured limits; see C65_displacement_refuted *)
Theorem C65_links_justified : forall psort, (forall l, Permutation l (psort l)) ->
  forall pixdist ncam imx imy ptp quader moving extrap sub norm angle flat point tp vl, (1 <= ncam <= 4)%nat ->
  forall buf0 b1 b2 b3 c1 c2 c3 cnt,
  frame_ok b1 -> frame_ok b2 -> frame_ok b3 ->
  (forall p, In p (fr_path b1) -> p_next p = NEXT_NONE) ->
  (forall p, In p (fr_path b2) -> fresh_particle p) ->
  trackcorr_step psort pixdist (Z.of_nat ncam) imx imy ptp quader moving extrap sub norm angle flat point tp vl buf0 b1 b2 b3
    = Ok (c1, c2, c3, cnt) ->
  let sight f := sighting pixdist ncam imx imy ptp flat (fr_targ f) in
  forall h k, next_of (fr_path c1) h = Z.of_nat k ->
    exists p q hp x0 x2, nth_error (fr_path b1) h = Some p /\ nth_error (fr_path c2) k = Some q /\
      past_of moving buf0 p hp x0 x2 /\
      justified sub angle point tp vl (sight b2) (sight b3) (map p_x (fr_path c3)) hp (p_x p) x2 (p_x q)
        (if hp then extrap (p_x q) (p_x p) x0 else moving (p_x p) (p_x q)).
Proof.
  intros psort HP pixdist ncam imx imy ptp quader moving extrap sub norm angle flat point tp vl Hnc buf0 b1 b2 b3 c1 c2 c3 cnt F1 F2 F3 N1 N2 H sight.
  eapply step_justified in H; eauto. destruct H as (H & _). exact H.
Qed.
Print Assumptions C65_links_justified.

Lemma two_ok' k : frame_ok (two k).
Proof.
  split; [reflexivity|]. intros tl t Htl Ht. cbn in Htl.
  destruct Htl as [<-|[<-|[]]]; destruct Ht as [<-|[<-|[]]]; cbn; lia.
Qed.
Example C65_case : frame_ok (two 1) /\ frame_ok (two 2) /\ frame_ok (two 3) /\
  match toy_step 2 true nofrm (two 1) (two 2) (two 3) with
  | Ok (c1, c2, c3, n) => map p_next (fr_path c1) = [0; 1] /\ n = 2 | Exn _ => False end.
Proof. split; [apply two_ok'|]. split; [apply two_ok'|]. split; [apply two_ok'|]. vm_compute. auto. Qed.

(** the limits on the displacement apply to the step after the link, or to a
    link tried alone; a particle may jump beyond them if it goes on smoothly:
    here by 25 in z with limits -20 .. 20 *)
Definition hop (k z : Z) : frame :=
  frm [pt80 (50 + 3 * k) (40 + k) z] [row 0 0] [[tg (50 + 3 * k) (40 + k) 0]; [tg (50 + 3 * k) (40 + k) 0]].
Theorem C65_displacement_refuted : exists psort, (forall l, Permutation l (psort l)) /\
  exists pixdist ptp quader moving extrap norm angle flat point tp vl b1 b2 b3 c1 c2 c3 cnt,
  frame_ok b1 /\ frame_ok b2 /\ frame_ok b3 /\
  (forall p, In p (fr_path b1) -> p_next p = NEXT_NONE) /\ (forall p, In p (fr_path b2) -> fresh_particle p) /\
  trackcorr_step psort pixdist 2 1000 1000 ptp quader moving extrap toy_sub norm angle flat point tp vl nofrm b1 b2 b3
    = Ok (c1, c2, c3, cnt) /\
  next_of (fr_path c1) 0 = 0 /\
  exists p q, nth_error (fr_path b1) 0 = Some p /\ nth_error (fr_path c2) 0 = Some q /\
    ~ within_step_limits tp (toy_sub (p_x q) (p_x p)).
Proof.
  exists isort. split; [exact isort_perm|].
  assert (V : match toy_step 2 false nofrm (hop 1 0) (hop 2 25) (hop 3 44) with
    | Ok (c1, c2, _, _) => next_of (fr_path c1) 0 = 0 /\ map p_x (fr_path c2) = [(fz 56, fz 42, fz 25)]
    | Exn _ => False end) by (vm_compute; auto).
  destruct (toy_step 2 false nofrm (hop 1 0) (hop 2 25) (hop 3 44)) as [[[[c1 c2] c3] cnt]|e] eqn:E; [|destruct V].
  destruct V as (V1 & V2). destruct (fr_path c2) as [|q l] eqn:Ec; [discriminate|]. injection V2 as V2 _.
  exists toy_dist, toy_pixel, toy_quader, toy_moving, toy_extrap, toy_norm, toy_angle, toy_flat, toy_point, (toy_tp false), toy_vl,
    (hop 1 0), (hop 2 25), (hop 3 44), c1, c2, c3, cnt.
  assert (FO : forall k z, frame_ok (hop k z)).
  { intros k z. split; [reflexivity|]. intros tl t [<-|[<-|[]]] [<-|[]]; cbn; lia. }
  split; [apply FO|]. split; [apply FO|]. split; [apply FO|].
  split; [intros p [<-|[]]; reflexivity|]. split; [intros p [<-|[]]; split; reflexivity|]. split; [exact E|].
  split; [exact V1|]. exists (pt80 53 41 0), q. split; [reflexivity|]. rewrite Ec. split; [reflexivity|]. rewrite V2.
  intros (_ & _ & _ & _ & _ & A). vm_compute in A. discriminate.
Qed.
Print Assumptions C65_displacement_refuted.

(** ===== C66: particles added by a forward step =====
    lie inside the volume and are the intersection of the rays of unused
    targets seen by at least two cameras *)
Theorem C66_added_particles : forall psort, (forall l, Permutation l (psort l)) ->
  forall pixdist ncam imx imy ptp quader moving extrap sub norm angle flat point tp vl, (1 <= ncam <= 4)%nat ->
  forall buf0 b1 b2 b3 c1 c2 c3 cnt,
  frame_ok b1 -> frame_ok b2 -> frame_ok b3 ->
  (forall p, In p (fr_path b1) -> p_next p = NEXT_NONE) ->
  (forall p, In p (fr_path b2) -> fresh_particle p) ->
  trackcorr_step psort pixdist (Z.of_nat ncam) imx imy ptp quader moving extrap sub norm angle flat point tp vl buf0 b1 b2 b3
    = Ok (c1, c2, c3, cnt) ->
  let sound f x := inside_volume vl x /\ exists centre n flats,
    sighting pixdist ncam imx imy ptp flat (fr_targ f) centre n flats /\ 2 <= n /\ x = point flats in
  (exists l, map p_x (fr_path c2) = map p_x (fr_path b2) ++ l /\ Forall (sound b2) l) /\
  (exists l, map p_x (fr_path c3) = map p_x (fr_path b3) ++ l /\ Forall (sound b3) l).
Proof.
  intros psort HP pixdist ncam imx imy ptp quader moving extrap sub norm angle flat point tp vl Hnc buf0 b1 b2 b3 c1 c2 c3 cnt F1 F2 F3 N1 N2 H sound.
  eapply step_justified in H; eauto. destruct H as (_ & H1 & H2 & _). split; [exact H1|exact H2].
Qed.
Print Assumptions C66_added_particles.
(** the target of frame 3 belongs to no particle yet: one is added *)
Definition loose (k : Z) : frame :=
  frm [] [mk_corres 1 [0; 0; -1; -1]; mk_corres 1 [0; 0; -1; -1]] [[tg (50 + 3 * k) (40 + k) (-1)]; [tg (50 + 3 * k) (40 + k) (-1)]].
Example C66_case : frame_ok (hop 1 0) /\ frame_ok (hop 2 0) /\ frame_ok (loose 3) /\
  match toy_step 2 true nofrm (hop 1 0) (hop 2 0) (loose 3) with
  | Ok (c1, c2, c3, n) => map p_x (fr_path c3) = [(fz 59, fz 43, fzero)] /\ n = 1 | Exn _ => False end.
Proof.
  assert (FO : forall k z, frame_ok (hop k z)).
  { intros k z. split; [reflexivity|]. intros tl t [<-|[<-|[]]] [<-|[]]; cbn; lia. }
  split; [apply FO|]. split; [apply FO|]. split.
  { split; [reflexivity|]. intros tl t [<-|[<-|[]]] [<-|[]]; cbn; lia. }
  vm_compute. auto.
Qed.

(** ===== C67: links made by a backward step respect the limits ===== *)
Theorem C67_backward_limits : forall psort, (forall l, Permutation l (psort l)) ->
  forall pixdist ncam imx imy ptp quader moving extrap sub norm angle flat point tp vl, (1 <= ncam <= 4)%nat ->
  forall buf0 b1 b2 b3 c1 c2 cnt,
  frame_ok b1 -> frame_ok b2 -> (forall p, In p (fr_path b1) -> p_inlist p = 0) ->
  trackback_step psort pixdist (Z.of_nat ncam) imx imy ptp quader moving extrap sub norm angle flat point tp vl buf0 b1 b2 b3
    = Ok (c1, c2, cnt) ->
  forall h k, prev_of (fr_path c1) h = Z.of_nat k -> prev_of (fr_path b1) h <> Z.of_nat k ->
  exists p, nth_error (fr_path b1) h = Some p /\ 0 <= p_next p /\ p_prev p = PREV_NONE /\
  exists q q0, nth_error (fr_path b2) k = Some q /\ nth_error (fr_path buf0) (Z.to_nat (p_next p)) = Some q0 /\
    within_step_limits tp (sub (p_x p) (p_x q)) /\
    smooth_motion tp (angle (p_x p) (moving (p_x q0) (p_x p)) (p_x q)).
Proof.
  intros psort HP pixdist ncam imx imy ptp quader moving extrap sub norm angle flat point tp vl Hnc buf0 b1 b2 b3 c1 c2 cnt F1 F2 HI H h k Hk Hn.
  eapply back_justified in H; eauto. destruct H as (p & A & B & C & q & q0 & D). exists p. split; auto. split; auto. split; auto.
  rewrite Nat2Z.id in D. exists q, q0. exact D.
Qed.
Print Assumptions C67_backward_limits.
Example C67_case :
  let later := frm [part 80 56 42 0 0 (-2)] [row 0 0] [[tg 56 42 0]; [tg 56 42 0]] in
  let now := frm [part 80 53 41 0 (-1) 0] [row 0 0] [[tg 53 41 0]; [tg 53 41 0]] in
  frame_ok now /\ frame_ok (hop 0 0) /\ (forall p, In p (fr_path now) -> p_inlist p = 0) /\
  match toy_back 2 false later now (hop 0 0) nofrm with
  | Ok (c1, c2, n) => map p_prev (fr_path c1) = [0] /\ map p_next (fr_path c2) = [0] /\ n = 1 | Exn _ => False end.
Proof.
  cbv zeta. split; [split; [reflexivity|]; intros tl t [<-|[<-|[]]] [<-|[]]; cbn; lia|].
  split; [split; [reflexivity|]; intros tl t [<-|[<-|[]]] [<-|[]]; cbn; lia|].
  split; [intros p [<-|[]]; reflexivity|]. vm_compute. auto.
Qed.
(** Natural expectation: with do_add set, a backward step also fills gaps.  The code
    tests 0 < y < 0 there, so it never adds a particle *)
Theorem C67_never_adds : forall psort, (forall l, Permutation l (psort l)) ->
  forall pixdist ncam imx imy ptp quader moving extrap sub norm angle flat point tp vl, (1 <= ncam <= 4)%nat ->
  forall buf0 b1 b2 b3 c1 c2 cnt,
  frame_ok b1 -> frame_ok b2 -> (forall p, In p (fr_path b1) -> p_inlist p = 0) -> back_mutual (fr_path b1) (fr_path b2) ->
  trackback_step psort pixdist (Z.of_nat ncam) imx imy ptp quader moving extrap sub norm angle flat point tp vl buf0 b1 b2 b3
    = Ok (c1, c2, cnt) ->
  fr_num c2 = fr_num b2 /\ length (fr_path c2) = length (fr_path b2) /\ fr_targ c2 = fr_targ b2 /\ fr_corr c2 = fr_corr b2.
Proof.
  intros psort HP pixdist ncam imx imy ptp quader moving extrap sub norm angle flat point tp vl Hnc buf0 b1 b2 b3 c1 c2 cnt F1 F2 HI HM H.
  eapply trackback_step_links in H; eauto. destruct H as (_ & _ & A & _ & _ & B). injection B as B1 B2 B3. auto.
Qed.
Print Assumptions C67_never_adds.

(** ===== C14, whole step: every particle takes the best of its candidates =====
    [le] is the order of Python's sorted() on (decision value, candidate) pairs
    (lists with NaN are excepted: Python does not sort them); after
    the step a particle's candidate list starts with the best one, and the
    particle is linked to that one or (if it lost it to another) to none *)
Theorem C14_best_candidate : forall psort le, (forall l, Permutation l (psort l)) ->
  (forall l, (forall x, In x l -> is_nan (fst x) = false) -> StronglySorted le (psort l)) ->
  forall pixdist ncam imx imy ptp quader moving extrap sub norm angle flat point tp vl, (1 <= ncam <= 4)%nat ->
  forall buf0 b1 b2 b3 c1 c2 c3 cnt,
  frame_ok b1 -> frame_ok b2 -> frame_ok b3 ->
  (forall p, In p (fr_path b1) -> p_next p = NEXT_NONE) ->
  (forall p, In p (fr_path b2) -> fresh_particle p) ->
  trackcorr_step psort pixdist (Z.of_nat ncam) imx imy ptp quader moving extrap sub norm angle flat point tp vl buf0 b1 b2 b3
    = Ok (c1, c2, c3, cnt) ->
  forall h q, nth_error (fr_path c1) h = Some q -> 0 < p_inlist q ->
  exists d v, nth_error (p_decis q) 0 = Some d /\ nth_error (p_link q) 0 = Some v /\ p_final q = d /\
    (p_next q = v \/ p_next q = NEXT_NONE) /\
    ((forall j dj, Z.of_nat j < p_inlist q -> nth_error (p_decis q) j = Some dj -> is_nan dj = false) ->
     forall j dj vj, (0 < j)%nat -> Z.of_nat j < p_inlist q -> nth_error (p_decis q) j = Some dj -> nth_error (p_link q) j = Some vj ->
       le (d, v) (dj, vj)).
Proof.
  intros psort le HP HS pixdist ncam imx imy ptp quader moving extrap sub norm angle flat point tp vl Hnc buf0 b1 b2 b3 c1 c2 c3 cnt F1 F2 F3 N1 N2 H h q Hq Hi.
  eapply step_justified in H; eauto. destruct H as (_ & _ & _ & H). exact (H le HS h q Hq Hi).
Qed.
Print Assumptions C14_best_candidate.
(** the insertion sort of the examples sorts by [pair_le] *)
Lemma pair_le_total a b : is_nan (fst a) = false -> is_nan (fst b) = false -> pair_le a b = false -> pair_le b a = true.
Proof.
  unfold pair_le. intros Na Nb H. apply orb_false_iff in H as (H1 & H2).
  apply flt_false_fle in H1; auto. destruct (flt (fst b) (fst a)) eqn:E; auto. cbn [orb].
  apply flt_false_fle in E; auto.
  assert (Q : feq (fst a) (fst b) = true /\ feq (fst b) (fst a) = true).
  { unfold fle, feq, SFleb, SFeqb in *. pose proof (SFcompare_swap (fst a) (fst b)) as SW.
    destruct (SFcompare (fst a) (fst b)) as [[]|]; cbn in SW; rewrite SW in *; try discriminate; auto. }
  destruct Q as (Q1 & Q2). rewrite Q1 in H2. rewrite Q2. cbn [andb] in *. lia.
Qed.
Lemma pair_le_trans a b c : pair_le a b = true -> pair_le b c = true -> pair_le a c = true.
Proof.
  unfold pair_le. intros H1 H2. apply orb_true_iff in H1 as [H1|H1]; apply orb_true_iff in H2 as [H2|H2].
  - rewrite (flt_trans _ _ _ H1 H2). reflexivity.
  - apply andb_true_iff in H2 as (H2 & _). rewrite <- (feq_flt_r _ _ (fst a) H2), H1. reflexivity.
  - apply andb_true_iff in H1 as (H1 & _). rewrite (feq_flt _ _ (fst c) H1), H2. reflexivity.
  - apply andb_true_iff in H1 as (H1 & H1'). apply andb_true_iff in H2 as (H2 & H2').
    apply feq_key in H1 as (A1 & A2 & A3). apply feq_key in H2 as (B1 & B2 & B3).
    assert (Q : feq (fst a) (fst c) = true) by (apply feq_key; split; auto; split; auto; congruence).
    rewrite Q. cbn [andb]. rewrite orb_true_iff. right. lia.
Qed.
Lemma isort_sorts l : (forall x, In x l -> is_nan (fst x) = false) -> StronglySorted (fun a b => pair_le a b = true) (isort l).
Proof.
  assert (INS : forall x l, is_nan (fst x) = false -> (forall y, In y l -> is_nan (fst y) = false) ->
    StronglySorted (fun a b => pair_le a b = true) l -> StronglySorted (fun a b => pair_le a b = true) (ins x l)).
  { intros x. induction l0 as [|y t IH]; intros Nx Nl S; cbn [ins].
    - constructor; constructor.
    - inversion S as [|? ? S1 S2]; subst. destruct (pair_le x y) eqn:E.
      + constructor; auto. constructor; auto. eapply Forall_impl; [|exact S2]. intros z Hz. eapply pair_le_trans; eauto.
      + constructor; [apply IH; auto; intros; apply Nl; now right|].
        apply Forall_forall. intros z Hz. apply (Permutation_in z (Permutation_sym (ins_perm x t))) in Hz as [<-|Hz].
        * apply pair_le_total; auto. apply Nl. now left.
        * rewrite Forall_forall in S2. auto. }
  induction l as [|x t IH]; intros N; cbn [isort]; [constructor|]. apply INS.
  - apply N. now left.
  - intros y Hy. apply N. right. apply (Permutation_in y (Permutation_sym (isort_perm t)) Hy).
  - apply IH. intros y Hy. apply N. now right.
Qed.
Example C14_best_case : (forall l, Permutation l (isort l)) /\
  (forall l, (forall x, In x l -> is_nan (fst x) = false) -> StronglySorted (fun a b => pair_le a b = true) (isort l)) /\
  match toy_step 2 false nofrm (two 1) (two 2) (two 3) with
  | Ok (c1, _, _, _) => map (fun p => (0 <? p_inlist p, p_next p =? nth 0 (p_link p) (-5), feq (p_final p) (nth 0 (p_decis p) fzero))) (fr_path c1)
      = [(true, true, true); (true, true, true)]
  | Exn _ => False end.
Proof. split; [exact isort_perm|]. split; [exact isort_sorts|]. vm_compute. reflexivity. Qed.

(** the outcome of a whole forward step, for arbitrary geometry: of the particles whose best
    candidate is [k], the one with the smallest decision value gets the link *)
Theorem C14_step : forall psort, (forall l, Permutation l (psort l)) ->
  forall pixdist ncam imx imy ptp quader moving extrap sub norm angle flat point tp vl, (1 <= ncam <= 4)%nat ->
  forall buf0 b1 b2 b3 c1 c2 c3 cnt,
  frame_ok b1 -> frame_ok b2 -> frame_ok b3 ->
  (forall p, In p (fr_path b1) -> p_next p = NEXT_NONE) ->
  (forall p, In p (fr_path b2) -> fresh_particle p) ->
  trackcorr_step psort pixdist (Z.of_nat ncam) imx imy ptp quader moving extrap sub norm angle flat point tp vl buf0 b1 b2 b3
    = Ok (c1, c2, c3, cnt) ->
  (forall p, In p (fr_path c1) -> 0 < p_inlist p -> is_nan (p_final p) = false) ->
  (forall h k, next_of (fr_path c1) h = Z.of_nat k <-> chose_best (fr_path c1) h k) /\
  (forall h, (forall k, ~ chose_best (fr_path c1) h k) -> next_of (fr_path c1) h = NEXT_NONE) /\
  (forall h k, chose (fr_path c1) h k -> (k < length (fr_path c2))%nat /\ exists w, chose_best (fr_path c1) w k).
Proof.
  intros psort HP pixdist ncam imx imy ptp quader moving extrap sub norm angle flat point tp vl Hnc buf0 b1 b2 b3 c1 c2 c3 cnt F1 F2 F3 N1 N2 H HN.
  eapply step_winners in H; eauto. destruct H as (H1 & H2 & H3 & _). auto.
Qed.
Print Assumptions C14_step.

(** C15 for the number a whole forward step adds to the reported number of links *)
Theorem C15_step : forall psort, (forall l, Permutation l (psort l)) ->
  forall pixdist ncam imx imy ptp quader moving extrap sub norm angle flat point tp vl, (1 <= ncam <= 4)%nat ->
  forall buf0 b1 b2 b3 c1 c2 c3 cnt,
  frame_ok b1 -> frame_ok b2 -> frame_ok b3 ->
  (forall p, In p (fr_path b1) -> p_next p = NEXT_NONE) ->
  (forall p, In p (fr_path b2) -> fresh_particle p) ->
  trackcorr_step psort pixdist (Z.of_nat ncam) imx imy ptp quader moving extrap sub norm angle flat point tp vl buf0 b1 b2 b3
    = Ok (c1, c2, c3, cnt) ->
  (forall p, In p (fr_path c1) -> 0 < p_inlist p -> is_nan (p_final p) = false) ->
  exists l, NoDup l /\ (forall h, In h l <-> exists k, chose_first (fr_path c1) h k) /\ cnt = Z.of_nat (length l) /\
    forall h k, next_of (fr_path c1) h = Z.of_nat k -> In h l.
Proof.
  intros psort HP pixdist ncam imx imy ptp quader moving extrap sub norm angle flat point tp vl Hnc buf0 b1 b2 b3 c1 c2 c3 cnt F1 F2 F3 N1 N2 H HN.
  eapply step_winners in H; eauto. destruct H as (H1 & _ & _ & (l & L1 & L2 & L3)). exists l. split; [exact L1|]. split; [exact L2|]. split; [exact L3|].
  intros h k Hk. apply L2. exists k. apply H1 in Hk. destruct Hk as (p & Hp & C & B). exists p. split; [exact Hp|]. split; [exact C|].
  intros h' p' Hlt C' Hp'. specialize (B h' p' C' Hp' ltac:(lia)). rewrite (proj2 (Nat.ltb_lt _ _) Hlt) in B. exact B.
Qed.
Print Assumptions C15_step.
Example C14_step_case : exists c1 c2 c3, toy_step 2 false nofrm (two 1) (two 2) (two 3) = Ok (c1, c2, c3, 2) /\
  (forall p, In p (fr_path c1) -> 0 < p_inlist p /\ is_nan (p_final p) = false) /\
  map p_next (fr_path c1) = [0; 1] /\ map (fun p => nth 0 (p_link p) (-5)) (fr_path c1) = [0; 1].
Proof.
  destruct (toy_step 2 false nofrm (two 1) (two 2) (two 3)) as [[[[c1 c2] c3] n]|] eqn:E; [|vm_compute in E; discriminate].
  vm_compute in E. injection E as <- <- <- <-. eexists _, _, _. split; [reflexivity|]. cbn [fr_path]. split; [|split; vm_compute; reflexivity].
  intros p [<-|[<-|[]]]; cbn [p_inlist p_final]; split; try lia; reflexivity.
Qed.
