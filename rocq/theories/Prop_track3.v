(** Property C77: a particle that every camera shows is followed. *)
From Coq Require Import Permutation.
From Verif Require Import Base Lib F64 Model_corr Model_cand Spec_cand Model_track Spec_track Spec_track2
  Proof_track_search Proof_track_step Proof_track_just Proof_track_ex Proof_track_found Prop_track Prop_track2.
Local Open Scope Z_scope.

(** ===== C77: completeness of a forward step =====
    No particles are added (do_add off), geometry is arbitrary.  Particle [h] has
    a convincing continuation, particle [k] of the next frame, that every camera shows
    near the place where it looks.  Then [h] is linked; or what it wanted was taken
    by another particle [h'].  In both cases it wanted a particle [k'] to which the link is justified. *)
Theorem C77_followed : forall psort, (forall l, Permutation l (psort l)) ->
  forall pixdist ncam imx imy ptp quader moving extrap sub norm angle flat point tp vl, (2 <= ncam <= 4)%nat -> do_add tp = false ->
  forall buf0 b1 b2 b3 c1 c2 c3 cnt,
  frame_ok b1 -> frame_ok b2 -> frame_ok b3 -> searchable ncam b2 -> searchable ncam b3 ->
  (forall p, In p (fr_path b1) -> p_next p = NEXT_NONE) ->
  (forall p, In p (fr_path b2) -> fresh_particle p) ->
  trackcorr_step psort pixdist (Z.of_nat ncam) imx imy ptp quader moving extrap sub norm angle flat point tp vl buf0 b1 b2 b3
    = Ok (c1, c2, c3, cnt) ->
  forall h k p r hp x0 x2 px, nth_error (fr_path b1) h = Some p -> nth_error (fr_path b2) k = Some r ->
  past_of moving buf0 p hp x0 x2 -> looked_at ncam ptp b1 h hp (p_x p) x2 px ->
  seen_everywhere pixdist ncam imx imy quader b2 x2 px (Z.of_nat k) ->
  convincing pixdist ncam imx imy ptp quader sub angle tp b3 hp (p_x p) x2 (p_x r)
    (if hp then extrap (p_x r) (p_x p) x0 else moving (p_x p) (p_x r)) ->
  let sight f := sighting pixdist ncam imx imy ptp flat (fr_targ f) in
  exists k' r', nth_error (fr_path b2) k' = Some r' /\
    (next_of (fr_path c1) h = Z.of_nat k' \/
     next_of (fr_path c1) h = NEXT_NONE /\ exists h', h' <> h /\ next_of (fr_path c1) h' = Z.of_nat k') /\
    justified sub angle point tp vl (sight b2) (sight b3) (map p_x (fr_path b3)) hp (p_x p) x2 (p_x r')
      (if hp then extrap (p_x r') (p_x p) x0 else moving (p_x p) (p_x r')).
Proof.
  intros psort HP pixdist ncam imx imy ptp quader moving extrap sub norm angle flat point tp vl Hnc NA buf0 b1 b2 b3 c1 c2 c3 cnt F1 F2 F3 S2 S3 N1 N2 H
    h k p r hp x0 x2 px Hp Hr PO LA SE CV sight.
  destruct (step_found psort HP pixdist ncam Hnc imx imy ptp quader moving extrap sub norm angle flat point tp vl NA buf0 b1 b2 b3 c1 c2 c3 cnt h k p
    F1 F2 F3 S2 S3 N1 N2 H Hp) as (_ & _ & h' & k' & r' & hp' & y0 & y2 & E & Hr' & D & PO' & J).
  { exists hp, x0, x2, px, r. auto. }
  exists k', r'. split; auto. split.
  - destruct D as [D|D]; auto. right. split; auto. exists h'. split; auto. intros ->. rewrite D in E. unfold NEXT_NONE in E. lia.
  - destruct PO as (-> & A1 & A2), PO' as (-> & B1 & B2). destruct (0 <=? p_prev p).
    + destruct (A1 eq_refl) as (q & Q1 & -> & ->). destruct (B1 eq_refl) as (q' & Q1' & -> & ->). assert (q' = q) as -> by congruence. exact J.
    + rewrite (A2 eq_refl). rewrite (B2 eq_refl) in J. exact J.
Qed.
Print Assumptions C77_followed.

(** if in addition no other link of [h] and no other link to [k] is justified, [h] and [k] are linked *)
Theorem C77_linked : forall psort, (forall l, Permutation l (psort l)) ->
  forall pixdist ncam imx imy ptp quader moving extrap sub norm angle flat point tp vl, (2 <= ncam <= 4)%nat -> do_add tp = false ->
  forall buf0 b1 b2 b3 c1 c2 c3 cnt,
  frame_ok b1 -> frame_ok b2 -> frame_ok b3 -> searchable ncam b2 -> searchable ncam b3 ->
  (forall p, In p (fr_path b1) -> p_next p = NEXT_NONE) ->
  (forall p, In p (fr_path b2) -> fresh_particle p) ->
  trackcorr_step psort pixdist (Z.of_nat ncam) imx imy ptp quader moving extrap sub norm angle flat point tp vl buf0 b1 b2 b3
    = Ok (c1, c2, c3, cnt) ->
  forall h k p r hp x0 x2 px, nth_error (fr_path b1) h = Some p -> nth_error (fr_path b2) k = Some r ->
  past_of moving buf0 p hp x0 x2 -> looked_at ncam ptp b1 h hp (p_x p) x2 px ->
  seen_everywhere pixdist ncam imx imy quader b2 x2 px (Z.of_nat k) ->
  convincing pixdist ncam imx imy ptp quader sub angle tp b3 hp (p_x p) x2 (p_x r)
    (if hp then extrap (p_x r) (p_x p) x0 else moving (p_x p) (p_x r)) ->
  let sight f := sighting pixdist ncam imx imy ptp flat (fr_targ f) in
  let ok p r := exists hp x0 x2, past_of moving buf0 p hp x0 x2 /\
    justified sub angle point tp vl (sight b2) (sight b3) (map p_x (fr_path b3)) hp (p_x p) x2 (p_x r)
      (if hp then extrap (p_x r) (p_x p) x0 else moving (p_x p) (p_x r)) in
  (forall k' r', nth_error (fr_path b2) k' = Some r' -> ok p r' -> k' = k) ->
  (forall h' p', nth_error (fr_path b1) h' = Some p' -> ok p' r -> h' = h) ->
  next_of (fr_path c1) h = Z.of_nat k /\ prev_of (fr_path c2) k = Z.of_nat h.
Proof.
  intros psort HP pixdist ncam imx imy ptp quader moving extrap sub norm angle flat point tp vl Hnc NA buf0 b1 b2 b3 c1 c2 c3 cnt F1 F2 F3 S2 S3 N1 N2 H
    h k p r hp x0 x2 px Hp Hr PO LA SE CV sight ok U1 U2.
  destruct (step_found psort HP pixdist ncam Hnc imx imy ptp quader moving extrap sub norm angle flat point tp vl NA buf0 b1 b2 b3 c1 c2 c3 cnt h k p
    F1 F2 F3 S2 S3 N1 N2 H Hp) as (E3 & E2 & h' & k' & r' & hp' & y0 & y2 & E & Hr' & D & PO' & J).
  { exists hp, x0, x2, px, r. auto. }
  assert (k' = k) as -> by (apply (U1 k' r' Hr'); exists hp', y0, y2; auto).
  assert (X : next_of (fr_path c1) h = Z.of_nat k).
  { destruct D as [D|D]; auto. exfalso.
    destruct (C65_links_justified psort HP pixdist ncam imx imy ptp quader moving extrap sub norm angle flat point tp vl ltac:(lia) buf0 b1 b2 b3 c1 c2 c3 cnt F1 F2 F3 N1 N2 H h' k E)
      as (p1 & q1 & hp1 & z0 & z2 & P1 & Q1 & PO1 & J1).
    assert (Q2 : p_x q1 = p_x r).
    { apply (f_equal (fun l => nth_error l k)) in E2. rewrite !nth_error_map, Q1, Hr in E2. cbn in E2. congruence. }
    rewrite E3, Q2 in J1. assert (h' = h) as -> by (apply (U2 h' p1 P1); exists hp1, z0, z2; auto).
    rewrite D in E. unfold NEXT_NONE in E. lia. }
  split; auto. eapply trackcorr_step_links in H; eauto; [|lia]. destruct H as (MU & _). now apply MU.
Qed.
Print Assumptions C77_linked.

(** ---- a concrete case ---- *)
Lemma few_hits pixdist sel tl cx cy dl dr du dd imx imy js : (length tl <= 3)%nat -> NoDup js ->
  (forall j, In j js -> exists d, target_hit pixdist sel tl cx cy dl dr du dd imx imy j d) -> (length js <= 3)%nat.
Proof.
  intros L ND H. etransitivity; [|exact L]. rewrite <- (seq_length (length tl) 0), <- (map_length Z.of_nat).
  apply NoDup_incl_length; auto. intros j Hj. destruct (H j Hj) as (d & t & J0 & Ht & _). apply in_map_iff. exists (Z.to_nat j). split; [lia|].
  apply in_seq. split; [lia|]. cbn. apply nth_error_Some. congruence.
Qed.
(** two particles moving by (3, 1) per frame, 100 apart, seen by two cameras; [prev]: they were linked before *)
Definition far (k : Z) (prev : bool) : frame :=
  frm [part 80 (50 + 3 * k) (40 + k) 0 (if prev then 0 else -1) (-2); part 80 (150 + 3 * k) (42 + k) 0 (if prev then 1 else -1) (-2)]
      [row 0 0; row 1 1]
      [[tg (50 + 3 * k) (40 + k) 0; tg (150 + 3 * k) (42 + k) 1]; [tg (50 + 3 * k) (40 + k) 0; tg (150 + 3 * k) (42 + k) 1]].
Lemma far_ok k b : frame_ok (far k b).
Proof.
  split; [reflexivity|]. intros tl t Htl Ht. cbn in Htl.
  destruct Htl as [<-|[<-|[]]]; destruct Ht as [<-|[<-|[]]]; cbn; lia.
Qed.
Lemma far_searchable k b : k = 2 \/ k = 3 -> searchable 2 (far k b).
Proof.
  intros Hk c tl Hc Htl. assert (c = 0 \/ c = 1)%nat as Ec by lia.
  assert (tl = [tg (50 + 3 * k) (40 + k) 0; tg (150 + 3 * k) (42 + k) 1]) as -> by (destruct Ec as [-> | ->]; now injection Htl as <-).
  split; [destruct Ec as [-> | ->]; reflexivity|].
  split; [apply ascending_dec; destruct Hk as [-> | ->]; vm_compute; reflexivity|]. split; [cbn; lia|].
  intros t [<-|[<-|[]]]; cbn; lia.
Qed.
Example C77_case :
  let buf0 := far 0 false in let b1 := far 1 true in let b2 := far 2 false in let b3 := far 3 false in
  let px := [(fz 56, fz 42); (fz 56, fz 42)] in
  searchable 2 b2 /\ searchable 2 b3 /\
  exists p r, nth_error (fr_path b1) 0 = Some p /\ nth_error (fr_path b2) 0 = Some r /\
    past_of toy_moving buf0 p true (fz 50, fz 40, fzero) (fz 56, fz 42, fzero) /\
    looked_at 2 toy_pixel b1 0 true (p_x p) (fz 56, fz 42, fzero) px /\
    seen_everywhere toy_dist 2 1000 1000 toy_quader b2 (fz 56, fz 42, fzero) px 0 /\
    convincing toy_dist 2 1000 1000 toy_pixel toy_quader toy_sub toy_angle (toy_tp false) b3 true (p_x p) (fz 56, fz 42, fzero) (p_x r)
      (toy_extrap (p_x r) (p_x p) (fz 50, fz 40, fzero)) /\
  match toy_step 2 false buf0 b1 b2 b3 with
  | Ok (c1, c2, c3, n) => map p_next (fr_path c1) = [0; 1] /\ map p_prev (fr_path c2) = [0; 1] /\ n = 2 | Exn _ => False end.
Proof.
  intros buf0 b1 b2 b3 px. split; [apply far_searchable; auto|]. split; [apply far_searchable; auto|].
  eexists _, _. split; [reflexivity|]. split; [reflexivity|]. split; [|split; [|split; [|split]]].
  - split; [reflexivity|]. split; [|discriminate]. intros _. eexists. split; [reflexivity|]. split; vm_compute; reflexivity.
  - split; [reflexivity|]. intros c q Hq. destruct c as [|[|c]]; cbn in Hq; [injection Hq as <-|injection Hq as <-|destruct c; discriminate]; vm_compute; reflexivity.
  - intros c q tl Hc Hq Htl.
    assert (tl = [tg 56 42 0; tg 156 44 1]) as -> by (destruct c as [|[|c]]; [now injection Htl as <-|now injection Htl as <-|lia]).
    assert (q = (fz 56, fz 42)) as -> by (destruct c as [|[|c]]; [now injection Hq as <-|now injection Hq as <-|lia]).
    unfold seen_in, toy_quader. set (hit := target_hit _ _ _ _ _ _ _ _ _ _ _).
    assert (HH : forall j d, hit j d -> j = 0 /\ d = fzero).
    { intros j d (t & J0 & Ht & _ & (_ & B & _) & _ & ->). destruct (Z.to_nat j) as [|[|n]] eqn:Ej; cbn in Ht.
      - injection Ht as <-. split; [lia|vm_compute; reflexivity].
      - injection Ht as <-. vm_compute in B. discriminate.
      - destruct n; discriminate. }
    split; [vm_compute; auto|]. split; [intros j d Hj; destruct (HH j d Hj) as (_ & ->); reflexivity|].
    exists 0, fzero, (tg 56 42 0). split; [|split; [reflexivity|]; split; [reflexivity|]; split].
    + exists (tg 56 42 0). split; [lia|]. split; [reflexivity|]. split; [reflexivity|]. split; [vm_compute; auto|]. split; [vm_compute; auto|vm_compute; reflexivity].
    + intros j d Hj _. now destruct (HH j d Hj).
    + intros js ND Hjs. apply (few_hits toy_dist tracked [tg 56 42 0; tg 156 44 1] (fst (fz 56, fz 42)) (snd (fz 56, fz 42)) (fz 10) (fz 10) (fz 10) (fz 10) 1000 1000); [cbn; lia|auto|].
      intros j Hj. destruct (Hjs j Hj) as (d & X & _). eauto.
  - apply past_fits; [reflexivity| |]; vm_compute; auto 10.
  - vm_compute. auto.
Qed.
(** ... and no other link is justified there *)
Lemma no_free_sighting pixdist ncam imx imy ptp flat targets centre n flats :
  (forall tl t, In tl targets -> In t tl -> free t = false) -> sighting pixdist ncam imx imy ptp flat targets centre n flats -> n = 0.
Proof.
  intros NF (seen & L1 & _ & -> & _ & H). enough (forall o, In o seen -> o = None) as X.
  - clear - X. induction seen as [|o seen IH]; auto. cbn. rewrite (X o) by (now left). apply IH. intros; apply X; now right.
  - intros [t|] Ho; auto. exfalso. apply In_nth_error in Ho as (c & Hc). destruct (H c t Hc) as (_ & tl & j & d & T1 & T2 & T3).
    destruct (ptp (Z.of_nat c) centre) as [cx cy]. destruct T3 as (t' & _ & T4 & T5 & _). assert (t' = t) as -> by congruence.
    rewrite (NF tl t) in T5; [discriminate|eapply nth_error_In; eauto|eapply nth_error_In; eauto].
Qed.
Lemma far_no_free k b tl t : In tl (fr_targ (far k b)) -> In t tl -> free t = false.
Proof. intros [<-|[<-|[]]] [<-|[<-|[]]]; reflexivity. Qed.
Definition far_sight (f : frame) := sighting toy_dist 2 1000 1000 toy_pixel toy_flat (fr_targ f).
Lemma far_unjustified h k p r hp x0 x2 : (h = 0 /\ k = 1 \/ h = 1 /\ k = 0)%nat ->
  nth_error (fr_path (far 1 true)) h = Some p -> nth_error (fr_path (far 2 false)) k = Some r ->
  past_of toy_moving (far 0 false) p hp x0 x2 ->
  ~ justified toy_sub toy_angle toy_point (toy_tp false) toy_vl (far_sight (far 2 false)) (far_sight (far 3 false)) (map p_x (fr_path (far 3 false)))
      hp (p_x p) x2 (p_x r) (if hp then toy_extrap (p_x r) (p_x p) x0 else toy_moving (p_x p) (p_x r)).
Proof.
  intros HK Hp Hr (Ehp & PO & _).
  assert (hp = true) as -> by (destruct HK as [(-> & _)|(-> & _)]; injection Hp as <-; exact Ehp).
  destruct (PO eq_refl) as (q0 & Hq0 & -> & ->). clear PO Ehp.
  intros [x4 Hx4 B S|n flats SG N _ _ _|_ B _|n flats A _ _ _ _ _ _ _].
  - destruct HK as [(-> & ->)|(-> & ->)]; injection Hp as <-; injection Hr as <-; injection Hq0 as <-;
      cbn [map fr_path far frm In] in Hx4; destruct Hx4 as [<-|[<-|[]]]; vm_compute in B; try (destruct B as (B1 & B2 & _); discriminate);
      vm_compute in S; destruct S as [(S1 & _)|S1]; discriminate.
  - apply no_free_sighting in SG; [lia|apply far_no_free].
  - destruct HK as [(-> & ->)|(-> & ->)]; injection Hp as <-; injection Hr as <-; vm_compute in B; destruct B as (B1 & B2 & _); discriminate.
  - discriminate.
Qed.
Example C77_linked_case :
  let ok p r := exists hp x0 x2, past_of toy_moving (far 0 false) p hp x0 x2 /\
    justified toy_sub toy_angle toy_point (toy_tp false) toy_vl (far_sight (far 2 false)) (far_sight (far 3 false)) (map p_x (fr_path (far 3 false)))
      hp (p_x p) x2 (p_x r) (if hp then toy_extrap (p_x r) (p_x p) x0 else toy_moving (p_x p) (p_x r)) in
  forall p r, nth_error (fr_path (far 1 true)) 0 = Some p -> nth_error (fr_path (far 2 false)) 0 = Some r ->
  (forall k' r', nth_error (fr_path (far 2 false)) k' = Some r' -> ok p r' -> k' = O) /\
  (forall h' p', nth_error (fr_path (far 1 true)) h' = Some p' -> ok p' r -> h' = O).
Proof.
  intros ok p r Hp Hr. split.
  - intros [|[|k']] r' Hr' (hp & x0 & x2 & PO & J); auto; [|destruct k'; discriminate]. exfalso. exact (far_unjustified 0 1 p r' hp x0 x2 ltac:(auto) Hp Hr' PO J).
  - intros [|[|h']] p' Hp' (hp & x0 & x2 & PO & J); auto; [|destruct h'; discriminate]. exfalso. exact (far_unjustified 1 0 p' r hp x0 x2 ltac:(auto) Hp' Hr PO J).
Qed.

(** ---- one camera fewer and it can be lost ----
    three cameras; cameras 0 and 1 show the particle exactly where it is expected, camera 2 does not;
    all three show another particle (30 in front of it, beyond the limits).  The ranking loses the row of the
    right one, and the particle ends its track *)
Definition lost2 : frame :=
  frm [part 80 56 42 0 (-1) (-2); part 80 57 43 30 (-1) (-2)] [mk_corres 1 [0; 0; -1; -1]; mk_corres 2 [1; 1; 0; -1]]
      [[tg 56 42 0; tg 57 43 1]; [tg 56 42 0; tg 57 43 1]; [tg 57 43 1]].
Definition lost_at (x y prev : Z) : frame := frm [part 80 x y 0 prev (-2)] [mk_corres 1 [0; 0; 0; -1]] [[tg x y 0]; [tg x y 0]; [tg x y 0]].
Definition nobody : frame := frm [] [] [[tg 900 900 (-1)]; [tg 900 900 (-1)]; [tg 900 900 (-1)]].
Theorem C77_two_cameras_refuted : exists buf0 b1 b2 b3 p r x0 x2,
  frame_ok b1 /\ frame_ok b2 /\ frame_ok b3 /\ searchable 3 b2 /\ searchable 3 b3 /\
  nth_error (fr_path b1) 0 = Some p /\ nth_error (fr_path b2) 0 = Some r /\ past_of toy_moving buf0 p true x0 x2 /\ p_x r = x2 /\
  (forall c tl, (c < 2)%nat -> nth_error (fr_targ b2) c = Some tl ->
     seen_in toy_dist 1000 1000 tl (toy_pixel (Z.of_nat c) x2) (toy_quader (Z.of_nat c) x2) 0) /\
  within_step_limits (toy_tp false) (toy_sub (p_x r) (p_x p)) /\ smooth_motion (toy_tp false) (toy_angle (p_x p) x2 (p_x r)) /\
  exists c1 c2 c3, toy_step 3 false buf0 b1 b2 b3 = Ok (c1, c2, c3, 0) /\
    next_of (fr_path c1) 0 = NEXT_NONE /\ forall k, prev_of (fr_path c2) k = PREV_NONE.
Proof.
  exists (lost_at 50 40 (-1)), (lost_at 53 41 0), lost2, nobody. eexists _, _, (fz 50, fz 40, fzero), (fz 56, fz 42, fzero).
  split; [split; [reflexivity|]; intros tl t [<-|[<-|[<-|[]]]] [<-|[]]; cbn; lia|].
  split; [split; [reflexivity|]; intros tl t [<-|[<-|[<-|[]]]]; [intros [<-|[<-|[]]]|intros [<-|[<-|[]]]|intros [<-|[]]]; cbn; lia|].
  split; [split; [reflexivity|]; intros tl t [<-|[<-|[<-|[]]]] [<-|[]]; cbn; lia|].
  split.
  { intros c tl Hc Htl. destruct c as [|[|[|c]]]; [injection Htl as <-|injection Htl as <-|injection Htl as <-|lia];
      (split; [reflexivity|]; split; [apply ascending_dec; vm_compute; reflexivity|]; split; [cbn; lia|]);
      [intros t [<-|[<-|[]]]|intros t [<-|[<-|[]]]|intros t [<-|[]]]; cbn; lia. }
  split.
  { intros c tl Hc Htl. destruct c as [|[|[|c]]]; [injection Htl as <-|injection Htl as <-|injection Htl as <-|lia];
      (split; [reflexivity|]; split; [apply ascending_dec; vm_compute; reflexivity|]; split; [cbn; lia|]); intros t [<-|[]]; cbn; lia. }
  split; [reflexivity|]. split; [reflexivity|].
  split. { split; [reflexivity|]. split; [|discriminate]. intros _. eexists. split; [reflexivity|]. split; vm_compute; reflexivity. }
  split; [reflexivity|]. split; [|split; [vm_compute; auto 10|split; [vm_compute; auto|]]].
  - intros c tl Hc Htl. assert (tl = [tg 56 42 0; tg 57 43 1]) as -> by (destruct c as [|[|c]]; [now injection Htl as <-|now injection Htl as <-|lia]).
    unfold seen_in, toy_quader, toy_pixel. set (hit := target_hit _ _ _ _ _ _ _ _ _ _ _).
    assert (HH : forall j d, hit j d -> j = 0 /\ d = fzero \/ j = 1 /\ d = fsqrt (fz 2)).
    { intros j d (t & J0 & Ht & _ & _ & _ & ->). destruct (Z.to_nat j) as [|[|n]] eqn:Ej; cbn in Ht.
      - injection Ht as <-. left. split; [lia|vm_compute; reflexivity].
      - injection Ht as <-. right. split; [lia|vm_compute; reflexivity].
      - destruct n; discriminate. }
    split; [vm_compute; auto|]. split; [intros j d Hj; destruct (HH j d Hj) as [(_ & ->)|(_ & ->)]; reflexivity|].
    exists 0, fzero, (tg 56 42 0). split; [|split; [reflexivity|]; split; [reflexivity|]; split].
    + exists (tg 56 42 0). split; [lia|]. split; [reflexivity|]. split; [reflexivity|]. split; [vm_compute; auto|]. split; [vm_compute; auto|vm_compute; reflexivity].
    + intros j d Hj E. destruct (HH j d Hj) as [(-> & ->)|(-> & ->)]; auto. vm_compute in E. discriminate.
    + intros js ND Hjs. apply (few_hits toy_dist tracked [tg 56 42 0; tg 57 43 1] (fst (fz 56, fz 42)) (snd (fz 56, fz 42)) (fz 10) (fz 10) (fz 10) (fz 10) 1000 1000); [cbn; lia|auto|].
      intros j Hj. destruct (Hjs j Hj) as (d & X & _). eauto.
  - assert (V : match toy_step 3 false (lost_at 50 40 (-1)) (lost_at 53 41 0) lost2 nobody with
      | Ok (c1, c2, c3, n) => n = 0 /\ map p_next (fr_path c1) = [-2] /\ map p_prev (fr_path c2) = [-1; -1] | Exn _ => False end) by (vm_compute; auto).
    destruct (toy_step 3 false _ _ _ _) as [[[[c1 c2] c3] n]|e]; [|destruct V]. destruct V as (-> & V1 & V2).
    exists c1, c2, c3. split; auto. split.
    + unfold next_of. destruct (fr_path c1) as [|q l]; [reflexivity|]. injection V1 as V1 _. exact V1.
    + intros k. unfold prev_of. destruct (nth_error (fr_path c2) k) as [q|] eqn:E; auto. apply (map_nth_error p_prev) in E. rewrite V2 in E.
      destruct k as [|[|k]]; cbn in E; [injection E as <-|injection E as <-|destruct k; discriminate]; reflexivity.
Qed.
Print Assumptions C77_two_cameras_refuted.
