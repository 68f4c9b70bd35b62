(** Properties C81 (backward tracking closes broken tracks) and C82 (decision values). *)
From Coq Require Import Permutation.
From Verif Require Import Base Lib F64 Model_corr Model_cand Spec_cand Model_track Spec_track Spec_track2 Spec_track3
  Proof_track_search Proof_track_step Proof_track_just Proof_track_ex Proof_track_found Proof_track_closed Proof_track_score Proof_track_back2 Prop_track Prop_track2 Prop_track3.
Local Open Scope Z_scope.

(** ===== C81: a broken track is closed by backward tracking =====
    Particle [h] of the current frame begins a track, particle [k] of the frame before ends one
    (and their motions fit), every camera shows [k] near the place where [h] is expected to have been,
    no other particle fits [h], and none of the particles tracked before [h] fits [k].  Then the
    backward step links them in both directions. *)
Theorem C81_closed : forall psort, (forall l, Permutation l (psort l)) ->
  forall pixdist ncam imx imy ptp quader moving extrap sub norm angle flat point tp vl, (2 <= ncam <= 4)%nat ->
  forall later b1 b2 b3 c1 c2 cnt,
  frame_ok b1 -> frame_ok b2 -> searchable ncam b2 -> (forall p, In p (fr_path b1) -> p_inlist p = 0) ->
  trackback_step psort pixdist (Z.of_nat ncam) imx imy ptp quader moving extrap sub norm angle flat point tp vl later b1 b2 b3
    = Ok (c1, c2, cnt) ->
  forall h k p q0 r px, nth_error (fr_path b1) h = Some p -> nth_error (fr_path b2) k = Some r ->
  track_begins later p q0 -> track_ends extrap angle tp b3 p q0 r ->
  let x := moving (p_x q0) (p_x p) in
  length px = ncam -> (forall c y, nth_error px c = Some y -> y = ptp (Z.of_nat c) x) ->
  seen_everywhere pixdist ncam imx imy quader b2 x px (Z.of_nat k) ->
  fits_before moving sub angle tp p q0 r ->
  (forall k' r', nth_error (fr_path b2) k' = Some r' -> fits_before moving sub angle tp p q0 r' -> k' = k) ->
  (forall h' p' q0', (h' < h)%nat -> nth_error (fr_path b1) h' = Some p' -> track_begins later p' q0' -> ~ fits_before moving sub angle tp p' q0' r) ->
  prev_of (fr_path c1) h = Z.of_nat k /\ next_of (fr_path c2) k = Z.of_nat h.
Proof.
  intros psort HP pixdist ncam imx imy ptp quader moving extrap sub norm angle flat point tp vl Hnc later b1 b2 b3 c1 c2 cnt F1 F2 S2 HI H
    h k p q0 r px Hp Hr TB TE x LP HX SE FT U1 U2.
  rewrite (proj_unique ncam ptp px x LP HX) in SE.
  eapply (back_closed psort HP pixdist ncam Hnc imx imy ptp quader moving extrap sub norm angle flat point tp vl later b1 b2 b3 c1 c2 cnt h k p q0 r); eauto.
Qed.
Print Assumptions C81_closed.

(** the two particles of [far] again; in frame 3 their tracks begin, in frame 2 the earlier parts end *)
Definition begun : frame :=
  frm [part 80 59 43 0 (-1) 0; part 80 159 45 0 (-1) 1] [row 0 0; row 1 1]
      [[tg 59 43 0; tg 159 45 1]; [tg 59 43 0; tg 159 45 1]].
Example C81_case :
  let later := far 4 true in let b2 := far 2 true in let b3 := far 1 false in let px := [(fz 56, fz 42); (fz 56, fz 42)] in
  frame_ok begun /\ frame_ok b2 /\ searchable 2 b2 /\ (forall p, In p (fr_path begun) -> p_inlist p = 0) /\
  exists p q0 r, nth_error (fr_path begun) 0 = Some p /\ nth_error (fr_path b2) 0 = Some r /\
    track_begins later p q0 /\ track_ends toy_extrap toy_angle (toy_tp true) b3 p q0 r /\ p_prev r <> PREV_NONE /\
    (forall c y, nth_error px c = Some y -> y = toy_pixel (Z.of_nat c) (toy_moving (p_x q0) (p_x p))) /\
    seen_everywhere toy_dist 2 1000 1000 toy_quader b2 (toy_moving (p_x q0) (p_x p)) px 0 /\
    fits_before toy_moving toy_sub toy_angle (toy_tp true) p q0 r /\
    (forall k' r', nth_error (fr_path b2) k' = Some r' -> fits_before toy_moving toy_sub toy_angle (toy_tp true) p q0 r' -> k' = O) /\
  match toy_back 2 true later begun b2 b3 with
  | Ok (c1, c2, n) => map p_prev (fr_path c1) = [0; 1] /\ map p_next (fr_path c2) = [0; 1] /\ n = 2 | Exn _ => False end.
Proof.
  intros later b2 b3 px. split; [split; [reflexivity|]; intros tl t [<-|[<-|[]]] [<-|[<-|[]]]; cbn; lia|].
  split; [apply far_ok|]. split; [apply far_searchable; auto|]. split; [intros p [<-|[<-|[]]]; reflexivity|].
  eexists _, _, _. split; [reflexivity|]. split; [reflexivity|]. split; [split; [cbn; lia|split; reflexivity]|]. split.
  { split; [reflexivity|]. right. eexists. split; [cbn; lia|]. split; [reflexivity|]. vm_compute. auto. }
  split; [discriminate|]. split; [|split; [|split; [|split]]].
  - intros c q Hq. destruct c as [|[|c]]; cbn in Hq; [injection Hq as <-|injection Hq as <-|destruct c; discriminate]; vm_compute; reflexivity.
  - intros c q tl Hc Hq Htl.
    assert (tl = [tg 56 42 0; tg 156 44 1]) as -> by (destruct c as [|[|c]]; [now injection Htl as <-|now injection Htl as <-|lia]).
    assert (q = (fz 56, fz 42)) as -> by (destruct c as [|[|c]]; [now injection Hq as <-|now injection Hq as <-|lia]).
    unfold seen_in, toy_quader. set (hit := target_hit _ _ _ _ _ _ _ _ _ _ _).
    assert (HH : forall j d, hit j d -> j = 0 /\ d = fzero).
    { intros j d (t & J0 & Ht & _ & (_ & B & _) & _ & ->). destruct (Z.to_nat j) as [|[|n]] eqn:Ej; cbn in Ht.
      - injection Ht as <-. split; [lia|vm_compute; reflexivity].
      - injection Ht as <-. vm_compute in B. discriminate.
      - destruct n; discriminate. }
    split; [vm_compute; auto|]. split; [intros j d Hj; destruct (HH j d Hj) as (_ & ->); reflexivity|].
    exists 0, fzero, (tg 56 42 0). split; [|split; [reflexivity|]; split; [reflexivity|]; split].
    + exists (tg 56 42 0). split; [lia|]. split; [reflexivity|]. split; [reflexivity|]. split; [vm_compute; auto|]. split; [vm_compute; auto|vm_compute; reflexivity].
    + intros j d Hj _. now destruct (HH j d Hj).
    + intros js ND Hjs. apply (few_hits toy_dist tracked [tg 56 42 0; tg 156 44 1] (fst (fz 56, fz 42)) (snd (fz 56, fz 42)) (fz 10) (fz 10) (fz 10) (fz 10) 1000 1000); [cbn; lia|auto|].
      intros j Hj. destruct (Hjs j Hj) as (d & X & _). eauto.
  - split; vm_compute; auto 10.
  - intros [|[|k']] r' Hr' (B & _); auto; [|destruct k'; discriminate]. injection Hr' as <-. vm_compute in B. destruct B as (B & _). discriminate.
  - vm_compute. auto.
Qed.
(** In a forward step the better candidate wins (C14).  Not so backward: first come, first served.
    Particle 1 comes exactly from where particle 0 of the frame before is, particle 0 would have
    come from 2 away; both fit; particle 0 gets it, and the track of particle 1 stays broken *)
Definition rival_tracks : frame :=
  frm [part 80 61 43 0 (-1) 0; part 80 59 43 0 (-1) 1] [row 0 0; row 1 1]
      [[tg 61 43 0; tg 59 43 1]; [tg 61 43 0; tg 59 43 1]].
Definition rival_later : frame :=
  frm [part 80 64 44 0 0 (-2); part 80 62 44 0 1 (-2)] [row 0 0; row 1 1] [[tg 64 44 0; tg 62 44 1]; [tg 64 44 0; tg 62 44 1]].
Definition single : frame := frm [part 80 56 42 0 (-1) (-2)] [row 0 0] [[tg 56 42 0]; [tg 56 42 0]].
Theorem C81_first_come_refuted : exists later b1 b2 b3 p0 p1 q0 q1 r c1 c2,
  nth_error (fr_path b1) 0 = Some p0 /\ nth_error (fr_path b1) 1 = Some p1 /\ nth_error (fr_path b2) 0 = Some r /\
  track_begins later p0 q0 /\ track_begins later p1 q1 /\
  fits_before toy_moving toy_sub toy_angle (toy_tp false) p0 q0 r /\ fits_before toy_moving toy_sub toy_angle (toy_tp false) p1 q1 r /\
  p_x r = toy_moving (p_x q1) (p_x p1) /\ toy_moving (p_x q0) (p_x p0) = (fz 58, fz 42, fzero) /\
  toy_back 2 false later b1 b2 b3 = Ok (c1, c2, 1) /\
  prev_of (fr_path c1) 0 = 0 /\ prev_of (fr_path c1) 1 = PREV_NONE /\ next_of (fr_path c2) 0 = 0 /\
  exists d0 d1 l, nth_error (map p_decis (fr_path c1)) 1 = Some (d1 :: l) /\ map p_inlist (fr_path c1) = [1; 1] /\
    p_final (nth 0 (fr_path c1) p0) = d0 /\ flt d1 d0 = true.
Proof.
  exists rival_later, rival_tracks, single, nobody. do 4 eexists. eexists.
  assert (V : match toy_back 2 false rival_later rival_tracks single nobody with
      | Ok (c1, c2, n) => n = 1 /\ map p_prev (fr_path c1) = [0; -1] /\ map p_next (fr_path c2) = [0] /\ map p_inlist (fr_path c1) = [1; 1] /\
          match fr_path c1 with [a; b] => match p_decis b with d1 :: _ => flt d1 (p_final a) = true | [] => False end | _ => False end
      | Exn _ => False end) by (vm_compute; auto 10).
  destruct (toy_back 2 false _ _ _ _) as [[[c1 c2] n]|e]; [|destruct V]. destruct V as (-> & V1 & V2 & V3 & V4).
  exists c1, c2. split; [reflexivity|]. split; [reflexivity|]. split; [reflexivity|].
  split; [split; [cbn; lia|split; reflexivity]|]. split; [split; [cbn; lia|split; reflexivity]|].
  split; [split; vm_compute; auto 10|]. split; [split; vm_compute; auto 10|].
  split; [vm_compute; reflexivity|]. split; [vm_compute; reflexivity|]. split; [reflexivity|].
  destruct (fr_path c1) as [|a [|b [|]]]; try contradiction. injection V1 as A1 A2.
  split; [exact A1|]. split; [exact A2|]. destruct (fr_path c2) as [|u [|]]; try discriminate. injection V2 as B1.
  split; [exact B1|]. destruct (p_decis b) as [|d1 l] eqn:Ed; [contradiction|]. exists (p_final a), d1, l. cbn. rewrite Ed. auto.
Qed.
Print Assumptions C81_first_come_refuted.

(** ===== C82: the decision values =====
    Forward, without adding particles: for every link candidate a particle has after the step, the
    recorded decision value is the mean step length, acceleration and angle over their limits, divided by
    the number of cameras that support the candidate *)
Theorem C82_forward : forall psort, (forall l, Permutation l (psort l)) ->
  forall pixdist ncam imx imy ptp quader moving extrap sub norm angle flat point tp vl, (1 <= ncam <= 4)%nat -> do_add tp = false ->
  forall buf0 b1 b2 b3 c1 c2 c3 cnt, frame_ok b1 -> frame_ok b2 -> frame_ok b3 ->
  trackcorr_step psort pixdist (Z.of_nat ncam) imx imy ptp quader moving extrap sub norm angle flat point tp vl buf0 b1 b2 b3
    = Ok (c1, c2, c3, cnt) ->
  forall h p q hp x0 x2 px, nth_error (fr_path b1) h = Some p -> nth_error (fr_path c1) h = Some q ->
  past_of moving buf0 p hp x0 x2 -> looked_at ncam ptp b1 h hp (p_x p) x2 px ->
  forall j d v, Z.of_nat j < p_inlist q -> nth_error (p_decis q) j = Some d -> nth_error (p_link q) j = Some v ->
  exists k r, v = Z.of_nat k /\ nth_error (fr_path b2) k = Some r /\
    let cams := shown_by pixdist ncam imx imy quader in
    scored sub norm angle point tp vl (cams b2 x2 px)
      (fun x m n => exists px', length px' = ncam /\ (forall c y, nth_error px' c = Some y -> y = ptp (Z.of_nat c) x) /\ cams b3 x px' m n)
      (sighting pixdist ncam imx imy ptp flat (fr_targ b3)) (map p_x (fr_path b3))
      hp x0 (p_x p) x2 v (p_x r) (if hp then extrap (p_x r) (p_x p) x0 else moving (p_x p) (p_x r)) d.
Proof.
  intros psort HP pixdist ncam imx imy ptp quader moving extrap sub norm angle flat point tp vl Hnc NA buf0 b1 b2 b3 c1 c2 c3 cnt F1 F2 F3 H
    h p q hp x0 x2 px Hp Hq PO LA j d v Hj Hd Hv.
  destruct (step_scores psort HP pixdist ncam Hnc imx imy ptp quader moving extrap sub norm angle flat point tp vl NA buf0 b1 b2 b3 c1 c2 c3 cnt F1 F2 F3 H
    h p q hp x0 x2 px Hp Hq PO LA j d v Hj Hd Hv) as (r & V0 & Hr & SC).
  exists (Z.to_nat v), r. split; [lia|]. split; auto. cbv zeta.
  destruct SC as [m x4 n n' A1 A2 A3 A4 aa A5|n n' fl A1 A2 A3 x4 aa A4 A5 A6|n A1 A2 A3 aa A4].
  - apply goes_on with (m := m); auto. eexists. split; [|split; [|exact A3]].
    + unfold projections. rewrite map_length, zrange_length. lia.
    + intros c y Hy. assert (c < ncam)%nat.
      { replace ncam with (length (projections (Z.of_nat ncam) ptp (if hp then extrap (p_x r) (p_x p) x0 else moving (p_x p) (p_x r)))); [apply nth_error_Some; congruence|].
        unfold projections. rewrite map_length, zrange_length. lia. }
      rewrite proj_nth in Hy by auto. congruence.
  - now apply measured_on.
  - now apply from_past.
Qed.
Print Assumptions C82_forward.
(** Backward: the same, with the step before and after the particle *)
Theorem C82_backward : forall psort, (forall l, Permutation l (psort l)) ->
  forall pixdist ncam imx imy ptp quader moving extrap sub norm angle flat point tp vl, (1 <= ncam <= 4)%nat ->
  forall later b1 b2 b3 c1 c2 cnt, frame_ok b1 -> frame_ok b2 -> (forall p, In p (fr_path b1) -> p_inlist p = 0) ->
  trackback_step psort pixdist (Z.of_nat ncam) imx imy ptp quader moving extrap sub norm angle flat point tp vl later b1 b2 b3
    = Ok (c1, c2, cnt) ->
  forall h p q, nth_error (fr_path b1) h = Some p -> nth_error (fr_path c1) h = Some q ->
  (forall j d v, Z.of_nat j < p_inlist q -> nth_error (p_decis q) j = Some d -> nth_error (p_link q) j = Some v ->
   exists k r q0 n px, v = Z.of_nat k /\ nth_error (fr_path b2) k = Some r /\ track_begins later p q0 /\
     let x := moving (p_x q0) (p_x p) in
     length px = ncam /\ (forall c y, nth_error px c = Some y -> y = ptp (Z.of_nat c) x) /\
     shown_by pixdist ncam imx imy quader b2 x px v n /\ fits_before moving sub angle tp p q0 r /\
     d = score tp vl (mean_length (norm (p_x p) (p_x r)) (norm (p_x q0) (p_x p))) (angle (p_x p) x (p_x r)) n) /\
  (* a new predecessor is the first candidate, and its value is the final one *)
  (p_prev q <> p_prev p ->
   0 < p_inlist q /\ nth_error (p_link q) 0 = Some (p_prev q) /\ nth_error (p_decis q) 0 = Some (p_final q)).
Proof.
  intros psort HP pixdist ncam imx imy ptp quader moving extrap sub norm angle flat point tp vl Hnc later b1 b2 b3 c1 c2 cnt F1 F2 HI H h p q Hp Hq.
  destruct (back_scores psort HP pixdist ncam Hnc imx imy ptp quader moving extrap sub norm angle flat point tp vl later b1 b2 b3 c1 c2 cnt F1 F2 HI H
    h p q Hp Hq) as (A & B). split; [|intros N; destruct B as [B|B]; [congruence|exact B]].
  intros j d v Hj Hd Hv. destruct (A j d v Hj Hd Hv) as (r & q0 & n & V0 & Hr & TB & C & FB & E).
  exists (Z.to_nat v), r, q0, n. eexists. split; [lia|]. split; auto. split; auto. cbv zeta. split; [|split; [|split; [exact C|auto]]].
  - unfold projections. rewrite map_length, zrange_length. lia.
  - intros c y Hy. assert (c < ncam)%nat.
    { replace ncam with (length (projections (Z.of_nat ncam) ptp (moving (p_x q0) (p_x p)))); [apply nth_error_Some; congruence|].
      unfold projections. rewrite map_length, zrange_length. lia. }
    rewrite proj_nth in Hy by auto. congruence.
Qed.
Print Assumptions C82_backward.
(** two cameras, limits 30 (length), 50 (acceleration), 100 (angle): the particles of [far] move by
    sqrt 10 without acceleration.  Forward, four cameras' votes (two frames) support the candidate;
    backward two *)
Example C82_case :
  (match toy_step 2 false (far 0 false) (far 1 true) (far 2 false) (far 3 false) with
   | Ok (c1, _, _, _) => map (fun p => (p_inlist p, nth 0 (p_link p) 7, nth 0 (p_decis p) fzero)) (fr_path c1)
       = let d := fdiv (fadd (fadd (fdiv (fsqrt (fz 10)) (fz 30)) fzero) fzero) (fz 4) in [(1, 0, d); (1, 1, d)]
   | Exn _ => False end) /\
  match toy_back 2 false (far 4 true) begun (far 2 true) (far 1 false) with
  | Ok (c1, _, _) => map (fun p => (p_inlist p, nth 0 (p_link p) 7, p_final p)) (fr_path c1)
       = let d := fdiv (fadd (fadd (fdiv (fsqrt (fz 10)) (fz 30)) fzero) fzero) (fz 2) in [(1, 0, d); (1, 1, d)]
  | Exn _ => False end.
Proof. split; vm_compute; reflexivity. Qed.

(** ===== C67, joined tracks =====
    A backward step gives a predecessor only to a particle without one and takes one without a
    successor; if that one already continues a track, the motion over the join is smooth: from its
    own predecessor in the earlier frame to the place extrapolated back from the later positions. *)
Theorem C67_joined : forall psort, (forall l, Permutation l (psort l)) ->
  forall pixdist ncam imx imy ptp quader moving extrap sub norm angle flat point tp vl, (1 <= ncam <= 4)%nat ->
  forall later b1 b2 b3 c1 c2 cnt, frame_ok b1 -> frame_ok b2 -> (forall p, In p (fr_path b1) -> p_inlist p = 0) ->
  trackback_step psort pixdist (Z.of_nat ncam) imx imy ptp quader moving extrap sub norm angle flat point tp vl later b1 b2 b3
    = Ok (c1, c2, cnt) ->
  forall h k, prev_of (fr_path c1) h = Z.of_nat k -> prev_of (fr_path b1) h <> Z.of_nat k ->
  exists p r, nth_error (fr_path b1) h = Some p /\ nth_error (fr_path b2) k = Some r /\ p_prev p = -1 /\ p_next r = -2 /\
    forall m, p_prev r = Z.of_nat m ->
      exists q0 q4, nth_error (fr_path later) (Z.to_nat (p_next p)) = Some q0 /\ nth_error (fr_path b3) m = Some q4 /\
        smooth_motion tp (angle (p_x r) (p_x q4) (extrap (p_x r) (p_x p) (p_x q0))).
Proof.
  intros psort HS pixdist ncam imx imy ptp quader moving extrap sub norm angle flat point tp vl HN later b1 b2 b3 c1 c2 cnt F1 F2 HI H h k Hk Hn.
  destruct (C67_backward_limits psort HS pixdist ncam imx imy ptp quader moving extrap sub norm angle flat point tp vl HN _ _ _ _ _ _ _ F1 F2 HI H h k Hk Hn)
    as (p & Hp & P1 & P2 & _).
  destruct (back_more psort HS pixdist ncam HN imx imy ptp quader moving extrap sub norm angle flat point tp vl _ _ _ _ _ _ _ F1 F2 HI H) as (K & _).
  unfold prev_of in Hk, Hn. rewrite Hp in Hn. destruct (nth_error (fr_path c1) h) as [q|] eqn:Eq; [|unfold PREV_NONE in Hk; lia].
  destruct (K h q Eq) as (p' & Hp' & _ & _ & _ & [(E & _)|(_ & _ & r & R1 & R2 & R3)]); assert (p' = p) as -> by congruence; [exfalso; congruence|].
  rewrite Hk in R1. apply pyget_ok_iff in R1; [|lia]. rewrite Nat2Z.id in R1.
  exists p, r. split; auto. split; auto. split; auto. split; auto. intros m Hm.
  destruct R3 as [R3|(q0 & q4 & Q1 & Q2 & Q3)]; [unfold PREV_NONE in R3; lia|].
  apply pyget_ok_iff in Q1; [|lia]. rewrite Hm in Q2. apply pyget_ok_iff in Q2; [|lia]. rewrite Nat2Z.id in Q2. eauto.
Qed.
Print Assumptions C67_joined.

(** nothing else changes: positions, successors and priorities of the current frame, and the final
    decision of every particle that gets no new predecessor; in the earlier frame only free
    successors are filled *)
Theorem C67_kept : forall psort, (forall l, Permutation l (psort l)) ->
  forall pixdist ncam imx imy ptp quader moving extrap sub norm angle flat point tp vl, (1 <= ncam <= 4)%nat ->
  forall later b1 b2 b3 c1 c2 cnt, frame_ok b1 -> frame_ok b2 -> (forall p, In p (fr_path b1) -> p_inlist p = 0) ->
  trackback_step psort pixdist (Z.of_nat ncam) imx imy ptp quader moving extrap sub norm angle flat point tp vl later b1 b2 b3
    = Ok (c1, c2, cnt) ->
  length (fr_path c1) = length (fr_path b1) /\ length (fr_path c2) = length (fr_path b2) /\
  (forall h p q, nth_error (fr_path b1) h = Some p -> nth_error (fr_path c1) h = Some q ->
     p_x q = p_x p /\ p_next q = p_next p /\ p_prio q = p_prio p /\ (p_prev q = p_prev p -> p_final q = p_final p)) /\
  (forall k r s, nth_error (fr_path b2) k = Some r -> nth_error (fr_path c2) k = Some s ->
     p_x s = p_x r /\ p_prev s = p_prev r /\ p_prio s = p_prio r /\ p_decis s = p_decis r /\ p_final s = p_final r /\
     p_link s = p_link r /\ p_inlist s = p_inlist r /\ (p_next s = p_next r \/ p_next r = -2)).
Proof.
  intros psort HS pixdist ncam imx imy ptp quader moving extrap sub norm angle flat point tp vl HN later b1 b2 b3 c1 c2 cnt F1 F2 HI H.
  destruct (back_more psort HS pixdist ncam HN imx imy ptp quader moving extrap sub norm angle flat point tp vl _ _ _ _ _ _ _ F1 F2 HI H) as (K & (L & N) & L1).
  split; auto. split; auto. split.
  - intros h p q Hp Hq. destruct (K h q Hq) as (p' & Hp' & E1 & E2 & E3 & E4). assert (p' = p) as -> by congruence.
    repeat (split; [assumption|]). intros Hpp. destruct E4 as [(_ & E4)|(E4 & E5 & _)]; auto. unfold PREV_NONE in E4. lia.
  - intros k r s Hr Hs. destruct (N k s Hs) as (r' & Hr' & A1 & A2 & A3 & A4 & A5 & A6 & A7 & A8). assert (r' = r) as -> by congruence.
    repeat (split; [assumption|]). destruct A8 as [A8|(A8 & _)]; auto.
Qed.
Print Assumptions C67_kept.
Example C67_joined_case :
  match toy_back 2 false (far 4 true) begun (far 2 true) (far 1 false) with
  | Ok (c1, _, _) => map p_prev (fr_path begun) = [-1; -1] /\ map p_prev (fr_path (far 2 true)) = [0; 1] /\ map p_prev (fr_path c1) = [0; 1]
  | Exn _ => False end.
Proof. vm_compute. repeat split. Qed.
