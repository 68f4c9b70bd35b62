(** Property C78: a clear trajectory is reported unbroken. *)
From Coq Require Import Permutation.
From Verif Require Import Base Lib F64 Model_corr Model_cand Spec_cand Model_track Spec_track Spec_track2 Spec_trail
  Proof_track_search Proof_track_step Proof_track_just Proof_track_ex Proof_track_found Prop_track Prop_track2 Prop_track3
  Model_fb Spec_fb Proof_fb Proof_fb_run Prop_fb Proof_trail.
Local Open Scope Z_scope.

(** ===== C78 =====
    A forward run over frames first .. last without adding particles, with any geometry, any file format
    (parse, store) and two to four cameras.  A trajectory that is clear in the frames on disk
    (Spec_trail) is linked in both directions over all frames in what the run writes; the run
    changes neither numbering nor positions. *)
Theorem C78_unbroken : forall psort, (forall l, Permutation l (psort l)) ->
  forall pixdist ncam imx imy ptp quader moving extrap sub norm angle flat point tp vl, (2 <= ncam <= 4)%nat -> do_add tp = false ->
  forall (D : Type) (parse : bool -> D -> result frame) (store : frame -> D) first last e0 e1 e2 e3 (d0 : disk D) (R : Z -> frame) buf d1 nl,
  first < last ->
  (forall n, first <= n <= Z.max last (first + 2) -> parse false (d0 n) = Ok (R n) /\ frame_ok (R n) /\
     (forall p, In p (fr_path (R n)) -> fresh_particle p) /\ searchable ncam (R n)) ->
  (last <= first + 2 -> frame_ok e2 /\ searchable ncam e2) ->
  full_forward frame D parse store
    (trackcorr_step psort pixdist (Z.of_nat ncam) imx imy ptp quader moving extrap sub norm angle flat point tp vl)
    first last ([e0; e1; e2; e3], d0) = Ok ((buf, d1), nl) ->
  exists W : Z -> frame,
    (forall s, first <= s <= last -> d1 s = store (W s) /\ map p_x (fr_path (W s)) = map p_x (fr_path (R s)) /\ fr_targ (W s) = fr_targ (R s)) /\
    forall k x, clear_trail pixdist ncam imx imy ptp quader moving extrap sub angle flat point tp vl first last R e2 k x ->
      forall s, first <= s < last ->
        next_of (fr_path (W s)) (k s) = Z.of_nat (k (s + 1)) /\ prev_of (fr_path (W (s + 1))) (k (s + 1)) = Z.of_nat (k s).
Proof.
  intros psort HP pixdist ncam imx imy ptp quader moving extrap sub norm angle flat point tp vl Hn NA D parse store first last e0 e1 e2 e3 d0 R buf d1 nl Hl HR He H.
  apply (run_trail psort HP pixdist ncam Hn imx imy ptp quader moving extrap sub norm angle flat point tp vl NA D parse store first last Hl e0 e1 e2 e3 d0 R HR He) in H as (W & W1 & W2).
  exists W. split; auto. intros s Hs. destruct (W1 s Hs) as (E1 & (_ & E2 & _ & _ & E3)). auto.
Qed.
Print Assumptions C78_unbroken.

(** ---- a run over five frames: two particles moving by (3, 1), 100 apart ---- *)
Definition reason (later : list vec) (hp : bool) (x1 x2 x3 x5 : vec) : bool :=
  existsb (fun x4 => pos3d_in_bounds (toy_tp false) (toy_sub x4 x3) &&
    (let '(a, c) := mean_of (if hp then toy_angle x1 x2 x3 else toy_angle x3 x4 x5) (toy_angle x3 x4 x5) in acceptable (toy_tp false) a c)) later ||
  hp && pos3d_in_bounds (toy_tp false) (toy_sub x3 x1) && (let '(a, c) := toy_angle x1 x2 x3 in acceptable (toy_tp false) a c).
Lemma justified_reason s2 (s3 : vec -> Z -> list (f64 * f64) -> Prop) later hp x1 x2 x3 x5 : (forall c n fl, s3 c n fl -> n = 0) ->
  justified toy_sub toy_angle toy_point (toy_tp false) toy_vl s2 s3 later hp x1 x2 x3 x5 -> reason later hp x1 x2 x3 x5 = true.
Proof.
  intros NS [x4 Hx4 B S|n flats SG N _ _ _|Hh B S|n flats A _ _ _ _ _ _ _].
  - unfold reason. apply orb_true_iff. left. apply existsb_exists. exists x4. split; auto. rewrite (limits_bounds _ _ B). cbn [andb].
    destruct (mean_of _ _) as [a c]. now apply smooth_acceptable.
  - apply NS in SG. lia.
  - unfold reason. apply orb_true_iff. right. rewrite Hh, (limits_bounds _ _ B). cbn [andb]. destruct (toy_angle x1 x2 x3) as [a c]. now apply smooth_acceptable.
  - discriminate.
Qed.
Definition far5 := full_forward frame frame (fun _ f => Ok f) (fun f => f) (toy_step 2 false) 0 4 ([nofrm; nofrm; nofrm; nofrm], fun n => far n false).
Definition far_x (s : Z) : vec := (fz (50 + 3 * s), fz (40 + s), fzero).
Lemma far_searchable' k : 0 <= k <= 4 -> searchable 2 (far k false).
Proof.
  intros Hk c tl Hc Htl. assert (c = 0 \/ c = 1)%nat as Ec by lia.
  assert (tl = [tg (50 + 3 * k) (40 + k) 0; tg (150 + 3 * k) (42 + k) 1]) as -> by (destruct Ec as [-> | ->]; now injection Htl as <-).
  split; [destruct Ec as [-> | ->]; reflexivity|].
  assert (k = 0 \/ k = 1 \/ k = 2 \/ k = 3 \/ k = 4) as Ek by lia.
  split; [apply ascending_dec; destruct Ek as [->|[->|[->|[->| ->]]]]; vm_compute; reflexivity|]. split; [cbn; lia|].
  intros t [<-|[<-|[]]]; cbn; lia.
Qed.
Lemma nofrm_searchable : searchable 2 nofrm.
Proof.
  intros c tl Hc Htl. destruct c as [|[|c]]; [injection Htl as <-|injection Htl as <-|lia];
    (split; [reflexivity|]; split; [apply ascending_dec; reflexivity|]; split; [cbn; lia|intros t []]).
Qed.
(** which links are reasonable in the run *)
Definition far_ahead (s : Z) : frame := ahead 0 4 (fun n => far n false) nofrm s.
Definition far_reason (s : Z) (x0 : option vec) (x1 x3 : vec) : bool :=
  let later := map p_x (fr_path (far_ahead s)) in
  match x0 with Some x0 => reason later true x1 (toy_moving x0 x1) x3 (toy_extrap x3 x1 x0) | None => reason later false x1 x1 x3 (toy_moving x1 x3) end.
Lemma far_reasonable s x0 x1 x3 :
  reasonable toy_dist 2 1000 1000 toy_pixel toy_moving toy_extrap toy_sub toy_angle toy_flat toy_point (toy_tp false) toy_vl 0 4 (fun n => far n false) nofrm s x0 x1 x3 ->
  far_reason s x0 x1 x3 = true.
Proof.
  unfold reasonable, far_reason. fold far_ahead.
  assert (NS : forall c n fl, sighting toy_dist 2 1000 1000 toy_pixel toy_flat (fr_targ (far_ahead s)) c n fl -> n = 0).
  { intros c n fl. apply no_free_sighting. intros tl t. unfold far_ahead, ahead. destruct (_ || _); [apply far_no_free|]. destruct (0 <=? s - 2); [apply far_no_free|].
    intros [<-|[<-|[]]] []. }
  destruct x0 as [x0|]; apply justified_reason; exact NS.
Qed.
Definition far_pos (s : Z) : list vec := map p_x (fr_path (far s false)).
Definition far_pasts (s : Z) : list (option vec) := None :: (if 0 <? s then map Some (far_pos (s - 1)) else []).
Lemma far_only : forall s, 0 <= s < 4 ->
  (forall j x3, nth_error (far_pos (s + 1)) j = Some x3 -> far_reason s (if 0 <? s then Some (far_x (s - 1)) else None) (far_x s) x3 = true -> j = O) /\
  (forall h x1 x0, nth_error (far_pos s) h = Some x1 -> In x0 (far_pasts s) -> far_reason s x0 x1 (far_x (s + 1)) = true -> h = O).
Proof.
  intros s Hs. assert (s = 0 \/ s = 1 \/ s = 2 \/ s = 3) as Es by lia. split.
  - intros j x3 Hj Hr. destruct j as [|[|j]]; [reflexivity| |destruct j; discriminate]. exfalso. apply (f_equal (fun o => match o with Some v => v | None => x3 end)) in Hj.
    change ((fz (150 + 3 * (s + 1)), fz (42 + (s + 1)), fz 0) = x3) in Hj. subst x3.
    destruct Es as [->|[->|[->| ->]]]; vm_compute in Hr; discriminate.
  - intros h x1 x0 Hh Hx Hr. destruct h as [|[|h]]; [reflexivity| |destruct h; discriminate]. exfalso. apply (f_equal (fun o => match o with Some v => v | None => x1 end)) in Hh.
    change ((fz (150 + 3 * s), fz (42 + s), fz 0) = x1) in Hh. subst x1.
    assert (X : forallb (fun x0 => negb (far_reason s x0 (fz (150 + 3 * s), fz (42 + s), fz 0) (far_x (s + 1)))) (far_pasts s) = true)
      by (destruct Es as [->|[->|[->| ->]]]; vm_compute; reflexivity).
    rewrite forallb_forall in X. specialize (X x0 Hx). rewrite Hr in X. discriminate.
Qed.
Lemma far_seen s q : 0 <= s <= 4 -> (q = (fz (50 + 3 * s), fz (40 + s)) \/ q = (fz (50 + 3 * (s - 1)), fz (40 + (s - 1)))) ->
  seen_in toy_dist 1000 1000 [tg (50 + 3 * s) (40 + s) 0; tg (150 + 3 * s) (42 + s) 1] q (fz 10, fz 10, fz 10, fz 10) 0.
Proof.
  intros Hs Hq. unfold seen_in. set (hit := target_hit _ _ _ _ _ _ _ _ _ _ _).
  assert (s = 0 \/ s = 1 \/ s = 2 \/ s = 3 \/ s = 4) as Es by lia.
  assert (HH : forall j d, hit j d -> j = 0 /\ d = toy_dist (fst q) (snd q) (fz (50 + 3 * s)) (fz (40 + s))).
  { intros j d (t & J0 & Ht & _ & (_ & B & _) & _ & ->). destruct (Z.to_nat j) as [|[|n]] eqn:Ej; cbn in Ht.
    - injection Ht as <-. split; [lia|reflexivity].
    - exfalso. injection Ht as <-. destruct Hq as [-> | ->], Es as [->|[->|[->|[->| ->]]]]; vm_compute in B; discriminate.
    - destruct n; discriminate. }
  split; [destruct Hq as [-> | ->], Es as [->|[->|[->|[->| ->]]]]; vm_compute; auto|].
  split; [intros j d Hj; destruct (HH j d Hj) as (_ & ->); destruct Hq as [-> | ->], Es as [->|[->|[->|[->| ->]]]]; vm_compute; reflexivity|].
  exists 0, (toy_dist (fst q) (snd q) (fz (50 + 3 * s)) (fz (40 + s))), (tg (50 + 3 * s) (40 + s) 0). split; [|split; [reflexivity|]; split; [reflexivity|]; split].
  - exists (tg (50 + 3 * s) (40 + s) 0). split; [lia|]. split; [reflexivity|]. split; [reflexivity|].
    split; [destruct Hq as [-> | ->], Es as [->|[->|[->|[->| ->]]]]; vm_compute; auto|].
    split; [destruct Es as [->|[->|[->|[->| ->]]]]; vm_compute; auto|reflexivity].
  - intros j d Hj _. now destruct (HH j d Hj).
  - intros js ND Hjs. apply (few_hits toy_dist tracked [tg (50 + 3 * s) (40 + s) 0; tg (150 + 3 * s) (42 + s) 1] (fst q) (snd q) (fz 10) (fz 10) (fz 10) (fz 10) 1000 1000); [cbn; lia|auto|].
    intros j Hj. destruct (Hjs j Hj) as (d & X & _). eauto.
Qed.

Example C78_case :
  (forall n, 0 <= n <= Z.max 4 (0 + 2) -> frame_ok (far n false) /\ (forall p, In p (fr_path (far n false)) -> fresh_particle p) /\ searchable 2 (far n false)) /\
  frame_ok nofrm /\ searchable 2 nofrm /\
  clear_trail toy_dist 2 1000 1000 toy_pixel toy_quader toy_moving toy_extrap toy_sub toy_angle toy_flat toy_point (toy_tp false) toy_vl
    0 4 (fun n => far n false) nofrm (fun _ => O) far_x /\
  show_run far5 [0; 1; 2; 3; 4] = Some ([([-1; -1], [0; 1]); ([0; 1], [0; 1]); ([0; 1], [0; 1]); ([0; 1], [0; 1]); ([0; 1], [-2; -2])], 8).
Proof.
  split; [|split; [|split; [apply nofrm_searchable|split]]].
  - intros n Hn. split; [apply far_ok|]. split; [|apply far_searchable'; lia]. intros p [<-|[<-|[]]]; split; reflexivity.
  - split; [reflexivity|]. intros tl t [<-|[<-|[]]] [].
  - split.
    + intros s Hs. eexists. split; reflexivity.
    + intros s Hs hp x2. assert (s = 0 \/ s = 1 \/ s = 2 \/ s = 3) as Es by lia. destruct (far_only s Hs) as (O1 & O2). split; [|split; [|split]].
      * set (q := if hp then (fz (50 + 3 * (s + 1)), fz (40 + (s + 1))) else (fz (50 + 3 * s), fz (40 + s))).
        exists [q; q]. split.
        -- split; [reflexivity|]. intros c q' Hq'. assert (q' = q /\ (c < 2)%nat) as (-> & Hc) by (destruct c as [|[|c]]; cbn in Hq'; [injection Hq' as <-|injection Hq' as <-|destruct c; discriminate]; split; auto; lia).
           unfold q, x2, hp. destruct (Z.ltb_spec 0 s).
           ++ destruct Es as [->|[->|[->| ->]]]; [lia|vm_compute; reflexivity|vm_compute; reflexivity|vm_compute; reflexivity].
           ++ exists (row 0 0), 0. assert (s = 0) as -> by lia. split; [reflexivity|]. split; [destruct c as [|[|c]]; [reflexivity|reflexivity|lia]|].
              right. split; [lia|]. exists [tg 50 40 0; tg 150 42 1], (tg 50 40 0). split; [destruct c as [|[|c]]; [reflexivity|reflexivity|lia]|]. split; reflexivity.
        -- intros c q' tl Hc Hq' Htl. assert (q' = q) as -> by (destruct c as [|[|c]]; cbn in Hq'; [now injection Hq' as <-|now injection Hq' as <-|lia]).
           assert (tl = [tg (50 + 3 * (s + 1)) (40 + (s + 1)) 0; tg (150 + 3 * (s + 1)) (42 + (s + 1)) 1]) as -> by (destruct c as [|[|c]]; [now injection Htl as <-|now injection Htl as <-|lia]).
           apply far_seen; [lia|]. unfold q. destruct hp; [now left|right]. now replace (s + 1 - 1) with s by lia.
      * unfold x2, hp. destruct (Z.ltb_spec 0 s).
        -- apply past_fits; [reflexivity| |]; destruct Es as [->|[->|[->| ->]]]; try lia; vm_compute; auto 10.
        -- assert (s = 0) as -> by lia. cbn [ahead]. eapply (future_fits _ _ _ _ _ _ _ _ _ _ _ _ _ _ _ O _ [(fz 56, fz 42); (fz 56, fz 42)]); [reflexivity|reflexivity| | | |].
           ++ intros c p Hp. destruct c as [|[|c]]; cbn in Hp; [injection Hp as <-|injection Hp as <-|destruct c; discriminate]; vm_compute; reflexivity.
           ++ intros c q' tl Hc Hq' Htl. assert (q' = (fz 56, fz 42)) as -> by (destruct c as [|[|c]]; cbn in Hq'; [now injection Hq' as <-|now injection Hq' as <-|lia]).
              assert (tl = [tg (50 + 3 * 2) (40 + 2) 0; tg (150 + 3 * 2) (42 + 2) 1]) as -> by (destruct c as [|[|c]]; [now injection Htl as <-|now injection Htl as <-|lia]).
              apply (far_seen 2); [lia|now left].
           ++ vm_compute; auto 10.
           ++ vm_compute; auto.
      * intros j r Hr RE. apply far_reasonable in RE. apply (O1 j (p_x r)); [|exact RE]. unfold far_pos. now rewrite nth_error_map, Hr.
      * intros h p x0 Hp Hx RE. apply far_reasonable in RE. apply (O2 h (p_x p) x0); [unfold far_pos; now rewrite nth_error_map, Hp| |exact RE].
        unfold far_pasts. destruct x0 as [y|]; [|now left]. destruct Hx as (Hx & Hy). right. destruct (Z.ltb_spec 0 s); [|lia]. now apply in_map.
  - vm_compute. reflexivity.
Qed.

(** ---- the evidence of a wrong frame ----
    five frames; one particle moves by (3, 1) and in the last frame the only particle is where it should be but 30 higher
    (limit 20), so the step does not fit its past.  In the last step the code takes frame 1 for the frame after the last one.
    If frame 1 happens to contain a suitable other particle, the link is made; if not, it is not made. *)
Definition jump (other : bool) (s : Z) : frame :=
  let z := if s =? 4 then 30 else 0 in
  let t := [tg (50 + 3 * s) (40 + s) 0] ++ (if other && (s =? 1) then [tg 66 45 1] else []) in
  frm ([pt80 (50 + 3 * s) (40 + s) z] ++ (if other && (s =? 1) then [pt80 66 45 35] else []))
      ([row 0 0] ++ (if other && (s =? 1) then [row 1 1] else [])) [t; t].
Definition jump5 (other : bool) := full_forward frame frame (fun _ f => Ok f) (fun f => f) (toy_step 2 false) 0 4 ([nofrm; nofrm; nofrm; nofrm], jump other).
Theorem C78_wrong_frame_refuted :
  (forall s, s <> 1 -> jump true s = jump false s) /\
  (forall p q, In p (fr_path (jump false 3)) -> In q (fr_path (jump false 4)) -> ~ within_step_limits (toy_tp false) (toy_sub (p_x q) (p_x p))) /\
  show_run (jump5 false) [2; 3; 4] = Some ([([0], [0]); ([0], [-2]); ([-1], [-2])], 3) /\
  show_run (jump5 true) [2; 3; 4] = Some ([([0], [0]); ([0], [0]); ([0], [-2])], 4).
Proof.
  split; [|split; [|split; [vm_compute; reflexivity|vm_compute; reflexivity]]].
  - intros s Hs. unfold jump. destruct (Z.eqb_spec s 1); [lia|]. reflexivity.
  - intros p q [<-|[]] [<-|[]] H. vm_compute in H. destruct H as (_ & _ & _ & _ & _ & H). discriminate.
Qed.
Print Assumptions C78_wrong_frame_refuted.
