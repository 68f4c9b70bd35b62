(** Property C93: tracking runs on the files of a directory. *)
From Coq Require Import Permutation.
From Verif Require Import F64 Model_text Proof_text Model_corr Model_track Spec_track Proof_track_ex Proof_unread Proof_keep Model_fb Spec_fb Proof_fb Proof_keep2 Prop_fb Proof_rerun Prop_rerun
  Model_io Spec_io Proof_io Proof_io2 Proof_io3 Proof_io4 Model_files Spec_files Proof_files Proof_files2 Proof_files3 Proof_files4 Proof_files5 Proof_files6 Proof_files7 Proof_grow Proof_grow2 Lib Base.
Local Open Scope Z_scope.

(** ===== C93 =====
    A run over the files of a directory (correspondence, linkage, priority and target files, with the names that the code gives
    them) is a run over numbered contents: what is read of a frame depends only on its own files, what is written only on the
    frame; so everything proved of such runs (C13, C23, C24, C78, C79) is proved of runs over files. *)
Theorem C93_refines : forall can_write cb lb pb bases lo hi, layout can_write cb lb pb bases lo hi ->
  exists (parse : bool -> list (option text) -> result frame) (store : frame -> list (option text)),
    (forall fs n l, lo <= n <= hi -> file_read cb lb pb bases fs n l = parse l (contents cb lb pb bases fs n)) /\
    (forall fs f n fs', lo <= n <= hi -> file_write can_write cb lb pb bases fs f n = Ok fs' ->
       contents cb lb pb bases fs' n = store f /\ forall t, ~ In t (files_of cb lb pb bases n) -> fs' t = fs t) /\
    (forall fstep first last b fs buf fs' nl, lo <= first -> first <= last -> Z.max last (first + 2) <= hi ->
       forward_run can_write cb lb pb bases fstep first last (b, fs) = Ok ((buf, fs'), nl) ->
       exists d', full_forward frame _ parse store fstep first last (b, contents cb lb pb bases fs) = Ok ((buf, d'), nl) /\
         (forall n, lo <= n <= hi -> contents cb lb pb bases fs' n = d' n) /\ forall t, ~ file_in cb lb pb bases lo hi t -> fs' t = fs t) /\
    (forall bstep first last b fs buf fs' nl, lo <= Z.min first (last - 3) -> first + 2 <= last -> last <= hi ->
       backward_run can_write cb lb pb bases bstep first last (b, fs) = Ok ((buf, fs'), nl) ->
       exists d', trackback_c frame _ parse store bstep first last (b, contents cb lb pb bases fs) = Ok ((buf, d'), nl) /\
         (forall n, lo <= n <= hi -> contents cb lb pb bases fs' n = d' n) /\ forall t, ~ file_in cb lb pb bases lo hi t -> fs' t = fs t).
Proof.
  intros can_write cb lb pb bases lo hi L. exists (cparse cb lb pb bases lo), want. split; [|split; [|split]].
  - intros fs n l Hn. eapply cparse_ok; eauto.
  - intros fs f n fs' Hn H. apply (write_spec _ _ _ _ _ _ _ L) in H as (_ & A & B); auto.
  - intros fstep first last b fs buf fs' nl H1 H2 H3 H.
    apply (forward_sim frame files (list (option text)) (file_read cb lb pb bases) (file_write can_write cb lb pb bases) (cparse cb lb pb bases lo) want fstep
      (csim cb lb pb bases lo hi fs) (fun n => lo <= n <= hi)) with (b := (b, contents cb lb pb bases fs)) in H as ([b' d'] & H & E & S1 & S2); auto.
    + cbn [fst snd] in *. subst b'. eauto.
    + intros w d n l. eapply csim_read; eauto.
    + intros w d f n w'. eapply csim_write; eauto.
    + intros n Hn. lia.
    + split; [reflexivity|]. split; auto.
  - intros bstep first last b fs buf fs' nl H1 H2 H3 H.
    apply (backward_sim frame files (list (option text)) (file_read cb lb pb bases) (file_write can_write cb lb pb bases) (cparse cb lb pb bases lo) want bstep
      (csim cb lb pb bases lo hi fs) (fun n => lo <= n <= hi)) with (b := (b, contents cb lb pb bases fs)) in H as ([b' d'] & H & E & S1 & S2); auto.
    + cbn [fst snd] in *. subst b'. eauto.
    + intros w d n l. eapply csim_read; eauto.
    + intros w d f n w'. eapply csim_write; eauto.
    + intros n Hn. lia.
    + split; [reflexivity|]. split; auto.
Qed.
Print Assumptions C93_refines.

(** Forward tracking of files, without adding particles: it changes no other files than those of frames first..last; each of
    these reads back with the particles that it had before, in the same order, at the same positions (to the three digits that are
    written), seen by the same targets; and the links that are read back agree in both directions between all neighbouring frames. *)
Theorem C93_forward : forall psort, (forall l, Permutation l (psort l)) ->
  forall can_write cb lb pb bases pixdist imx imy ptp quader moving extrap sub norm angle flat point tp vl, (1 <= length bases <= 4)%nat -> do_add tp = false ->
  let fstep := trackcorr_step psort pixdist (Z.of_nat (length bases)) imx imy ptp quader moving extrap sub norm angle flat point tp vl in
  forall first last e0 e1 e2 e3 fs (R : Z -> frame) buf fs' nl, first < last ->
  layout can_write cb lb pb bases first (Z.max last (first + 2)) ->
  (forall n, first <= n <= Z.max last (first + 2) -> file_read cb lb pb bases fs n false = Ok (R n) /\ frame_ok (R n) /\ fits (R n)) ->
  (last <= first + 2 -> frame_ok e2 \/ unread e2) ->
  forward_run can_write cb lb pb bases fstep first last ([e0; e1; e2; e3], fs) = Ok ((buf, fs'), nl) ->
  exists V : Z -> frame,
    (forall n, first <= n <= last -> file_read cb lb pb bases fs' n true = Ok (V n) /\ same_particles (R n) (V n)) /\
    (forall n, first <= n < last -> mutual (fr_path (V n)) (fr_path (V (n + 1)))) /\
    (forall p, In p (fr_path (V first)) -> p_prev p = PREV_NONE) /\ (forall p, In p (fr_path (V last)) -> p_next p = NEXT_NONE) /\
    (forall t, ~ file_in cb lb pb bases first last t -> fs' t = fs t).
Proof.
  intros psort HP can_write cb lb pb bases pixdist imx imy ptp quader moving extrap sub norm angle flat point tp vl Hc NA fstep first last e0 e1 e2 e3 fs R buf fs' nl Hl L HR He H.
  set (hi := Z.max last (first + 2)) in *.
  apply (run_facts _ _ _ _ _ psort HP pixdist Hc imx imy ptp quader moving extrap sub norm angle flat point tp vl first last e0 e1 e2 e3 R NA Hl L He) in H as ((W & W1 & MU & M4 & M5) & O).
  2:{ intros n Hn. destruct (HR n Hn) as (A & B & _). auto. }
  assert (G : forall n, first <= n <= last -> good (W n)).
  { apply (run_good bases first last R W); auto; [|intros n Hn; now apply W1]. intros n Hn. destruct (HR n ltac:(lia)) as (E & _ & F). apply read_shape in E as (A1 & A2 & A3 & A4 & _ & A5). split; auto. split; [unfold shape; auto|auto]. }
  assert (BK : forall n, first <= n <= last -> exists g, file_read cb lb pb bases fs' n true = Ok g /\ same_particles (R n) g /\
     Forall2 (fun p q => p_prev q = p_prev p /\ p_next q = p_next p) (fr_path (W n)) (fr_path g)).
  { intros n Hn. destruct (W1 n Hn) as (NN & KF & X).
    destruct (back_frame _ _ _ _ _ _ _ L n (W n) ltac:(lia) NN (G n Hn)) as (g & E & SP & LK). exists g.
    rewrite (cparse_ok _ _ _ _ _ _ _ L) by lia. rewrite X. split; auto. split; auto.
    destruct KF as (K1 & K2 & K3 & K4 & K5). destruct SP as (P1 & P2 & P3 & P4 & P5). unfold same_particles. rewrite <- K1, <- K2, <- K3, <- K4. split; auto. split; auto.
    clear - K5 P2. revert K5. generalize (fr_path (R n)). induction P2 as [|p q l m Hpq P2 IH]; intros r K5; inversion K5 as [|p' ? r' ? HK K5']; subst; constructor; auto.
    destruct HK as (K1 & K2 & _). unfold same_position in *. rewrite <- K1, <- K2. exact Hpq. }
  set (V := fun n => match file_read cb lb pb bases fs' n true with Ok g => g | Exn _ => R n end).
  assert (BV : forall n, first <= n <= last -> file_read cb lb pb bases fs' n true = Ok (V n) /\ same_particles (R n) (V n) /\
     Forall2 (fun p q => p_prev q = p_prev p /\ p_next q = p_next p) (fr_path (W n)) (fr_path (V n))).
  { intros n Hn. destruct (BK n Hn) as (g & E & SP & LK). unfold V. rewrite E. auto. }
  assert (NX : forall n h, first <= n <= last -> next_of (fr_path (V n)) h = next_of (fr_path (W n)) h /\ prev_of (fr_path (V n)) h = prev_of (fr_path (W n)) h).
  { intros n h Hn. destruct (BV n Hn) as (_ & _ & F). clear - F. unfold next_of, prev_of. revert h. induction F as [|p q l m (A & B) F IH]; intros [|h]; cbn; auto. }
  exists V. split; [intros n Hn; destruct (BV n Hn) as (A & B & _); auto|]. split; [|split; [|split]].
  - intros n Hn h k. destruct (NX n h ltac:(lia)) as (-> & _). destruct (NX (n + 1) k ltac:(lia)) as (_ & ->). apply MU. exact Hn.
  - intros p Hp. apply In_nth_error in Hp as (k & Hk). destruct (NX first k ltac:(lia)) as (_ & X). unfold prev_of in X. rewrite Hk in X. rewrite X.
    destruct (nth_error (fr_path (W first)) k) as [q|] eqn:Eq; auto. apply M4. eapply nth_error_In; eauto.
  - intros p Hp. apply In_nth_error in Hp as (k & Hk). destruct (NX last k ltac:(lia)) as (X & _). unfold next_of in X. rewrite Hk in X. rewrite X.
    destruct (nth_error (fr_path (W last)) k) as [q|] eqn:Eq; auto. apply M5. eapply nth_error_In; eauto.
  - exact O.
Qed.
Print Assumptions C93_forward.

(** Tracking the files again.  If writing the frames as they were read would change nothing but the linkage and priority files
    (the correspondence and target files are in the form that the program writes), then a run without adding particles changes
    nothing but linkage and priority files, and the same run over the files that it leaves finds the same number of links and
    leaves every file as it is. *)
Theorem C93_repeat : forall psort, (forall l, Permutation l (psort l)) ->
  forall can_write cb lb pb bases pixdist imx imy ptp quader moving extrap sub norm angle flat point tp vl, (1 <= length bases <= 4)%nat -> do_add tp = false ->
  let fstep := trackcorr_step psort pixdist (Z.of_nat (length bases)) imx imy ptp quader moving extrap sub norm angle flat point tp vl in
  forall first last e0 e1 e2 e3 fs (R : Z -> frame) buf fs' nl, first < last ->
  layout can_write cb lb pb bases first (Z.max last (first + 2)) ->
  (forall n, first <= n <= Z.max last (first + 2) -> file_read cb lb pb bases fs n false = Ok (R n) /\ frame_ok (R n)) ->
  (last <= first + 2 -> frame_ok e2 \/ unread e2) ->
  (forall n, first <= n <= last -> exists g, file_write can_write cb lb pb bases fs (R n) n = Ok g /\
     forall t, t <> frame_name lb n -> t <> frame_name pb n -> g t = fs t) ->
  forward_run can_write cb lb pb bases fstep first last ([e0; e1; e2; e3], fs) = Ok ((buf, fs'), nl) ->
  (forall t, ~ (exists n, first <= n <= last /\ (t = frame_name lb n \/ t = frame_name pb n)) -> fs' t = fs t) /\
  exists fs'', forward_run can_write cb lb pb bases fstep first last ([e0; e1; e2; e3], fs') = Ok ((buf, fs''), nl) /\ forall t, fs'' t = fs' t.
Proof.
  intros psort HP can_write cb lb pb bases pixdist imx imy ptp quader moving extrap sub norm angle flat point tp vl Hc NA fstep first last e0 e1 e2 e3 fs R buf fs' nl Hl L HR He HW H.
  exact (run_twice _ _ _ _ _ psort HP pixdist Hc imx imy ptp quader moving extrap sub norm angle flat point tp vl first last e0 e1 e2 e3 R NA Hl L He fs buf fs' nl HR HW H).
Qed.
Print Assumptions C93_repeat.

(** The files that a run leaves are in that form.  So whatever the first run did to the digits of the input, after the second run
    nothing changes any more. *)
Theorem C93_settles : forall psort, (forall l, Permutation l (psort l)) ->
  forall can_write cb lb pb bases pixdist imx imy ptp quader moving extrap sub norm angle flat point tp vl, (1 <= length bases <= 4)%nat -> do_add tp = false ->
  let fstep := trackcorr_step psort pixdist (Z.of_nat (length bases)) imx imy ptp quader moving extrap sub norm angle flat point tp vl in
  forall first last e0 e1 e2 e3 fs (R : Z -> frame) buf1 fs1 nl1 buf2 fs2 nl2, first < last ->
  layout can_write cb lb pb bases first (Z.max last (first + 2)) ->
  (forall n, first <= n <= Z.max last (first + 2) -> file_read cb lb pb bases fs n false = Ok (R n) /\ frame_ok (R n) /\ fits (R n)) ->
  (last <= first + 2 -> frame_ok e2 \/ unread e2) ->
  forward_run can_write cb lb pb bases fstep first last ([e0; e1; e2; e3], fs) = Ok ((buf1, fs1), nl1) ->
  forward_run can_write cb lb pb bases fstep first last ([e0; e1; e2; e3], fs1) = Ok ((buf2, fs2), nl2) ->
  (forall t, ~ (exists n, first <= n <= last /\ (t = frame_name lb n \/ t = frame_name pb n)) -> fs2 t = fs1 t) /\
  exists fs3, forward_run can_write cb lb pb bases fstep first last ([e0; e1; e2; e3], fs2) = Ok ((buf2, fs3), nl2) /\ forall t, fs3 t = fs2 t.
Proof.
  intros psort HP can_write cb lb pb bases pixdist imx imy ptp quader moving extrap sub norm angle flat point tp vl Hc NA fstep first last e0 e1 e2 e3 fs R buf1 fs1 nl1 buf2 fs2 nl2 Hl L HR He H1 H2.
  apply (run_facts _ _ _ _ _ psort HP pixdist Hc imx imy ptp quader moving extrap sub norm angle flat point tp vl first last e0 e1 e2 e3 R NA Hl L He) in H1 as ((W & W1 & MU & M4 & M5) & O).
  2:{ intros n Hn. destruct (HR n Hn) as (A & B & _). auto. }
  assert (G : forall n, first <= n <= last -> good (W n)).
  { apply (run_good bases first last R W); auto; [|intros n Hn; now apply W1]. intros n Hn. destruct (HR n ltac:(lia)) as (E & _ & F). apply read_shape in E as (A1 & A2 & A3 & A4 & _ & A5). split; auto. split; [unfold shape; auto|auto]. }
  set (hi := Z.max last (first + 2)) in *.
  assert (X : forall n, first <= n <= last -> exists g, file_read cb lb pb bases fs1 n false = Ok g /\ frame_ok g /\
    exists k, file_write can_write cb lb pb bases fs1 g n = Ok k /\ forall t, t <> frame_name lb n -> t <> frame_name pb n -> k t = fs1 t).
  { intros n Hn. assert (Hn' : first <= n <= hi) by lia. destruct (W1 n Hn) as (NN & KF & X). destruct (back_fresh _ _ _ _ _ _ _ L (W n) ltac:(lia) NN (G n Hn)) as (g & E1 & E2 & E3 & E4 & E5 & E6 & _). exists g.
    split; [rewrite (cparse_ok _ _ _ _ _ _ _ L) by lia; now rewrite X|]. split.
    - destruct E3 as (E3 & _). split; [exact E3|]. destruct (HR n Hn') as (_ & (_ & F) & _). destruct KF as (_ & _ & KT & _). intros tl t Htl Ht.
      assert (I : In (t_tnr t) (map t_tnr (concat (fr_targ g)))) by (apply in_map, in_concat; eauto). rewrite E6, KT in I. apply in_map_iff in I as (t' & Et & I). apply in_concat in I as (tl' & I1 & I2). rewrite <- Et. eapply F; eauto.
    - destruct (write_ok _ _ _ _ _ _ _ L fs1 g n Hn' E2) as (k & K1 & K2 & K3). exists k. split; auto. intros t T1 T2.
      destruct (in_dec (list_eq_dec ascii_dec) t (files_of cb lb pb bases n)) as [I|I]; [|now apply K3].
      destruct I as [<-|[<-|[<-|I]]]; [|contradiction|contradiction|].
      + assert (Q : nth_error (contents cb lb pb bases k n) 0 = nth_error (contents cb lb pb bases fs1 n) 0) by (rewrite K2, X; exact E4). rewrite !head_corr in Q. congruence.
      + assert (Q : skipn 3 (contents cb lb pb bases k n) = skipn 3 (contents cb lb pb bases fs1 n)) by (rewrite K2, X; exact E5). rewrite !skip_targets in Q. apply (ext_in_map Q t I). }
  assert (Y : exists R' : Z -> frame, (forall n, first <= n <= last -> file_read cb lb pb bases fs1 n false = Ok (R' n))).
  { exists (fun n => match file_read cb lb pb bases fs1 n false with Ok g => g | Exn _ => R n end). intros n Hn. destruct (X n Hn) as (g & E & _). now rewrite E. }
  destruct Y as (R1 & Y). set (R' := fun n => if n <=? last then R1 n else R n).
  apply (run_twice _ _ _ _ _ psort HP pixdist Hc imx imy ptp quader moving extrap sub norm angle flat point tp vl first last e0 e1 e2 e3 R' NA Hl L He fs1 buf2 fs2 nl2); auto.
  - intros n Hn. unfold R'. destruct (Z.leb_spec n last) as [Q|Q].
    + destruct (X n ltac:(lia)) as (g & E & F & _). specialize (Y n ltac:(lia)). rewrite Y in E. injection E as <-. auto.
    + destruct (HR n Hn) as (A & B & _). split; auto. rewrite <- A. apply (read_eq _ _ _ _ _ _ _ L); auto. apply same_files. intros t Ht. apply O. intros (m & Hm & I). apply (files_apart _ _ _ _ _ _ _ L n m t); auto; lia.
  - intros n Hn. unfold R'. destruct (Z.leb_spec n last) as [Q|Q]; [|lia]. destruct (X n ltac:(lia)) as (g & E & _ & K). rewrite (Y n Hn) in E. injection E as <-. exact K.
Qed.
Print Assumptions C93_settles.

(** Forward tracking with particles added from unused targets: each frame of the range reads back with the particles that it had
    before, in the same order and places, followed by the added ones; with the same detections up to the particle that they belong
    to; at most as many particles are added as there were unused targets; and the links agree between all neighbouring frames. *)
Theorem C93_forward_adding : forall psort, (forall l, Permutation l (psort l)) ->
  forall can_write cb lb pb bases pixdist imx imy ptp quader moving extrap sub norm angle flat point tp vl, (1 <= length bases <= 4)%nat -> (forall v, vec_floats (point v)) ->
  let fstep := trackcorr_step psort pixdist (Z.of_nat (length bases)) imx imy ptp quader moving extrap sub norm angle flat point tp vl in
  forall first last e0 e1 e2 e3 fs (R : Z -> frame) buf fs' nl, first < last ->
  layout can_write cb lb pb bases first (Z.max last (first + 2)) ->
  (forall n, first <= n <= Z.max last (first + 2) -> file_read cb lb pb bases fs n false = Ok (R n) /\ frame_ok (R n) /\ fits (R n) /\ roomy (R n)) ->
  (last <= first + 2 -> frame_ok e2 \/ unread e2) ->
  forward_run can_write cb lb pb bases fstep first last ([e0; e1; e2; e3], fs) = Ok ((buf, fs'), nl) ->
  exists V : Z -> frame,
    (forall n, first <= n <= last -> file_read cb lb pb bases fs' n true = Ok (V n) /\ more_particles (R n) (V n)) /\
    (forall n, first <= n < last -> mutual (fr_path (V n)) (fr_path (V (n + 1)))) /\
    (forall p, In p (fr_path (V first)) -> p_prev p = PREV_NONE) /\ (forall p, In p (fr_path (V last)) -> p_next p = NEXT_NONE) /\
    (forall t, ~ file_in cb lb pb bases first last t -> fs' t = fs t).
Proof.
  intros psort HP can_write cb lb pb bases pixdist imx imy ptp quader moving extrap sub norm angle flat point tp vl Hc PT fstep first last e0 e1 e2 e3 fs R buf fs' nl Hl L HR He H.
  set (hi := Z.max last (first + 2)) in *.
  apply (run_facts_add _ _ _ _ _ psort HP pixdist Hc imx imy ptp quader moving extrap sub norm angle flat point tp vl first last e0 e1 e2 e3 R Hl L He) in H as ((W & W1 & MU & M4 & M5) & O).
  2:{ intros n Hn. destruct (HR n Hn) as (A & B & _). auto. }
  assert (LEN : forall n, first <= n <= last -> Z.of_nat (length (fr_path (W n))) <= 2 ^ 53).
  { intros n Hn. destruct (HR n ltac:(lia)) as (E & _ & _ & R1 & R2). apply read_shape in E as (_ & _ & _ & A4 & _). destruct (W1 n Hn) as (_ & (_ & _ & _ & _ & _ & U & _) & _).
    change (unused_targets (R n)) with (usum (fr_targ (R n))) in R1. lia. }
  assert (TA : forall n q, first <= n <= last -> In q (fr_path (W n)) -> tame q).
  { intros n q Hn. destruct (HR n ltac:(lia)) as (E & _). apply read_shape in E as (_ & _ & _ & _ & _ & E). destruct (W1 n Hn) as (_ & ((l1 & l2 & A1 & A2 & A3) & _) & _).
    rewrite A1. apply (tame_new _ _ _ _ A2 A3). now apply E. }
  assert (G : forall n, first <= n <= last -> good (W n)).
  { intros n Hn. destruct (HR n ltac:(lia)) as (E & _ & F & RM). apply read_shape in E as (A1 & A2 & A3 & A4 & _ & A5). destruct (W1 n Hn) as (_ & KG & FO & _).
    apply (good_grown bases point (R n)); auto; [unfold shape; auto|]. intros q Hq. exact (links_exact first last W LEN TA MU M4 M5 n q Hn Hq). }
  assert (BK : forall n, first <= n <= last -> exists g, file_read cb lb pb bases fs' n true = Ok g /\ more_particles (R n) g /\
     Forall2 (fun p q => p_prev q = p_prev p /\ p_next q = p_next p) (fr_path (W n)) (fr_path g)).
  { intros n Hn. destruct (W1 n Hn) as (NN & KG & FO & X).
    destruct (back_frame _ _ _ _ _ _ _ L n (W n) ltac:(lia) NN (G n Hn)) as (g & E & SP & LK). exists g.
    assert (RG : file_read cb lb pb bases fs' n true = Ok g) by (rewrite (cparse_ok _ _ _ _ _ _ _ L) by lia; now rewrite X).
    split; auto. split; auto. apply (grown_back point _ _ _ KG SP). now apply read_shape in RG. }
  set (V := fun n => match file_read cb lb pb bases fs' n true with Ok g => g | Exn _ => R n end).
  assert (BV : forall n, first <= n <= last -> file_read cb lb pb bases fs' n true = Ok (V n) /\ more_particles (R n) (V n) /\
     Forall2 (fun p q => p_prev q = p_prev p /\ p_next q = p_next p) (fr_path (W n)) (fr_path (V n))).
  { intros n Hn. destruct (BK n Hn) as (g & E & SP & LK). unfold V. rewrite E. auto. }
  assert (NX : forall n h, first <= n <= last -> next_of (fr_path (V n)) h = next_of (fr_path (W n)) h /\ prev_of (fr_path (V n)) h = prev_of (fr_path (W n)) h).
  { intros n h Hn. destruct (BV n Hn) as (_ & _ & F). clear - F. unfold next_of, prev_of. revert h. induction F as [|p q l m (A & B) F IH]; intros [|h]; cbn; auto. }
  exists V. split; [intros n Hn; destruct (BV n Hn) as (A & B & _); auto|]. split; [|split; [|split]].
  - intros n Hn h k. destruct (NX n h ltac:(lia)) as (-> & _). destruct (NX (n + 1) k ltac:(lia)) as (_ & ->). apply MU. exact Hn.
  - intros p Hp. apply In_nth_error in Hp as (k & Hk). destruct (NX first k ltac:(lia)) as (_ & X). unfold prev_of in X. rewrite Hk in X. rewrite X.
    destruct (nth_error (fr_path (W first)) k) as [q|] eqn:Eq; auto. apply M4. eapply nth_error_In; eauto.
  - intros p Hp. apply In_nth_error in Hp as (k & Hk). destruct (NX last k ltac:(lia)) as (X & _). unfold next_of in X. rewrite Hk in X. rewrite X.
    destruct (nth_error (fr_path (W last)) k) as [q|] eqn:Eq; auto. apply M5. eapply nth_error_In; eauto.
  - exact O.
Qed.
Print Assumptions C93_forward_adding.

(** Backward tracking of files whose links agree: only files of frames first+1..last-1 are changed; frames first+2..last-1 read
    back with the particles that they had, all links that they had, and links that agree in both directions. *)
Theorem C93_backward : forall psort, (forall l, Permutation l (psort l)) ->
  forall can_write cb lb pb bases pixdist imx imy ptp quader moving extrap sub norm angle flat point tp vl, (1 <= length bases <= 4)%nat ->
  let bstep := trackback_step psort pixdist (Z.of_nat (length bases)) imx imy ptp quader moving extrap sub norm angle flat point tp vl in
  forall first last e0 e1 e2 e3 fs (R : Z -> frame) buf fs' nl, first + 2 <= last ->
  layout can_write cb lb pb bases (Z.min first (last - 3)) last ->
  (forall n, Z.min first (last - 3) <= n <= last -> file_read cb lb pb bases fs n true = Ok (R n) /\ frame_ok (R n) /\ fits (R n) /\
     forall p, In p (fr_path (R n)) -> (p_prev p = PREV_NONE \/ 0 <= p_prev p) /\ (p_next p = NEXT_NONE \/ 0 <= p_next p)) ->
  (forall n, Z.min first (last - 3) <= n < last -> mutual (fr_path (R n)) (fr_path (R (n + 1)))) ->
  backward_run can_write cb lb pb bases bstep first last ([e0; e1; e2; e3], fs) = Ok ((buf, fs'), nl) ->
  exists V : Z -> frame,
    (forall n, first + 1 < n < last -> file_read cb lb pb bases fs' n true = Ok (V n) /\ same_particles (R n) (V n) /\
       forall h p, nth_error (fr_path (R n)) h = Some p -> exists q, nth_error (fr_path (V n)) h = Some q /\
         (p_next p <> NEXT_NONE -> p_next q = p_next p) /\ (p_prev p <> PREV_NONE -> p_prev q = p_prev p)) /\
    (forall n, first + 1 < n < last - 1 -> mutual (fr_path (V n)) (fr_path (V (n + 1)))) /\
    (forall t, ~ file_in cb lb pb bases (first + 1) (last - 1) t -> fs' t = fs t).
Proof.
  intros psort HP can_write cb lb pb bases pixdist imx imy ptp quader moving extrap sub norm angle flat point tp vl Hc bstep first last e0 e1 e2 e3 fs R buf fs' nl Hl L HR HM H.
  apply (back_facts _ _ _ _ _ _ _ L psort HP pixdist Hc imx imy ptp quader moving extrap sub norm angle flat point tp vl first last e0 e1 e2 e3 R Hl eq_refl eq_refl) in H as ((W & W1 & W2 & W3 & W4 & W5) & O); auto.
  2:{ intros n Hn. destruct (HR n Hn) as (A & B & _). auto. }
  assert (LEN : forall n, first <= n <= last -> Z.of_nat (length (fr_path (W n))) <= 2 ^ 53).
  { intros n Hn. destruct (W5 n Hn) as (-> & _). apply HR. lia. }
  assert (QX : forall n q, first + 1 < n < last -> In q (fr_path (W n)) -> exact_int (p_prev q) /\ exact_int (p_next q)).
  { intros n q Hn Hq. assert (T : tame q).
    { destruct (W3 n (or_intror Hn)) as (_ & _ & _ & _ & _ & F). destruct (HR n ltac:(lia)) as (_ & _ & _ & E).
      clear - F E Hq. induction F as [|x y l m (_ & _ & HK) F IH]; [destruct Hq|]. destruct Hq as [<-|Hq]; [|apply IH; auto; intros p Hp; apply E; now right].
      apply HK. apply (E x (or_introl eq_refl)). }
    destruct T as (T1 & T2). pose proof Hq as Hq'. apply In_nth_error in Hq' as (k & Hk). unfold exact_int. split.
    - destruct T1 as [->|T1]; [unfold PREV_NONE; lia|].
      pose proof (W4 (n - 1) ltac:(lia) (Z.to_nat (p_prev q)) k) as M. replace (n - 1 + 1) with n in M by lia. unfold prev_of, next_of in M. rewrite Hk, Z2Nat.id in M by lia.
      destruct M as (_ & M). specialize (M eq_refl). destruct (nth_error (fr_path (W (n - 1))) (Z.to_nat (p_prev q))) eqn:X; [|unfold NEXT_NONE in M; lia].
      assert (Z.to_nat (p_prev q) < length (fr_path (W (n - 1)%Z)))%nat by (apply nth_error_Some; congruence). pose proof (LEN (n - 1) ltac:(lia)). lia.
    - destruct T2 as [->|T2]; [unfold NEXT_NONE; lia|].
      pose proof (W4 n ltac:(lia) k (Z.to_nat (p_next q))) as M. unfold prev_of, next_of in M. rewrite Hk, Z2Nat.id in M by lia.
      destruct M as (M & _). specialize (M eq_refl). destruct (nth_error (fr_path (W (n + 1))) (Z.to_nat (p_next q))) eqn:X; [|unfold PREV_NONE in M; lia].
      assert (Z.to_nat (p_next q) < length (fr_path (W (n + 1)%Z)))%nat by (apply nth_error_Some; congruence). pose proof (LEN (n + 1) ltac:(lia)). lia. }
  assert (BK : forall n, first + 1 < n < last -> exists g, file_read cb lb pb bases fs' n true = Ok g /\ same_particles (R n) g /\
     Forall2 (fun p q => p_prev q = p_prev p /\ p_next q = p_next p) (fr_path (W n)) (fr_path g)).
  { intros n Hn. destruct (W3 n (or_intror Hn)) as (NN & KF). specialize (W1 n Hn).
    assert (G : good (W n)). { destruct (HR n ltac:(lia)) as (A & _ & F & _). apply read_shape in A as (A1 & A2 & A3 & A4 & _). apply (good_kept bases (R n)); auto. intros q Hq. now apply (QX n). }
    destruct (back_frame _ _ _ _ _ _ _ L n (W n) ltac:(lia) NN G) as (g & E & SP & LK). exists g.
    rewrite (cparse_ok _ _ _ _ _ _ _ L) by lia. rewrite W1. split; auto. split; auto.
    destruct KF as (K1 & K2 & K3 & K4 & K5). destruct SP as (P1 & P2 & P3 & P4 & P5). unfold same_particles. rewrite <- K1, <- K2, <- K3, <- K4. split; auto. split; auto.
    clear - K5 P2. revert K5. generalize (fr_path (R n)). induction P2 as [|p q l m Hpq P2 IH]; intros r K5; inversion K5 as [|p' ? r' ? HK K5']; subst; constructor; auto.
    destruct HK as (K1 & K2 & _). unfold same_position in *. rewrite <- K1, <- K2. exact Hpq. }
  set (V := fun n => match file_read cb lb pb bases fs' n true with Ok g => g | Exn _ => R n end).
  assert (BV : forall n, first + 1 < n < last -> file_read cb lb pb bases fs' n true = Ok (V n) /\ same_particles (R n) (V n) /\
     Forall2 (fun p q => p_prev q = p_prev p /\ p_next q = p_next p) (fr_path (W n)) (fr_path (V n))).
  { intros n Hn. destruct (BK n Hn) as (g & E & SP & LK). unfold V. rewrite E. auto. }
  exists V. split; [|split; [|exact O]].
  - intros n Hn. destruct (BV n Hn) as (A & B & F). split; auto. split; auto. intros h p Hp. destruct (W5 n ltac:(lia)) as (_ & X). destruct (X h p Hp) as (q & Q1 & _ & Q2 & Q3).
    clear - F Q1 Q2 Q3. revert h Q1. induction F as [|x y l m (F1 & F2) F IH]; intros [|h] Q1; try discriminate Q1; [|now apply IH]. injection Q1 as ->. exists y. split; [reflexivity|]. rewrite F1, F2. auto.
  - intros n Hn h k.
    assert (NX : forall n h, first + 1 < n < last -> next_of (fr_path (V n)) h = next_of (fr_path (W n)) h /\ prev_of (fr_path (V n)) h = prev_of (fr_path (W n)) h).
    { intros n' h' Hn'. destruct (BV n' Hn') as (_ & _ & F). clear - F. unfold next_of, prev_of. revert h'. induction F as [|p q l m (A & B) F IH]; intros [|h]; cbn; auto. }
    destruct (NX n h ltac:(lia)) as (-> & _). destruct (NX (n + 1) k ltac:(lia)) as (_ & ->). apply W4. lia.
Qed.
Print Assumptions C93_backward.

(** What is missing is false: afterwards the files of frame first+1 describe the particles and targets of frame first. *)
Theorem C93_overwritten_refuted : forall psort, (forall l, Permutation l (psort l)) ->
  forall can_write cb lb pb bases pixdist imx imy ptp quader moving extrap sub norm angle flat point tp vl, (1 <= length bases <= 4)%nat ->
  let bstep := trackback_step psort pixdist (Z.of_nat (length bases)) imx imy ptp quader moving extrap sub norm angle flat point tp vl in
  forall first last e0 e1 e2 e3 fs (R : Z -> frame) buf fs' nl, first + 2 <= last ->
  layout can_write cb lb pb bases (Z.min first (last - 3)) last ->
  (forall n, Z.min first (last - 3) <= n <= last -> file_read cb lb pb bases fs n true = Ok (R n) /\ frame_ok (R n)) -> fits (R first) ->
  (forall n, Z.min first (last - 3) <= n < last -> mutual (fr_path (R n)) (fr_path (R (n + 1)))) ->
  backward_run can_write cb lb pb bases bstep first last ([e0; e1; e2; e3], fs) = Ok ((buf, fs'), nl) ->
  exists g, file_read cb lb pb bases fs' (first + 1) false = Ok g /\
    Forall2 same_position (fr_path (R first)) (fr_path g) /\ Forall2 (Forall2 (same_target 4)) (fr_targ (R first)) (fr_targ g).
Proof.
  intros psort HP can_write cb lb pb bases pixdist imx imy ptp quader moving extrap sub norm angle flat point tp vl Hc bstep first last e0 e1 e2 e3 fs R buf fs' nl Hl L HR HF HM H.
  apply (back_facts _ _ _ _ _ _ _ L psort HP pixdist Hc imx imy ptp quader moving extrap sub norm angle flat point tp vl first last e0 e1 e2 e3 R Hl eq_refl eq_refl) in H as ((W & W1 & W2 & W3 & W4 & W5) & O); auto.
  destruct (W3 first (or_introl eq_refl)) as (NN & KF). destruct (HR first ltac:(lia)) as (A & _). apply read_shape in A as (A1 & A2 & A3 & A4 & _).
  eapply (fresh_of _ _ _ _ _ _ _ L); eauto; [lia|unfold shape; auto].
Qed.
Print Assumptions C93_overwritten_refuted.

(** ---- a directory with five frames of two particles, and what three runs do to it ---- *)
Definition walk (k : Z) : frame :=
  frm [pt80 (50 + 3 * k) (40 + k) 0; pt80 (150 + 3 * k) (42 + k) 0] [row 0 0; mk_corres 2 [1; 1; -1; -1]]
      [[tg (50 + 3 * k) (40 + k) 0; tg (150 + 3 * k) (42 + k) 1]; [tg (50 + 3 * k) (40 + k) 0; tg (150 + 3 * k) (42 + k) 1]].
Definition ex_bases : list text := [txt "img/cam1.%d"; txt "img/cam2.%05d"].
Definition ex_write := file_write (fun _ => true) (txt "res/rt_is") (txt "res/ptv_is") (txt "res/added") ex_bases.
Definition ex_read := file_read (txt "res/rt_is") (txt "res/ptv_is") (txt "res/added") ex_bases.
Definition ex_dir : files := match foldM (fun fs n => ex_write fs (walk n) n) (zrange 10 15) (fun _ => None) with Ok fs => fs | Exn _ => fun _ => None end.
Definition ex_run (fs : files) := forward_run (fun _ => true) (txt "res/rt_is") (txt "res/ptv_is") (txt "res/added") ex_bases (toy_step 2 false) 10 14 ([nofrm; nofrm; nofrm; nofrm], fs).
Definition ex_after (r : result (list frame * files * Z)) : files := match r with Ok ((_, fs), _) => fs | Exn _ => fun _ => None end.
Definition ex_links (fs : files) := map (fun n => match ex_read fs n true with Ok f => (map p_prev (fr_path f), map p_next (fr_path f)) | Exn _ => ([], []) end) (zrange 10 15).
Definition ex_count (r : result (list frame * files * Z)) : Z := match r with Ok (_, nl) => nl | Exn _ => -1 end.
Lemma ex_frames n : 10 <= n <= 14 -> n = 10 \/ n = 11 \/ n = 12 \/ n = 13 \/ n = 14. Proof. lia. Qed.
Definition apart (l m : list text) : bool := forallb (fun x => negb (existsb (teqb x) m)) l.
Lemma apart_no l m t : apart l m = true -> In t l -> In t m -> False.
Proof.
  unfold apart. intros H I J. rewrite forallb_forall in H. specialize (H t I). assert (existsb (teqb t) m = true); [|rewrite H0 in H; discriminate].
  apply existsb_exists. exists t. split; auto. apply teqb_refl.
Qed.
Fixpoint distinct (l : list text) : bool := match l with [] => true | x :: r => apart [x] r && distinct r end.
Lemma distinct_nodup l : distinct l = true -> NoDup l.
Proof.
  induction l as [|x l IH]; intros H; [constructor|]. cbn [distinct] in H. apply andb_true_iff in H as (A & B). constructor; auto. intros I. eapply apart_no; eauto. now left.
Qed.
Example C93_case_layout : layout (fun _ => true) (txt "res/rt_is") (txt "res/ptv_is") (txt "res/added") ex_bases 10 14.
Proof.
  constructor; try discriminate; auto; try lia.
  - intros b Hb. assert (X : has "#" b = false /\ has "%" b = true /\ forall n, 10 <= n <= 14 -> match read_name b n with Ok _ => True | Exn _ => False end).
    { destruct Hb as [<-|[<-|[]]]; (split; [reflexivity|]; split; [reflexivity|]; intros n Hn; apply ex_frames in Hn as [->|[->|[->|[->| ->]]]]; vm_compute; exact I). }
    destruct X as (X1 & X2 & X3). split; [intros I; apply has_In in I; congruence|]. split; [now apply has_In|]. intros n Hn. specialize (X3 n Hn). destruct (read_name b n); [eauto|contradiction].
  - intros n Hn. apply distinct_nodup. apply ex_frames in Hn as [->|[->|[->|[->| ->]]]]; vm_compute; reflexivity.
  - intros n m t Hn Hm I J. destruct (Z.eq_dec n m) as [|D]; auto. exfalso. revert I J. apply apart_no.
    apply ex_frames in Hn as [->|[->|[->|[->| ->]]]]; apply ex_frames in Hm as [->|[->|[->|[->| ->]]]]; try contradiction; vm_compute; reflexivity.
Qed.
Example C93_case_frames : forall n, 10 <= n <= Z.max 14 (10 + 2) -> ex_read ex_dir n false = Ok (walk n) /\ frame_ok (walk n) /\ fits (walk n).
Proof.
  intros n Hn. assert (K : forall z, Z.abs z <= 9999 -> exact_int z) by (intros z Hz; unfold exact_int; assert (9999 < 2 ^ 53) by reflexivity; lia).
  split; [apply ex_frames in Hn as [->|[->|[->|[->| ->]]]]; vm_compute; reflexivity|]. split.
  - split; [reflexivity|]. intros tl t [<-|[<-|[]]] [<-|[<-|[]]]; cbn; lia.
  - assert (FZ : forall z, In z [50 + 3 * n; 40 + n; 150 + 3 * n; 42 + n; 0] -> float_ok (fz z)).
    { apply ex_frames in Hn as [->|[->|[->|[->| ->]]]]; intros z [<-|[<-|[<-|[<-|[<-|[]]]]]]; right; right; split; vm_compute; reflexivity. }
    assert (TG : forall x y k, In x [50 + 3 * n; 150 + 3 * n] -> In y [40 + n; 42 + n] -> In k [0; 1] -> target_ok (tg x y k)).
    { intros x y k Hx Hy Hk. unfold target_ok, tg. cbn [t_pnr t_n t_nx t_ny t_sumg t_tnr t_x t_y]. do 5 (split; [apply K; lia|]). split; [destruct Hk as [<-|[<-|[]]]; apply K; lia|].
      split; apply FZ; [destruct Hx as [<-|[<-|[]]]|destruct Hy as [<-|[<-|[]]]]; cbn [In]; auto 10. }
    split; [cbn; assert (9999 < 2 ^ 53) by reflexivity; lia|]. split; [|split].
    + assert (9999 < 2 ^ 31) by reflexivity. constructor; [|constructor; [|constructor]]; (split; [reflexivity|]); repeat constructor; unfold int32; lia.
    + constructor; [|constructor; [|constructor]]; (constructor; [|constructor; [|constructor]]); apply TG; cbn [In]; auto.
    + intros p [<-|[<-|[]]]; (split; [|apply K; cbn; lia]); (split; [|split]); apply FZ; cbn [In]; auto 10.
Qed.
Example C93_case : let r := ex_run ex_dir in
  ex_count r = 8 /\ ex_links (ex_after r) = [([-1; -1], [0; 1]); ([0; 1], [0; 1]); ([0; 1], [0; 1]); ([0; 1], [0; 1]); ([0; 1], [-2; -2])] /\
  ex_after r (txt "res/ptv_is.12") = Some (txt "2" ++ [nl] ++ txt "0 0 86.000 52.000 0.000" ++ [nl] ++ txt "1 1 186.000 54.000 0.000" ++ [nl]) /\
  ex_count (ex_run (ex_after r)) = 8.
Proof. vm_compute. auto. Qed.

(** a backward run over the files that the forward run left: the files of frame 11 now hold the particles of frame 10 *)
Definition ex_back (fs : files) := backward_run (fun _ => true) (txt "res/rt_is") (txt "res/ptv_is") (txt "res/added") ex_bases (toy_back 2 false) 10 14 ([nofrm; nofrm; nofrm; nofrm], fs).
Example C93_back_case : let fs1 := ex_after (ex_run ex_dir) in let fs2 := ex_after (ex_back fs1) in
  ex_links fs2 = [([-1; -1], [0; 1]); ([-1; -1], [0; 1]); ([0; 1], [0; 1]); ([0; 1], [0; 1]); ([0; 1], [-2; -2])] /\
  map (fun n => match ex_read fs2 n true with Ok f => map p_x (fr_path f) | Exn _ => [] end) [10; 11; 12] =
  [[(fz 80, fz 50, fz 0); (fz 180, fz 52, fz 0)]; [(fz 80, fz 50, fz 0); (fz 180, fz 52, fz 0)]; [(fz 86, fz 52, fz 0); (fz 186, fz 54, fz 0)]].
Proof. vm_compute. auto. Qed.
(** writing the frames of the directory as they were read changes nothing *)
Example C93_case_written : forall n, 10 <= n <= 14 -> exists g, ex_write ex_dir (walk n) n = Ok g /\
  forall t, t <> frame_name (txt "res/ptv_is") n -> t <> frame_name (txt "res/added") n -> g t = ex_dir t.
Proof.
  intros n Hn. assert (X : match ex_write ex_dir (walk n) n with Ok g => contents (txt "res/rt_is") (txt "res/ptv_is") (txt "res/added") ex_bases g n = contents (txt "res/rt_is") (txt "res/ptv_is") (txt "res/added") ex_bases ex_dir n | Exn _ => False end).
  { apply ex_frames in Hn as [->|[->|[->|[->| ->]]]]; vm_compute; reflexivity. }
  destruct (ex_write ex_dir (walk n) n) as [g|] eqn:E; [|contradiction]. exists g. split; auto. intros t _ _.
  destruct (in_dec (list_eq_dec ascii_dec) t (files_of (txt "res/rt_is") (txt "res/ptv_is") (txt "res/added") ex_bases n)) as [I|I].
  - revert I. apply (proj1 (same_files _ _ _ _ g ex_dir n)). exact X.
  - apply (write_spec _ _ _ _ _ _ _ C93_case_layout _ _ _ _ Hn) in E as (_ & _ & E). now apply E.
Qed.

(** a directory in which frame 12 lacks its second particle, whose targets are there: the run adds it, where the targets are, and
    links it on both sides *)
Definition walk_gap (k : Z) : frame := if k =? 12 then
  frm [pt80 86 52 0] [row 0 0] [[tg 86 52 0; tg 186 54 (-1)]; [tg 86 52 0; tg 186 54 (-1)]] else walk k.
Definition gap_dir : files := match foldM (fun fs n => ex_write fs (walk_gap n) n) (zrange 10 15) (fun _ => None) with Ok fs => fs | Exn _ => fun _ => None end.
(** the point where the first camera sees it; float64 values only *)
Definition safe (x : f64) : f64 := if SpecFloat.valid_binary 53 1024 x then x else fzero.
Definition gap_point (l : list (f64 * f64)) : vec := match l with (x, y) :: _ => (safe x, safe y, fzero) | [] => (fzero, fzero, fzero) end.
Lemma gap_point_ok v : vec_floats (gap_point v).
Proof.
  assert (Z0 : float_ok fzero) by (right; right; split; reflexivity).
  assert (X : forall x, float_ok (safe x)).
  { intros x. unfold safe. destruct (SpecFloat.valid_binary 53 1024 x) eqn:E; auto. destruct x as [s|s| |s m e]; [right; right; split; auto|right; left; eauto|left; auto|right; right; split; auto]. }
  destruct v as [|[x y] v]; cbn; auto.
Qed.
Definition gap_step := trackcorr_step isort toy_dist 2 1000 1000 toy_pixel toy_quader toy_moving toy_extrap
  toy_sub toy_norm toy_angle toy_flat gap_point (toy_tp true) toy_vl.
Definition gap_run (fs : files) := forward_run (fun _ => true) (txt "res/rt_is") (txt "res/ptv_is") (txt "res/added") ex_bases gap_step 10 14 ([nofrm; nofrm; nofrm; nofrm], fs).
Definition gap_x (fs : files) (n : Z) := match ex_read fs n true with Ok f => map p_x (fr_path f) | Exn _ => [] end.
Example C93_adding_case : let r := gap_run gap_dir in
  ex_count r = 8 /\ ex_links (ex_after r) = [([-1; -1], [0; 1]); ([0; 1], [0; 1]); ([0; 1], [0; 1]); ([0; 1], [0; 1]); ([0; 1], [-2; -2])] /\
  gap_x gap_dir 12 = [(fz 86, fz 52, fz 0)] /\ gap_x (ex_after r) 12 = [(fz 86, fz 52, fz 0); (fz 186, fz 54, fz 0)].
Proof. vm_compute. auto. Qed.
Example C93_adding_frames : forall n, 10 <= n <= Z.max 14 (10 + 2) ->
  ex_read gap_dir n false = Ok (walk_gap n) /\ frame_ok (walk_gap n) /\ fits (walk_gap n) /\ roomy (walk_gap n).
Proof.
  intros n Hn. assert (K : forall z, Z.abs z <= 9999 -> exact_int z) by (intros z Hz; unfold exact_int; assert (9999 < 2 ^ 53) by reflexivity; lia).
  split; [apply ex_frames in Hn as [->|[->|[->|[->| ->]]]]; vm_compute; reflexivity|]. destruct (Z.eq_dec n 12) as [->|D].
  - change (walk_gap 12) with (frm [pt80 86 52 0] [row 0 0] [[tg 86 52 0; tg 186 54 (-1)]; [tg 86 52 0; tg 186 54 (-1)]]).
    assert (FZ : forall z, In z [86; 52; 186; 54; 0] -> float_ok (fz z)) by (intros z [<-|[<-|[<-|[<-|[<-|[]]]]]]; right; right; split; vm_compute; reflexivity).
    assert (TG : forall x y k, In x [86; 186] -> In y [52; 54] -> In k [0; -1] -> target_ok (tg x y k)).
    { intros x y k Hx Hy Hk. unfold target_ok, tg. cbn [t_pnr t_n t_nx t_ny t_sumg t_tnr t_x t_y]. do 5 (split; [apply K; lia|]). split; [destruct Hk as [<-|[<-|[]]]; apply K; lia|].
      split; apply FZ; [destruct Hx as [<-|[<-|[]]]|destruct Hy as [<-|[<-|[]]]]; cbn [In]; auto 10. }
    split; [split; [reflexivity|]; intros tl t [<-|[<-|[]]] [<-|[<-|[]]]; cbn; lia|]. split; [|split; [cbn; assert (9 < 2 ^ 53) by reflexivity; lia|intros tl [<-|[<-|[]]]; cbn; assert (2 < 2 ^ 31) by reflexivity; lia]].
    split; [cbn; assert (9999 < 2 ^ 53) by reflexivity; lia|]. split; [|split].
    + assert (9999 < 2 ^ 31) by reflexivity. constructor; [|constructor]. split; [reflexivity|]. repeat constructor; unfold int32; lia.
    + constructor; [|constructor; [|constructor]]; (constructor; [|constructor; [|constructor]]); apply TG; cbn [In]; auto.
    + intros p [<-|[]]. split; [|apply K; cbn; lia]. split; [|split]; apply FZ; cbn [In]; auto 10.
  - assert (E : walk_gap n = walk n) by (unfold walk_gap; destruct (Z.eqb_spec n 12); [contradiction|reflexivity]). rewrite E.
    destruct (C93_case_frames n Hn) as (_ & A & B). split; auto. split; auto. split; [cbn; assert (2 < 2 ^ 53) by reflexivity; lia|].
    intros tl [<-|[<-|[]]]; cbn; assert (2 < 2 ^ 31) by reflexivity; lia.
Qed.
