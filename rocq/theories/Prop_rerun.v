(** Property C79: forward tracking depends only on the frames it reads, and can be repeated. *)
From Coq Require Import Permutation.
From Verif Require Import Base Lib F64 Model_corr Model_cand Spec_cand Model_track Spec_track Spec_track2 Spec_trail
  Proof_track_search Proof_track_step Proof_track_just Proof_track_ex Proof_track_found Proof_unread Proof_keep Proof_keep2 Prop_track Prop_track2 Prop_track3
  Model_fb Spec_fb Proof_fb Proof_fb_run Prop_fb Proof_trail Prop_trail Proof_rerun.
Local Open Scope Z_scope.

(** ===== C79 =====
    The links found before (in the linkage files) have no influence on a forward run: two directories whose files give
    the same frames when read without links, for all frames first .. last (at least first .. first+2), give the same exception,
    or the same number of links, the same final buffer and the same files, byte by byte, for all frames first .. last. *)
Theorem C79_links_ignored : forall (F D : Type) (parse : bool -> D -> result F) (store : F -> D) fstep first last b (d d' : disk D),
  (forall n, first <= n <= Z.max last (first + 2) -> parse false (d n) = parse false (d' n)) ->
  match full_forward F D parse store fstep first last (b, d), full_forward F D parse store fstep first last (b, d') with
  | Ok ((buf, w), nl), Ok ((buf', w'), nl') => buf = buf' /\ nl = nl' /\ forall s, first <= s <= last -> w s = w' s
  | Exn e, Exn e' => e = e'
  | _, _ => False
  end.
Proof.
  intros F D parse store fstep first last b d d' H. pose proof (forward_alike F D parse store fstep first last b d d' H) as X.
  destruct (full_forward F D parse store fstep first last (b, d)) as [[[buf w] nl]|e],
    (full_forward F D parse store fstep first last (b, d')) as [[[buf' w'] nl']|e']; cbn [both fst snd] in X; auto.
Qed.
Print Assumptions C79_links_ignored.

(** Tracking is repeatable: after a run without adding particles, a second run over the files that the first one
    wrote finds the same number of links and writes the same files.  The file format must bring back particles and targets
    of a frame whatever its links were (C93 shows this of the code's formats for the numbers that the files can hold). *)
Theorem C79_repeat : forall psort, (forall l, Permutation l (psort l)) ->
  forall pixdist ncam imx imy ptp quader moving extrap sub norm angle flat point tp vl, (1 <= ncam <= 4)%nat -> do_add tp = false ->
  let fstep := trackcorr_step psort pixdist (Z.of_nat ncam) imx imy ptp quader moving extrap sub norm angle flat point tp vl in
  forall (D : Type) (parse : bool -> D -> result frame) (store : frame -> D) first last e0 e1 e2 e3 (d0 : disk D) (R : Z -> frame) buf d1 nl,
  first < last ->
  (forall n, first <= n <= Z.max last (first + 2) -> parse false (d0 n) = Ok (R n) /\ frame_ok (R n)) ->
  (forall n f, first <= n <= last -> fr_num f = fr_num (R n) -> fr_targ f = fr_targ (R n) -> fr_numt f = fr_numt (R n) ->
     fr_corr f = fr_corr (R n) -> map p_x (fr_path f) = map p_x (fr_path (R n)) -> parse false (store f) = Ok (R n)) ->
  (last <= first + 2 -> frame_ok e2 \/ unread e2) ->
  full_forward frame D parse store fstep first last ([e0; e1; e2; e3], d0) = Ok ((buf, d1), nl) ->
  exists d2, full_forward frame D parse store fstep first last ([e0; e1; e2; e3], d1) = Ok ((buf, d2), nl) /\
    forall s, first <= s <= last -> d2 s = d1 s.
Proof.
  intros psort HP pixdist ncam imx imy ptp quader moving extrap sub norm angle flat point tp vl Hn NA fstep D parse store first last e0 e1 e2 e3 d0 R buf d1 nl Hl HR HS He H.
  assert (O : forall n, n < first \/ last < n -> d1 n = d0 n).
  { apply forward_ok in H as (A & B & C & E & N & A0 & HH & HW & HWl & HO & _); auto. intros n Hn'. apply HO. lia. }
  pose proof H as H0.
  apply (run_keeps psort HP pixdist ncam Hn imx imy ptp quader moving extrap sub norm angle flat point tp vl D parse store first last e0 e1 e2 e3 d0 R) in H as (W & W1); auto.
  assert (X : forall n, first <= n <= Z.max last (first + 2) -> parse false (d0 n) = parse false (d1 n)).
  { intros n Hn'. destruct (Z_le_gt_dec n last) as [L|L].
    - destruct (W1 n ltac:(lia)) as (E & S1 & S2 & S3 & S4 & S5). rewrite E. rewrite (HS n (W n)); auto; [apply HR; exact Hn'|lia|].
      clear - S5. induction S5 as [|p q l m (K & _) S5 IH]; cbn; congruence.
    - now rewrite (O n ltac:(lia)). }
  pose proof (C79_links_ignored frame D parse store fstep first last [e0; e1; e2; e3] d0 d1 X) as Y. rewrite H0 in Y.
  destruct (full_forward frame D parse store fstep first last ([e0; e1; e2; e3], d1)) as [[[buf' w'] nl']|e']; [|contradiction].
  destruct Y as (-> & -> & Y). exists w'. split; auto. intros s Hs. symmetry. auto.
Qed.
Print Assumptions C79_repeat.

(** What the frame buffer held before a run does not matter either: runs of one step and runs of three and more steps. *)
Theorem C79_buffer : forall psort pixdist ncam imx imy ptp quader moving extrap sub norm angle flat point tp vl, (1 <= ncam <= 4)%nat ->
  let fstep := trackcorr_step psort pixdist (Z.of_nat ncam) imx imy ptp quader moving extrap sub norm angle flat point tp vl in
  forall (D : Type) (parse : bool -> D -> result frame) (store : frame -> D) first last e0 e1 e2 e3 f0 f1 f2 f3 (d : disk D),
  (forall (d : D) f, parse false d = Ok f -> frame_ok f /\ forall p, In p (fr_path f) -> fresh_particle p) ->
  last = first + 1 \/ first + 3 <= last ->
  match full_forward frame D parse store fstep first last ([e0; e1; e2; e3], d), full_forward frame D parse store fstep first last ([f0; f1; f2; f3], d) with
  | Ok ((_, w), nl), Ok ((_, w'), nl') => w = w' /\ nl = nl'
  | Exn e, Exn e' => e = e'
  | _, _ => False
  end.
Proof.
  intros psort pixdist ncam imx imy ptp quader moving extrap sub norm angle flat point tp vl Hn fstep D parse store first last e0 e1 e2 e3 f0 f1 f2 f3 d HR Hl.
  pose proof (forward_buffer psort pixdist ncam Hn imx imy ptp quader moving extrap sub norm angle flat point tp vl D parse store first last HR e0 e1 e2 e3 f0 f1 f2 f3 d Hl) as X.
  fold fstep in X. destruct (full_forward frame D parse store fstep first last ([e0; e1; e2; e3], d)) as [[[buf w] nl]|e],
    (full_forward frame D parse store fstep first last ([f0; f1; f2; f3], d)) as [[[buf' w'] nl']|e']; cbn [both fst snd] in X; auto.
  destruct X; auto.
Qed.
Print Assumptions C79_buffer.

(** In runs of exactly two steps it does: the last step takes the third frame of the initial buffer for the frame after the last
    one.  Three frames, one particle as in C78_wrong_frame_refuted; the same files, another initial buffer, other links. *)
Definition drop (s : Z) : frame := frm [pt80 (50 + 3 * s) (40 + s) (if s =? 2 then 30 else 0)] [row 0 0] [[tg (50 + 3 * s) (40 + s) 0]; [tg (50 + 3 * s) (40 + s) 0]].
Definition used : frame := frm [pt80 60 43 35] [row 0 0] [[tg 60 43 0]; [tg 60 43 0]].
Definition idle : frame := mk_frame [] [] [[mk_target 0 fzero fzero 0 0 0 0 (-1)]; [mk_target 0 fzero fzero 0 0 0 0 (-1)]] [0; 0] 0.
Definition drop3 (e : frame) := full_forward frame frame (fun _ f => Ok f) (fun f => f) (toy_step 2 false) 0 2 ([nofrm; nofrm; e; nofrm], drop).
Theorem C79_stale_refuted :
  show_run (drop3 idle) [0; 1; 2] = Some ([([-1], [-2]); ([-1], [-2]); ([-1], [-2])], 0) /\
  show_run (drop3 used) [0; 1; 2] = Some ([([-1], [-2]); ([-1], [0]); ([0], [-2])], 1).
Proof. split; vm_compute; reflexivity. Qed.
Print Assumptions C79_stale_refuted.

(** ---- the example: the run of C78_case, repeated on its own output ---- *)
Definition read_anew (links : bool) (f : frame) : result frame :=
  Ok (set_path f (map (fun p => mk_pinfo (p_x p) PREV_NONE NEXT_NONE 4 (repeat fzero 80) (fz 1000000) (repeat (-999) 80) 0) (fr_path f))).
Definition anew5 (d : Z -> frame) := full_forward frame frame read_anew (fun f => f) (toy_step 2 false) 0 4 ([nofrm; nofrm; nofrm; nofrm], d).
Definition after (r : result (list frame * (Z -> frame) * Z)) : Z -> frame := match r with Ok ((_, d), _) => d | Exn _ => fun _ => nofrm end.
Example C79_case :
  (forall n, 0 <= n <= Z.max 4 (0 + 2) -> read_anew false (far n false) = Ok (far n false) /\ frame_ok (far n false) /\
     (forall p, In p (fr_path (far n false)) -> fresh_particle p) /\ searchable 2 (far n false)) /\
  (forall n f, 0 <= n <= 4 -> fr_num f = fr_num (far n false) -> fr_targ f = fr_targ (far n false) -> fr_numt f = fr_numt (far n false) ->
     fr_corr f = fr_corr (far n false) -> map p_x (fr_path f) = map p_x (fr_path (far n false)) -> read_anew false f = Ok (far n false)) /\
  show_run (anew5 (fun n => far n false)) [0; 1; 2; 3; 4] = Some ([([-1; -1], [0; 1]); ([0; 1], [0; 1]); ([0; 1], [0; 1]); ([0; 1], [0; 1]); ([0; 1], [-2; -2])], 8) /\
  show_run (anew5 (after (anew5 (fun n => far n false)))) [0; 1; 2; 3; 4] = Some ([([-1; -1], [0; 1]); ([0; 1], [0; 1]); ([0; 1], [0; 1]); ([0; 1], [0; 1]); ([0; 1], [-2; -2])], 8).
Proof.
  split; [|split; [|split; vm_compute; reflexivity]].
  - intros n Hn. split; [reflexivity|]. split; [apply far_ok|]. split; [|apply far_searchable'; lia]. intros p [<-|[<-|[]]]; split; reflexivity.
  - intros n f Hn E1 E2 E3 E4 E5. destruct f as [p c t nt m]. cbn [fr_num fr_targ fr_numt fr_corr fr_path] in *. unfold read_anew, set_path. cbn [fr_num fr_targ fr_numt fr_corr fr_path].
    subst. f_equal. unfold far, frm. f_equal.
    destruct p as [|p [|q [|r l]]]; try discriminate E5. cbn [map] in E5 |- *. cbn [far frm fr_path map p_x part] in E5.
    apply (f_equal (fun l => match l with a :: b :: _ => (a, b) | _ => (p_x p, p_x p) end)) in E5.
    assert (p_x p = (fz (50 + 3 * n), fz (40 + n), fz 0)) as -> by exact (f_equal fst E5).
    assert (p_x q = (fz (150 + 3 * n), fz (42 + n), fz 0)) as -> by exact (f_equal snd E5). reflexivity.
Qed.
