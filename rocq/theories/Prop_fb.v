(** Properties C23, C24, C27 and whole runs for C13. *)
From Coq Require Import Permutation.
From Verif Require Import Base F64 Model_corr Model_cand Spec_cand Lib Model_track Spec_track Proof_track_step Proof_track_back
  Proof_track_ex Model_fb Spec_fb Proof_fb Proof_unread Proof_fb_run Prop_track.
Local Open Scope Z_scope.

(** ===== C27: the frame buffer ===== *)
Theorem C27_rotations_inverse : forall (A : Type) (b : list A), fb_prev (fb_next b) = b /\ fb_next (fb_prev b) = b.
Proof. intros A b. split; [apply next_prev|apply prev_next]. Qed.
Print Assumptions C27_rotations_inverse.
(** after next, slot i holds what slot i+1 (modulo the length) held *)
Theorem C27_next_shifts : forall (A : Type) (b : list A) i x, nth_error (fb_next b) i = Some x <->
  (exists n, n = length b /\ (i < n)%nat /\ nth_error b ((i + 1) mod n) = Some x).
Proof. exact @next_nth. Qed.
Print Assumptions C27_next_shifts.
(** every sequence of pushes and pops on a new buffer (any length, zero included)
    answers like a first-in first-out queue with room for buf_len items *)
Theorem C27_bounded_fifo : forall (A : Type) (b : list A) ops,
  exists r, ring_run (mk_ring b 0 0) ops = Ok (r, snd (queue_run (length b) [] ops)) /\
    ring_items r (fst (queue_run (length b) [] ops)) /\ length (r_buf r) = length b.
Proof. intros A b ops. apply (ring_run_ok ops (mk_ring b 0 0) []). apply empty_ok. Qed.
Print Assumptions C27_bounded_fifo.
Example C27_bounded_fifo_ex : queue_run 2 [] [Push 1; Push 2; Pop; Push 3; Push 4; Pop; Pop; Pop]
  = ([], [None; None; Some 1; None; None; Some 2; Some 3; None]).
Proof. reflexivity. Qed.
(** the property asks for the most recent items; a full buffer keeps the oldest ones and drops the new one *)
Theorem C27_keeps_recent_refuted : forall (A : Type) (b : list A) x, (0 < length b)%nat ->
  exists r, push (mk_ring b (Z.of_nat (length b)) 0) x = Ok (r, false) /\ r_buf r = b.
Proof.
  intros A b x H. unfold push, r_len. cbn [r_buf r_size]. rewrite Z.ltb_irrefl. eauto.
Qed.
Print Assumptions C27_keeps_recent_refuted.
(** and rotating a buffer that is also used as a queue loses the order *)
Theorem C27_rotation_breaks_fifo_refuted : exists (b : list Z),
  (do r <- push (mk_ring b 0 0) 7; do r <- push (fst r) 8; pop (rotate_next (fst r))) =
  Ok (mk_ring [8; 0; 0; 7] 1 1, Some 8).
Proof. exists [0; 0; 0; 0]. reflexivity. Qed.
Print Assumptions C27_rotation_breaks_fifo_refuted.

(** ===== C23: forward schedule ===== *)
Theorem C23_forward_frames : forall (F D : Type) (parse : bool -> D -> result F) (store : F -> D) fstep bstep
    first last e0 e1 e2 e3 (d0 : disk D) buf d1 nl, first < last ->
  full_forward F D parse store fstep first last ([e0; e1; e2; e3], d0) = Ok ((buf, d1), nl) ->
  exists A B C E N,
    (* step s works on A s, B s, C s, E s *)
    (forall s, first <= s < last -> fstep (A s) (B s) (C s) (E s) = Ok (A (s + 1), B (s + 1), C (s + 1), N s)) /\
    (* which are frames s-1, s, s+1 and s+2, except for slot 0 in the first step and slot 3 in the last *)
    (forall s, first <= s < last ->
       (first < s -> version F D parse fstep bstep false d0 (s - 1) (A s)) /\
       version F D parse fstep bstep false d0 s (B s) /\
       version F D parse fstep bstep false d0 (s + 1) (C s) /\
       (s = first \/ s + 2 <= last -> version F D parse fstep bstep false d0 (s + 2) (E s))) /\
    (* every frame is written under its own number as the step left it, other files are untouched *)
    (forall s, first <= s < last -> d1 s = store (A (s + 1))) /\ d1 last = store (B last) /\
    version F D parse fstep bstep false d0 last (B last) /\
    (forall s, ~ first <= s <= last -> d1 s = d0 s) /\
    (* the number of links is the sum over all steps *)
    nl = total N (zrange first last).
Proof.
  intros F D parse store fstep bstep first last e0 e1 e2 e3 d0 buf d1 nl Hl H.
  apply forward_ok in H as (A & B & C & E & N & _ & HH & W1 & W2 & W3 & W4); auto.
  pose proof (forward_slots F D parse fstep bstep first last d0 A B C E N HH Hl) as SL.
  exists A, B, C, E, N. split; [intros s Hs; now apply HH|]. split.
  - intros s Hs. destruct (SL s ltac:(lia)) as (S1 & S2 & S3 & S4 & _). split; auto. split; auto. split; [apply S3; lia|]. intros Hx. apply S4; auto. lia.
  - split; auto. split; auto. split; [apply (SL last); lia|]. auto.
Qed.
Print Assumptions C23_forward_frames.
(** the full statement is false: in step last-1 slot 3 still holds frame last-3 (any length of at least four frames) *)
Definition tagged (n : Z) : result Z := Ok n.
Theorem C23_last_step_refuted : forall first last, first + 3 <= last ->
  forall e0 e1 e2 e3 fstep buf d1 nl,
  (forall a b c d b' c' d' n, fstep a b c d = Ok (b', c', d', n) -> b' = b /\ c' = c /\ d' = d) ->
  full_forward Z Z (fun _ => tagged) (fun f => f) fstep first last ([e0; e1; e2; e3], (fun n => n)) = Ok ((buf, d1), nl) ->
  exists r, fstep (last - 2) (last - 1) last (last - 3) = Ok r.
Proof.
  intros first last Hl e0 e1 e2 e3 fstep buf d1 nl HF H. apply forward_ok in H as (A & B & C & E & N & _ & HH & _); [|lia].
  pose proof (forward_slots Z Z (fun _ => tagged) fstep (fun _ _ _ _ => Exn TypeError) first last (fun n => n) A B C E N HH ltac:(lia) (last - 1) ltac:(lia)) as (S1 & S2 & S3 & _ & S5).
  assert (V : forall s f, version Z Z (fun _ => tagged) fstep (fun _ _ _ _ => Exn TypeError) false (fun n => n) s f -> f = s).
  { intros s f Hv. induction Hv as [f Hf|a b c d b' c' d' n Hv IH Hs|a b c d b' c' d' n Hv IH Hs|a b c d b' c' d' n Hv IH Hs|a b c d b' c' n Hv IH Hs|a b c d b' c' n Hv IH Hs];
      [injection Hf as <-; auto|..]; try discriminate; apply HF in Hs as (-> & -> & ->); auto. }
  destruct HH as (_ & _ & _ & HS). destruct (HS (last - 1) ltac:(lia)) as (X & _).
  specialize (S2 ltac:(lia)). specialize (S3 ltac:(lia)). specialize (S5 ltac:(lia) eq_refl).
  apply V in S1, S2, S3, S5. rewrite S1, S2, S3, S5 in X.
  replace (last - 1 + 1) with last in * by lia. replace (last - 1 - 1) with (last - 2) in X by lia. eauto.
Qed.
Print Assumptions C23_last_step_refuted.
(** a run that counts the steps whose slots are not s-1, s, s+1, s+2 *)
Definition count_wrong (a b c d : Z) : result (Z * Z * Z * Z) :=
  Ok (b, c, d, if (c =? b + 1) && (d =? b + 2) then 0 else 1).
Example C23_run_ex : exists buf d1, full_forward Z Z (fun _ => tagged) (fun f => f) count_wrong 10 20 ([9; 9; 9; 9], (fun n => n)) = Ok ((buf, d1), 1)
  /\ map d1 [10; 11; 15; 20] = [10; 11; 15; 20].
Proof. eexists. eexists. split; [vm_compute; reflexivity|reflexivity]. Qed.
(** a sequence of one frame always ends with an error *)
Theorem C23_single_frame_refuted : forall (F D : Type) (parse : bool -> D -> result F) (store : F -> D) fstep n e0 e1 e2 e3 (d0 : disk D) r,
  full_forward F D parse store fstep n n ([e0; e1; e2; e3], d0) <> Ok r.
Proof.
  intros F D parse store fstep n e0 e1 e2 e3 d0 r H. unfold full_forward in H. apply bind_ok in H as (st & _ & H).
  rewrite zrange_empty in H by lia. cbn [foldM bind fst] in H. unfold trackcorr_c_finish in H. rewrite Z.sub_diag in H. discriminate H.
Qed.
Print Assumptions C23_single_frame_refuted.
(** and the frame after the next is read even if it is beyond the end of the sequence *)
Theorem C23_reads_beyond_refuted : forall (F D : Type) (parse : bool -> D -> result F) (store : F -> D) fstep n e e0 e1 e2 e3 (d0 : disk D) r,
  parse false (d0 (n + 2)) = Exn e ->
  full_forward F D parse store fstep n (n + 1) ([e0; e1; e2; e3], d0) <> Ok r.
Proof.
  intros F D parse store fstep n e e0 e1 e2 e3 d0 [[buf d1] nl] He H. apply forward_ok in H as (A & B & C & E & N & _ & (_ & _ & P3 & _) & _); [|lia].
  congruence.
Qed.
Print Assumptions C23_reads_beyond_refuted.

(** ===== C24: backward schedule ===== *)
Theorem C24_backward_frames : forall (F D : Type) (parse : bool -> D -> result F) (store : F -> D) fstep bstep
    first last e0 e1 e2 e3 (d0 : disk D) buf d1 nl, first + 2 <= last ->
  trackback_c F D parse store bstep first last ([e0; e1; e2; e3], d0) = Ok ((buf, d1), nl) ->
  exists A B C E N,
    (forall s, first < s < last -> bstep (A s) (B s) (C s) (E s) = Ok (A (s - 1), B (s - 1), N s)) /\
    (* A s, B s, C s, E s are frames s+1, s, s-1, s-2, except for slot 3 in the last step *)
    (forall s, first < s < last ->
       version F D parse fstep bstep true d0 (s + 1) (A s) /\
       version F D parse fstep bstep true d0 s (B s) /\
       version F D parse fstep bstep true d0 (s - 1) (C s) /\
       (first <= s - 2 \/ s = last - 1 -> version F D parse fstep bstep true d0 (s - 2) (E s))) /\
    (* files first+2 .. last-1 get their own frames as the step left them *)
    (forall s, first + 1 < s < last -> d1 s = store (A (s - 1))) /\
    (forall s, ~ first < s < last -> d1 s = d0 s) /\ nl = total N (zdown (last - 1) first).
Proof.
  intros F D parse store fstep bstep first last e0 e1 e2 e3 d0 buf d1 nl Hl H.
  apply backward_ok in H as (A & B & C & E & N & HH & W1 & W2 & W3 & W4); auto.
  pose proof (backward_slots F D parse fstep bstep first last d0 A B C E N HH Hl) as SL.
  exists A, B, C, E, N. split; [intros s Hs; apply HH; lia|]. split; [|auto].
  intros s Hs. destruct (SL s ltac:(lia)) as (S1 & S2 & S3 & S4 & _). split; auto. split; auto. split; auto. apply S3. lia.
Qed.
Print Assumptions C24_backward_frames.
(** what is missing is false: the file of frame first+1 gets the contents of frame
    first, and the file of frame first is not written at all *)
Theorem C24_own_number_refuted : forall (F D : Type) (parse : bool -> D -> result F) (store : F -> D) fstep bstep
    first last e0 e1 e2 e3 (d0 : disk D) buf d1 nl, first + 2 <= last ->
  trackback_c F D parse store bstep first last ([e0; e1; e2; e3], d0) = Ok ((buf, d1), nl) ->
  exists f, version F D parse fstep bstep true d0 first f /\ d1 (first + 1) = store f /\ d1 first = d0 first.
Proof.
  intros F D parse store fstep bstep first last e0 e1 e2 e3 d0 buf d1 nl Hl H.
  apply backward_ok in H as (A & B & C & E & N & HH & W1 & W2 & W3 & W4); auto.
  exists (B first). split; [apply (backward_slots F D parse fstep bstep first last d0 A B C E N HH Hl first); lia|].
  split; auto. apply W3. lia.
Qed.
Print Assumptions C24_own_number_refuted.
Theorem C24_last_step_refuted : forall (F D : Type) (parse : bool -> D -> result F) (store : F -> D) fstep bstep
    first last e0 e1 e2 e3 (d0 : disk D) buf d1 nl, first + 3 <= last ->
  trackback_c F D parse store bstep first last ([e0; e1; e2; e3], d0) = Ok ((buf, d1), nl) ->
  exists a b c e r, bstep a b c e = Ok r /\ version F D parse fstep bstep true d0 (first + 1) b /\
    version F D parse fstep bstep true d0 (first + 3) e.
Proof.
  intros F D parse store fstep bstep first last e0 e1 e2 e3 d0 buf d1 nl Hl H.
  apply backward_ok in H as (A & B & C & E & N & HH & _); [|lia].
  pose proof (backward_slots F D parse fstep bstep first last d0 A B C E N HH ltac:(lia) (first + 1) ltac:(lia)) as (_ & S2 & _ & _ & S5).
  destruct HH as (_ & _ & _ & _ & HS). destruct (HS (first + 1) ltac:(lia)) as (X & _).
  exists (A (first + 1)), (B (first + 1)), (C (first + 1)), (E (first + 1)). eexists. split; [exact X|]. split; [exact S2|]. apply S5; lia.
Qed.
Print Assumptions C24_last_step_refuted.
(** a sequence of two frames always ends with an error *)
Theorem C24_two_frames_refuted : forall (F D : Type) (parse : bool -> D -> result F) (store : F -> D) bstep n e0 e1 e2 e3 (d0 : disk D) r,
  trackback_c F D parse store bstep n (n + 1) ([e0; e1; e2; e3], d0) <> Ok r.
Proof.
  intros F D parse store bstep n e0 e1 e2 e3 d0 r H. unfold trackback_c in H. apply bind_ok in H as (st & _ & H).
  apply bind_ok in H as (st' & _ & H). replace (n + 1 - n - 1) with 0 in H by lia. discriminate H.
Qed.
Print Assumptions C24_two_frames_refuted.
Definition back_wrong (a b c d : Z) : result (Z * Z * Z) :=
  Ok (b, c, if (a =? b + 1) && (c =? b - 1) && (d =? b - 2) then 0 else 1).
Example C24_run_ex : exists buf d1, trackback_c Z Z (fun _ => tagged) (fun f => f) back_wrong 10 20 ([9; 9; 9; 9], (fun n => n)) = Ok ((buf, d1), 1)
  /\ map d1 [10; 11; 12; 15; 20] = [10; 10; 12; 15; 20].
Proof. eexists. eexists. split; [vm_compute; reflexivity|reflexivity]. Qed.

(** ===== C13 over whole runs ===== *)
Section Runs.
Variable psort : list (f64 * Z) -> list (f64 * Z).
Variable pixdist : f64 -> f64 -> f64 -> f64 -> f64.
Variables imx imy : Z.
Variable point_to_pixel : Z -> vec -> f64 * f64.
Variable searchquader : Z -> vec -> f64 * f64 * f64 * f64.
Variable moving : vec -> vec -> vec.
Variable extrap : vec -> vec -> vec -> vec.
Variable vec_subt : vec -> vec -> vec.
Variable vec_diff_norm : vec -> vec -> f64.
Variable angle_acc : vec -> vec -> vec -> f64 * f64.
Variable to_flat : Z -> f64 -> f64 -> f64 * f64.
Variable point_position : list (f64 * f64) -> vec.
Variable tp : tpar.
Variable vl : vol.
Variable D : Type.
Variable parse : bool -> D -> result frame.
Variable store : frame -> D.

(** a forward run over any sequence writes frames whose links are mutual between
    all neighbouring frames; the particles that were read keep their numbers and
    positions, new ones come after them *)
Theorem C13_forward_run : (forall l, Permutation l (psort l)) ->
  forall ncam first last e0 e1 e2 e3 (d0 : disk D) buf d1 nl, (1 <= ncam <= 4)%nat -> first < last ->
  (forall n f, parse false (d0 n) = Ok f -> frame_ok f /\ forall p, In p (fr_path f) -> fresh_particle p) ->
  (last <= first + 2 -> frame_ok e2 \/ unread e2) ->
  full_forward frame D parse store
    (trackcorr_step psort pixdist (Z.of_nat ncam) imx imy point_to_pixel searchquader moving extrap vec_subt vec_diff_norm
       angle_acc to_flat point_position tp vl) first last ([e0; e1; e2; e3], d0) = Ok ((buf, d1), nl) ->
  exists W : Z -> frame,
    (forall s, first <= s <= last -> d1 s = store (W s)) /\
    (forall s, ~ first <= s <= last -> d1 s = d0 s) /\
    (forall s, first <= s < last -> mutual (fr_path (W s)) (fr_path (W (s + 1)))) /\
    (forall p, In p (fr_path (W first)) -> p_prev p = PREV_NONE) /\
    (forall p, In p (fr_path (W last)) -> p_next p = NEXT_NONE) /\
    (forall s f, first <= s <= last -> parse false (d0 s) = Ok f ->
       exists l, map p_x (fr_path (W s)) = map p_x (fr_path f) ++ l).
Proof.
  intros HP ncam first last e0 e1 e2 e3 d0 buf d1 nl Hn Hl. apply forward_run_links; auto.
  - intros buf0 b1 b2 b3 c1 c2 c3 cnt. now apply trackcorr_step_links.
  - intros buf0 b1 b2 b3 c1 c2 c3 cnt U H. pose proof (strip_ok _ U). apply step_unread in H as (_ & H); eauto.
Qed.

(** a backward run over frames with mutual links keeps them mutual (in memory: W first
    is what the code then writes under the wrong number, see C24), keeps every
    existing link and position, and adds no particle *)
Theorem C13_backward_run : (forall l, Permutation l (psort l)) ->
  forall ncam first last e0 e1 e2 e3 (d0 : disk D) R buf d1 nl, (1 <= ncam <= 4)%nat -> first + 2 <= last ->
  (forall n, Z.min first (last - 3) <= n <= last -> parse true (d0 n) = Ok (R n) /\ frame_ok (R n) /\ forall p, In p (fr_path (R n)) -> p_inlist p = 0) ->
  (forall n, Z.min first (last - 3) <= n < last -> mutual (fr_path (R n)) (fr_path (R (n + 1)))) ->
  trackback_c frame D parse store
    (trackback_step psort pixdist (Z.of_nat ncam) imx imy point_to_pixel searchquader moving extrap vec_subt vec_diff_norm
       angle_acc to_flat point_position tp vl) first last ([e0; e1; e2; e3], d0) = Ok ((buf, d1), nl) ->
  exists W : Z -> frame,
    (forall s, first <= s < last -> mutual (fr_path (W s)) (fr_path (W (s + 1)))) /\
    (forall s, first + 1 < s < last -> d1 s = store (W s)) /\ d1 (first + 1) = store (W first) /\
    (forall s, first <= s <= last -> length (fr_path (W s)) = length (fr_path (R s)) /\
      forall h p, nth_error (fr_path (R s)) h = Some p -> exists q, nth_error (fr_path (W s)) h = Some q /\ p_x q = p_x p /\
        (p_next p <> NEXT_NONE -> p_next q = p_next p) /\ (p_prev p <> PREV_NONE -> p_prev q = p_prev p)).
Proof.
  intros HP ncam first last e0 e1 e2 e3 d0 R buf d1 nl Hn Hl HR HM H.
  apply backward_ok in H as (A & B & C & E & N & HH & W1 & W2 & W3 & W4); auto.
  eapply backward_run_links in HH as (X1 & X2 & X3); eauto.
  - exists (fun s => if s =? first then B first else A (s - 1)). split; [exact X1|]. split; [|split; [|exact X3]].
    + intros s Hs. destruct (Z.eqb_spec s first); [lia|]. now apply W1.
    + now rewrite Z.eqb_refl.
  - intros buf0 b1 b2 b3 c1 c2 cnt. now apply trackback_step_links.
Qed.
End Runs.
Print Assumptions C13_forward_run.
Print Assumptions C13_backward_run.

(** a run over five frames of two moving particles *)
Definition reset_frame (links : bool) (f : frame) : result frame :=
  Ok (set_path f (map (fun p => mk_pinfo (p_x p) (if links then p_prev p else PREV_NONE) (if links then p_next p else NEXT_NONE) (p_prio p)
                                  (repeat fzero 80) (fz 1000000) (repeat (-999) 80) 0) (fr_path f))).
Definition show_run (r : result (list frame * (Z -> frame) * Z)) (ns : list Z) :=
  match r with Ok ((_, d), n) => Some (map (fun k => (map p_prev (fr_path (d k)), map p_next (fr_path (d k)))) ns, n) | Exn _ => None end.
Definition fwd5 := full_forward frame frame reset_frame (fun f => f) (toy_step 2 false) 10 14 ([nofrm; nofrm; nofrm; nofrm], two).
Example C13_forward_run_ex : show_run fwd5 [10; 11; 12; 13; 14] =
  Some ([([-1; -1], [0; 1]); ([0; 1], [0; 1]); ([0; 1], [0; 1]); ([0; 1], [0; 1]); ([0; 1], [-2; -2])], 8).
Proof. vm_compute. reflexivity. Qed.
Example C13_forward_run_hyp : forall n f, reset_frame false (two n) = Ok f -> frame_ok f /\ forall p, In p (fr_path f) -> fresh_particle p.
Proof.
  intros n f H. injection H as <-. split.
  - split; [reflexivity|]. intros tl t Htl Ht. cbn in Htl. destruct Htl as [<-|[<-|[]]]; destruct Ht as [<-|[<-|[]]]; cbn; lia.
  - intros p Hp. destruct Hp as [<-|[<-|[]]]; split; reflexivity.
Qed.
Definition lnk (k : Z) : frame :=
  set_path (two k) (map (fun hp => set_prev (set_next (snd hp) (if k =? 12 then -2 else fst hp)) (if (k =? 10) || (k =? 13) then -1 else fst hp))
    (combine [0; 1] (fr_path (two k)))).
(** frames 10..14 with the links between 12 and 13 missing: the backward run closes the gap *)
Example C13_backward_run_ex :
  show_run (trackback_c frame frame reset_frame (fun f => f) (toy_back 2 false) 10 14 ([nofrm; nofrm; nofrm; nofrm], lnk)) [12; 13] =
  Some ([([0; 1], [0; 1]); ([0; 1], [0; 1])], 6).
Proof. vm_compute. reflexivity. Qed.
Example C13_backward_run_hyp : forall n, 10 <= n < 14 -> mutual (fr_path (lnk n)) (fr_path (lnk (n + 1))).
Proof.
  intros n Hn. assert (C : n = 10 \/ n = 11 \/ n = 12 \/ n = 13) by lia.
  destruct C as [->|[->|[->| ->]]]; intros [|[|h]] [|[|k]]; unfold next_of, prev_of; cbn;
    (split; intros H; try lia; try discriminate H; try (destruct h; cbn in H; discriminate H); try (destruct k; cbn in H; discriminate H)).
  all: try (destruct h; cbn in H; try discriminate H); try (destruct k; cbn in H; try discriminate H).
Qed.
