(** Tracking runs on the files of a directory: the frame buffer of Model_fb reads and writes frames as Model_io says. *)
From Verif Require Import F64 Model_text Model_corr Model_track Model_fb Model_io Base.
Local Open Scope Z_scope.

(** The runs of Model_fb for any way of keeping the frames: [W] is the state of the outside world, a frame is read from it
    with or without links, and written to it. *)
Section World.
Variables F W : Type.
Variable rd : W -> Z -> bool -> result F.
Variable wr : W -> F -> Z -> result W.
Variable fstep : F -> F -> F -> F -> result (F * F * F * Z).
Variable bstep : F -> F -> F -> F -> result (F * F * Z).
Definition wstate := (list F * W)%type.
(** tracking_frame_buf.py:618-640 *)
Definition w_read (st : wstate) (n : Z) (links : bool) : result wstate :=
  let '(buf, w) := st in do f <- rd w n links; do buf <- pyset buf (-1) f; Ok (buf, w).
(** tracking_frame_buf.py:671-690 *)
Definition w_write (st : wstate) (n : Z) : result wstate :=
  let '(buf, w) := st in do f <- pyget buf 0; do w' <- wr w f n; Ok (buf, w').
Definition w_next (st : wstate) : wstate := (fb_next (fst st), snd st).
Definition w_prev (st : wstate) : wstate := (fb_prev (fst st), snd st).
(** track.py:763-778 *)
Definition w_start (first : Z) (st : wstate) : result wstate :=
  do st <- foldM (fun st step => do st <- w_read st step false; Ok (w_next st)) (zrange first (first + 4 - 1)) st; Ok (w_prev st).
(** track.py:781-1096 *)
Definition w_loop (last : Z) (st : wstate * Z) (step : Z) : result (wstate * Z) :=
  let '((buf, w), nlinks) := st in
  do a <- pyget buf 0; do b <- pyget buf 1; do c <- pyget buf 2; do d <- pyget buf 3;
  do r <- fstep a b c d;
  let '(b', c', d', count1) := r in
  do buf <- pyset buf 1 b'; do buf <- pyset buf 2 c'; do buf <- pyset buf 3 d';
  do st <- w_write (w_next (buf, w)) step;
  do st <- (if step <? last - 2 then w_read st (step + 3) false else Ok st);
  Ok (st, nlinks + count1).
(** track.py:1099-1108 *)
Definition w_finish (first last : Z) (st : wstate) (step : Z) : result wstate :=
  if last - first =? 0 then Exn ZeroDivisionError else w_write (w_next st) step.
(** tests/test_tracking_run.py:132-142 *)
Definition w_forward (first last : Z) (st : wstate) : result (wstate * Z) :=
  do st <- w_start first st;
  do stn <- foldM (w_loop last) (zrange first last) (st, 0);
  do st <- w_finish first last (fst stn) last;
  Ok (st, snd stn).
(** track.py:1135-1318 *)
Definition w_back_loop (first : Z) (st : wstate * Z) (step : Z) : result (wstate * Z) :=
  let '((buf, w), nlinks) := st in
  do a <- pyget buf 0; do b <- pyget buf 1; do c <- pyget buf 2; do d <- pyget buf 3;
  do r <- bstep a b c d;
  let '(b', c', count1) := r in
  do buf <- pyset buf 1 b'; do buf <- pyset buf 2 c';
  do st <- w_write (w_next (buf, w)) step;
  do st <- (if step >? first + 2 then w_read st (step - 3) true else Ok st);
  Ok (st, nlinks + count1).
(** track.py:1111-1330 *)
Definition w_backward (first last : Z) (st : wstate) : result (wstate * Z) :=
  do st <- foldM (fun st step => do st <- w_read st step true; Ok (w_next st)) (zdown last (last - 4)) st;
  let st := w_prev st in
  do stn <- foldM (w_back_loop first) (zdown (last - 1) first) (st, 0);
  let step := List.last (zdown (last - 1) first) (last - 3) in
  if last - first - 1 =? 0 then Exn ZeroDivisionError else
  do st <- w_write (w_next (fst stn)) step;
  Ok (st, snd stn).
End World.

(** The world of the program: files.  Pathinfo and Frame are the same objects for the tracking and for the files; a position
    that was read with other than three numbers is refused here (the code fails later, when it computes with it), as is a frame
    with rows of its correspondence array that were never written (their contents are arbitrary). *)
Definition as_pinfo (p : path_rec) : result pinfo :=
  match pr_x p with
  | [x; y; z] => Ok (mk_pinfo (x, y, z) (pr_prev p) (pr_next p) (pr_prio p) (pr_decis p) (pr_final p) (pr_link p) (pr_inlist p))
  | _ => Exn ValueError
  end.
Definition of_pinfo (p : pinfo) : path_rec :=
  let '(x, y, z) := p_x p in mk_path [x; y; z] (p_prev p) (p_next p) (p_prio p) (p_decis p) (p_final p) (p_link p) (p_inlist p).
Fixpoint as_pinfos (l : list path_rec) : result (list pinfo) :=
  match l with [] => Ok [] | p :: r => do q <- as_pinfo p; do qs <- as_pinfos r; Ok (q :: qs) end.
Fixpoint as_corrs (l : list (option corres)) : result (list corres) :=
  match l with [] => Ok [] | Some c :: r => do cs <- as_corrs r; Ok (c :: cs) | None :: _ => Exn ValueError end.
Definition as_frame (g : io_frame) : result frame :=
  do path <- as_pinfos (if_path g); do cor <- as_corrs (if_corr g); Ok (mk_frame path cor (if_targ g) (if_numt g) (if_num g)).

Section Files.
Variable can_write : text -> bool.
(** base names of the correspondence, linkage, priority files, and of the target files of each camera *)
Variables cb lb pb : text.
Variable bases : list text.
(** tracking_frame_buf.py:618-640: Frame.read with or without the linkage and priority files; IOError if it returns False *)
Definition file_read (fs : files) (n : Z) (links : bool) : result frame :=
  do (g, ok) <- (if links then frame_read fs cb lb (Some pb) bases n else frame_read fs cb [] (Some []) bases n);
  if ok then as_frame g else Exn IOError.
(** tracking_frame_buf.py:671-690: Frame.write (373-401); track.py:1092, 1108, 1304 and 1328 do not look at the returned flag.
    A frame that does not have one list of targets per camera is refused before anything is written (the code fails at the first
    missing list, after writing the files before it). *)
Definition file_write (fs : files) (f : frame) (n : Z) : result files :=
  if negb (Nat.eqb (length (fr_targ f)) (length bases) && Nat.eqb (length (fr_numt f)) (length bases)) then Exn IndexError else
  let '(fs', r) := frame_write can_write fs (fr_corr f) (map of_pinfo (fr_path f)) (fr_num f)
                     (combine (combine (fr_targ f) (fr_numt f)) bases) cb lb (Some pb) n in
  do _ <- r; Ok fs'.
Variable fstep : frame -> frame -> frame -> frame -> result (frame * frame * frame * Z).
Variable bstep : frame -> frame -> frame -> frame -> result (frame * frame * Z).
Definition forward_run := w_forward frame files file_read file_write fstep.
Definition backward_run := w_backward frame files file_read file_write bstep.
End Files.
