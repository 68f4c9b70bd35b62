(** Model of the frame buffer (tracking_frame_buf.py:495-690) and of the
    order in which tracking reads, rotates and writes frames (track.py). *)
From Verif Require Import Base.
Local Open Scope Z_scope.

Section Rotate.
Context {A : Type}.
(** tracking_frame_buf.py:532-548: deque.rotate(-1) *)
Definition fb_next (b : list A) : list A := match b with [] => [] | x :: t => t ++ [x] end.
(** tracking_frame_buf.py:550-562: deque.rotate(1) *)
Definition fb_prev (b : list A) : list A := match rev b with [] => [] | x :: t => x :: rev t end.
End Rotate.

Section Ring.
Context {A : Type}.
(** tracking_frame_buf.py:495-510: buf, size, head; buf_len is the length of buf *)
Record ring := mk_ring { r_buf : list A; r_size : Z; r_head : Z }.
Definition r_len (r : ring) : Z := Z.of_nat (length (r_buf r)).
(** tracking_frame_buf.py:512-519; the second component tells whether the item was accepted *)
Definition push (r : ring) (x : A) : result (ring * bool) :=
  if r_size r <? r_len r then
    do b <- pyset (r_buf r) ((r_head r + r_size r) mod r_len r) x;
    Ok (mk_ring b (r_size r + 1) (r_head r), true)
  else Ok (r, false).
(** tracking_frame_buf.py:521-530 *)
Definition pop (r : ring) : result (ring * option A) :=
  if r_size r >? 0 then
    do x <- pyget (r_buf r) (r_head r);
    Ok (mk_ring (r_buf r) (r_size r - 1) ((r_head r + 1) mod r_len r), Some x)
  else Ok (r, None).
(** tracking_frame_buf.py:532-562 on the whole object: only buf is rotated *)
Definition rotate_next (r : ring) : ring := mk_ring (fb_next (r_buf r)) (r_size r) (r_head r).
Definition rotate_prev (r : ring) : ring := mk_ring (fb_prev (r_buf r)) (r_size r) (r_head r).
End Ring.
Arguments ring : clear implicits.

Section Run.
(** frames in memory, and what the files of one frame number hold *)
Variables F D : Type.
(** Frame.read (337-371) with or without the linkage files, and Frame.write (373-401): any functions *)
Variable parse : bool -> D -> result F.
Variable store : F -> D.
Definition disk := Z -> D.
Definition put (d : disk) (n : Z) (v : D) : disk := fun k => if k =? n then v else d k.

(** buffer and disk *)
Definition rstate := (list F * disk)%type.

(** tracking_frame_buf.py:618-640 *)
Definition read_frame_at_end (st : rstate) (n : Z) (links : bool) : result rstate :=
  let '(buf, dsk) := st in
  do f <- parse links (dsk n);
  do buf <- pyset buf (-1) f;
  Ok (buf, dsk).
(** tracking_frame_buf.py:671-690 *)
Definition write_frame_from_start (st : rstate) (n : Z) : result rstate :=
  let '(buf, dsk) := st in
  do f <- pyget buf 0; Ok (buf, put dsk n (store f)).
Definition next (st : rstate) : rstate := (fb_next (fst st), snd st).
Definition prev (st : rstate) : rstate := (fb_prev (fst st), snd st).

(** track.py:763-778 *)
Definition track_forward_start (first : Z) (st : rstate) : result rstate :=
  do st <- foldM (fun st step => do st <- read_frame_at_end st step false; Ok (next st))
                 (zrange first (first + 4 - 1)) st;
  Ok (prev st).

(** one forward step on the frames of the buffer: new buf[1], buf[2], buf[3] and the number of links *)
Variable fstep : F -> F -> F -> F -> result (F * F * F * Z).
(** track.py:781-1096; state with run_info.nlinks *)
Definition trackcorr_c_loop (last : Z) (st : rstate * Z) (step : Z) : result (rstate * Z) :=
  let '((buf, dsk), nlinks) := st in
  do a <- pyget buf 0; do b <- pyget buf 1; do c <- pyget buf 2; do d <- pyget buf 3;
  do r <- fstep a b c d;
  let '(b', c', d', count1) := r in
  do buf <- pyset buf 1 b'; do buf <- pyset buf 2 c'; do buf <- pyset buf 3 d';
  let st := next (buf, dsk) in
  do st <- write_frame_from_start st step;
  do st <- (if step <? last - 2 then read_frame_at_end st (step + 3) false else Ok st);
  Ok (st, nlinks + count1).
(** track.py:1099-1108 *)
Definition trackcorr_c_finish (first last : Z) (st : rstate) (step : Z) : result rstate :=
  if last - first =? 0 then Exn ZeroDivisionError else
  write_frame_from_start (next st) step.
(** the driver of tests/test_tracking_run.py:132-142 (and of the commented-out
    Tracker.full_forward, track.py:1411-1416) *)
Definition full_forward (first last : Z) (st : rstate) : result (rstate * Z) :=
  do st <- track_forward_start first st;
  do stn <- foldM (trackcorr_c_loop last) (zrange first last) (st, 0);
  do st <- trackcorr_c_finish first last (fst stn) last;
  Ok (st, snd stn).

(** one backward step: new buf[1], buf[2] and the number of links *)
Variable bstep : F -> F -> F -> F -> result (F * F * Z).
(** range(hi, lo, -1) *)
Definition zdown (hi lo : Z) : list Z := rev (zrange (lo + 1) (hi + 1)).
(** track.py:1135-1318 *)
Definition trackback_loop (first : Z) (st : rstate * Z) (step : Z) : result (rstate * Z) :=
  let '((buf, dsk), nlinks) := st in
  do a <- pyget buf 0; do b <- pyget buf 1; do c <- pyget buf 2; do d <- pyget buf 3;
  do r <- bstep a b c d;
  let '(b', c', count1) := r in
  do buf <- pyset buf 1 b'; do buf <- pyset buf 2 c';
  let st := next (buf, dsk) in
  do st <- write_frame_from_start st step;
  do st <- (if step >? first + 2 then read_frame_at_end st (step - 3) true else Ok st);
  Ok (st, nlinks + count1).
(** track.py:1111-1330.  After the loop [step] is the last value it took: the
    loop variable of the sequence loop, or of the priming loop if the sequence loop is empty. *)
Definition trackback_c (first last : Z) (st : rstate) : result (rstate * Z) :=
  do st <- foldM (fun st step => do st <- read_frame_at_end st step true; Ok (next st)) (zdown last (last - 4)) st;
  let st := prev st in
  do stn <- foldM (trackback_loop first) (zdown (last - 1) first) (st, 0);
  let step := List.last (zdown (last - 1) first) (last - 3) in
  if last - first - 1 =? 0 then Exn ZeroDivisionError else
  do st <- write_frame_from_start (next (fst stn)) step;
  Ok (st, snd stn).
End Run.
