(** Calibration block and manual orientation files: orientation.py:700-739.
    A point of the block is a triple of binary64 numbers. *)
From Verif Require Import F64 Model_text Model_corr Model_track Model_io Model_par Base.
Local Open Scope Z_scope.

Definition point := (f64 * f64 * f64)%type.
Definition no_point : point := (fzero, fzero, fzero).
(** parts[k] (736-738) *)
Definition word (ws : list text) (k : nat) : result text := match nth_error ws k with Some w => Ok w | None => Exn IndexError end.
(** orientation.py:737-738: one line; the first word (the number of the point) is not looked at *)
Definition parse_point (l : text) : result point :=
  let ws := words l in
  do a <- word ws 1; do x <- parse_float a; do b <- word ws 2; do y <- parse_float b; do c <- word ws 3; do z <- parse_float c; Ok (x, y, z).
(** orientation.py:736-738: fix[i] = ... for every further line *)
Fixpoint fill (fix_ : list point) (i : Z) (ls : list text) : result (list point) :=
  match ls with
  | [] => Ok fix_
  | l :: r => do p <- parse_point l; do f <- pyset fix_ i p; fill f (i + 1) r
  end.
(** orientation.py:730-739; np.zeros with a negative size raises ValueError *)
Definition read_calblock (fs : files) (name : text) : result (list point * Z) :=
  match fs name with
  | None => Exn FileNotFoundError
  | Some t =>
      match lines t with
      | [] => Exn IndexError
      | l :: r =>
          do n <- parse_int l;
          if n <? 0 then Exn ValueError else
          do f <- fill (repeat no_point (Z.to_nat n)) 0 r; Ok (f, n)
      end
  end.
(** orientation.py:719-723: the position of the number pnr + 1 among the first four; [i] is tried next *)
Fixpoint find_nr (k : nat) (nr : list Z) (i pnr : Z) : result (option Z) :=
  match k with
  | O => Ok None
  | S k' => do v <- pyget nr i; if pnr =? v - 1 then Ok (Some i) else find_nr k' nr (i + 1) pnr
  end.
(** orientation.py:718-725 *)
Fixpoint match_loop (fix_ : list point) (nr : list Z) (num_fix : Z) (pnrs : list Z) (fix4 : list point) (num_match : Z) : result (list point * Z) :=
  match pnrs with
  | [] => Ok (fix4, num_match)
  | pnr :: r =>
      do f <- find_nr 4 nr 0 pnr;
      do st <- match f with
               | Some i => do p <- pyget fix_ pnr; do f4 <- pyset fix4 i p; Ok (f4, num_match + 1)
               | None => Ok (fix4, num_match)
               end;
      if snd st >=? num_fix then Ok st else match_loop fix_ nr num_fix r (fst st) (snd st)
  end.
(** the line of camera cam (0, 1, ...), orientation.py:707-710 *)
Fixpoint skip_lines (k : nat) (ls : list text) : list text := match k with O => ls | S k' => skip_lines k' (snd (readline ls)) end.
Definition numbers_of (fs : files) (name : text) (cam : Z) : result (list Z) :=
  match fs name with
  | None => Exn FileNotFoundError
  | Some t => (fix conv (ws : list text) : result (list Z) := match ws with [] => Ok [] | w :: r => do z <- parse_int w; do l <- conv r; Ok (z :: l) end)
      (words (fst (readline (skip_lines (Z.to_nat cam) (lines t)))))
  end.
(** orientation.py:700-727 *)
Definition read_man_ori_fix (fs : files) (block man : text) (cam : Z) : result (option (list point)) :=
  do nr <- numbers_of fs man cam;
  do (fix_, num_fix) <- read_calblock fs block;
  if num_fix <? 4 then Ok None else
  do st <- match_loop fix_ nr num_fix (zrange 0 num_fix) (repeat no_point 4) 0;
  Ok (if snd st =? 4 then Some (fst st) else None).
