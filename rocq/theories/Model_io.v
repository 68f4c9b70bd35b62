(** Reading and writing of frames, orientations and parameters.
    A file system is a partial map from names to contents; [can_write] says which
    names can be opened for writing (arbitrary).  Files are written completely
    when the function ends (buffers flushed), also if it ends by an exception. *)
From Verif Require Import F64 Model_text Model_corr Model_track Base.
Local Open Scope Z_scope.

Definition files := text -> option text.
Definition put (fs : files) (name content : text) : files := fun n => if teqb n name then Some content else fs n.
Definition line (t : text) : text := t ++ [nl].

Section IO.
Variable can_write : text -> bool.

(** ---------------- targets ---------------- *)

(** an integer that went through a float64 array (np.array of a list of mixed
    tuples, 231-233) and "%d"; for |z| >= 2^63 numpy would build another array type *)
Definition float_int (z : Z) : Z := match trunc (f_of_Z z) with Some v => v | None => z end.
(** tracking_frame_buf.py:238  fmt="%4d %9.4f %9.4f %5d %5d %5d %5d %5d" *)
Definition target_row (t : target) : text :=
  pad 4 (print_int (float_int (t_pnr t))) ++ sp :: pad 9 (print_fixed 4 (t_x t)) ++ sp :: pad 9 (print_fixed 4 (t_y t)) ++ sp ::
  pad 5 (print_int (float_int (t_n t))) ++ sp :: pad 5 (print_int (float_int (t_nx t))) ++ sp :: pad 5 (print_int (float_int (t_ny t))) ++ sp ::
  pad 5 (print_int (float_int (t_sumg t))) ++ sp :: pad 5 (print_int (float_int (t_tnr t))).
(** np.savetxt with header f"{num_targets}" (235-241) *)
Definition targets_text (ts : list target) (num : Z) : text := line (print_int num) ++ flat_map (fun t => line (target_row t)) ts.

Definition has (c : ascii) (t : text) : bool := existsb (aeqb c) t.
(** file_base.replace("#", "%05d") *)
Definition fix_hash (t : text) : text := flat_map (fun c => if aeqb c "#" then txt "%05d" else [c]) t.
(** tracking_frame_buf.py:218-227: the name that is written *)
Definition write_name (base : text) (frame_num : Z) : result text :=
  let base := if has "#" base then fix_hash base else base in
  let base := if has "%" base then base else base ++ txt "%05d" in
  let frame_num := if frame_num =? 0 then 123456789 else frame_num in
  do n <- percent base frame_num; Ok (n ++ txt "_targets").
(** tracking_frame_buf.py:172-176: the name that is read *)
Definition read_name (base : text) (frame_num : Z) : result text :=
  if frame_num >? 0 then do n <- percent base frame_num; Ok (n ++ txt "_targets") else Ok (base ++ txt "_targets").

(** tracking_frame_buf.py:212-246.  np.savetxt opens (and so empties) the file before
    it rejects an empty table (8 formats, 1 column) with ValueError. *)
Definition write_targets (fs : files) (ts : list target) (num : Z) (base : text) (frame_num : Z) : files * result bool :=
  match write_name base frame_num with
  | Exn e => (fs, Exn e)
  | Ok name =>
      if can_write name then
        match ts with
        | [] => (put fs name [], Exn ValueError)
        | _ => (put fs name (targets_text ts num), Ok true)
        end
      else (fs, Ok false)
  end.

(** one line of a target file, 188-203 *)
Definition parse_target (l : text) : result target :=
  match words (strip l) with
  | [a; b; c; d; e; f; g; h] =>
      do pnr <- parse_int a; do x <- parse_float b; do y <- parse_float c; do n <- parse_int d;
      do nx <- parse_int e; do ny <- parse_int f; do sumg <- parse_int g; do tnr <- parse_int h;
      Ok (mk_target pnr x y n nx ny sumg tnr)
  | _ => Exn ValueError
  end.
Fixpoint read_rows (k : nat) (ls : list text) : result (list target) :=
  match k with
  | O => Ok []
  | S k' => let '(l, rest) := readline ls in do t <- parse_target l; do ts <- read_rows k' rest; Ok (t :: ts)
  end.
(** tracking_frame_buf.py:165-209 *)
Definition read_targets (fs : files) (base : text) (frame_num : Z) : result (list target) :=
  do name <- read_name base frame_num;
  match fs name with
  | None => Exn IOError
  | Some content =>
      let '(l, rest) := readline (lines content) in
      do num <- parse_int (strip l);
      read_rows (Z.to_nat num) rest
  end.

(** ---------------- path and correspondence ---------------- *)

(** tracking_frame_buf.py:263-273 Pathinfo (x is an array of any length) *)
Record path_rec := mk_path
  { pr_x : list f64; pr_prev : Z; pr_next : Z; pr_prio : Z;
    pr_decis : list f64; pr_final : f64; pr_link : list Z; pr_inlist : Z }.
Definition new_path : path_rec :=
  mk_path [fzero; fzero; fzero] PREV_NONE NEXT_NONE PRIO_DEFAULT (repeat fzero (Z.to_nat POSI)) fzero (repeat 0 (Z.to_nat POSI)) 0.

(** f"{base}.{frame_num}" *)
Definition frame_name (base : text) (n : Z) : text := base ++ "."%char :: print_int n.
(** an optional base: None prints as "None" *)
Definition opt_name (base : option text) (n : Z) : text := frame_name (match base with Some b => b | None => txt "None" end) n.

Definition link_row (p : path_rec) : result text :=
  do x <- pyget (pr_x p) 0; do y <- pyget (pr_x p) 1; do z <- pyget (pr_x p) 2;
  Ok (print_int (pr_prev p) ++ sp :: print_int (pr_next p) ++ sp :: print_fixed 3 x ++ sp :: print_fixed 3 y ++ sp :: print_fixed 3 z).
Definition corr_row (i : Z) (p : path_rec) (c : corres) : result text :=
  do x <- pyget (pr_x p) 0; do y <- pyget (pr_x p) 1; do z <- pyget (pr_x p) 2;
  do a <- pyget (co_p c) 0; do b <- pyget (co_p c) 1; do d <- pyget (co_p c) 2; do e <- pyget (co_p c) 3;
  Ok (print_int (i + 1) ++ sp :: print_fixed 3 x ++ sp :: print_fixed 3 y ++ sp :: print_fixed 3 z ++ sp ::
      print_int a ++ sp :: print_int b ++ sp :: print_int d ++ sp :: print_int e).
Definition prio_row (p : path_rec) : result text :=
  do r <- link_row p; Ok (r ++ sp :: print_int (pr_prio p)).

(** the loop 849-867: the texts of the linkage, correspondence and prio file so far,
    and the exception if a row cannot be written *)
Fixpoint write_rows (rows : list Z) (cor : list corres) (path : list path_rec) (with_prio : bool) (acc : text * text * text)
  : (text * text * text) * option exn :=
  match rows with
  | [] => (acc, None)
  | i :: rest =>
      let '(lt, ct, pt) := acc in
      match (do p <- pyget path i; link_row p) with
      | Exn e => (acc, Some e)
      | Ok r1 =>
        match (do p <- pyget path i; do c <- pyget cor i; corr_row i p c) with
        | Exn e => ((lt ++ line r1, ct, pt), Some e)
        | Ok r2 =>
          if with_prio then
            match (do p <- pyget path i; prio_row p) with
            | Exn e => ((lt ++ line r1, ct ++ line r2, pt), Some e)
            | Ok r3 => write_rows rest cor path with_prio (lt ++ line r1, ct ++ line r2, pt ++ line r3)
            end
          else write_rows rest cor path with_prio (lt ++ line r1, ct ++ line r2, pt)
        end
      end
  end.

(** tracking_frame_buf.py:807-884.  prio_base: None = no file, Some "" = the name None
    is passed to open (TypeError).  The three names are assumed different. *)
Definition write_path_frame (fs : files) (cor : list corres) (path : list path_rec) (num : Z)
    (cb lb : text) (pb : option text) (n : Z) : files * result bool :=
  let cname := frame_name cb n in let lname := frame_name lb n in let pname := opt_name pb n in
  let head := line (print_int num) in
  if negb (can_write cname) then (fs, Ok false) else
  let fs1 := put fs cname head in
  if negb (can_write lname) then (fs1, Ok false) else
  let fs2 := put fs1 lname head in
  match pb with
  | Some [] => (fs2, Exn TypeError)
  | _ =>
    let with_prio := match pb with Some _ => true | None => false end in
    if with_prio && negb (can_write pname) then (fs2, Ok false) else
    let '((lt, ct, pt), e) := write_rows (zrange 0 num) cor path with_prio (head, head, head) in
    let fs3 := put (put fs2 cname ct) lname lt in
    let fs4 := if with_prio then put fs3 pname pt else fs3 in
    (fs4, match e with Some e => Exn e | None => Ok true end)
  end.

(** float64 -> int (astype), x86-64 behaviour for NaN and overflow *)
Definition as_int (x : f64) : Z :=
  match trunc x with Some v => if (- 2 ^ 63 <=? v) && (v <? 2 ^ 63) then v else - 2 ^ 63 | None => - 2 ^ 63 end.
(** int64 -> int32 field *)
Definition wrap32 (z : Z) : Z := (z + 2 ^ 31) mod 2 ^ 32 - 2 ^ 31.
(** vals[-4:] and vals[1:-4] *)
Definition last4 (v : list f64) : list f64 := skipn (List.length v - 4) v.
Definition mid (v : list f64) : list f64 := skipn 1 (firstn (List.length v - 4) v).
(** assignment of an array to the field p[4]: 4 values, or 1 value repeated *)
Definition assign4 (v : list Z) : result (list Z) :=
  match v with [a; b; c; d] => Ok [a; b; c; d] | [a] => Ok [a; a; a; a] | _ => Exn ValueError end.

(** the loop 750-793; rows [i..] of the buffers are still untouched *)
Fixpoint read_path_rows (ls : list text) (i : nat) (n : nat) (links prios : option (list text)) : result (list (option corres) * list path_rec) :=
  match ls with
  | [] => Ok (repeat None (n - i), repeat new_path (n - i))
  | l :: rest =>
      if Nat.leb n i then Exn IndexError else
      do (pv, nx, links') <- match links with
        | None => Ok (PREV_NONE, NEXT_NONE, None)
        | Some k => let '(t, k') := readline k in let v := fromstring t in
                    do a <- pyget v 0; do b <- pyget v 1; Ok (as_int a, as_int b, Some k')
        end;
      do (pr, prios') <- match prios with
        | None => Ok (4, None)
        | Some k => let '(t, k') := readline k in do a <- pyget (fromstring t) (-1); Ok (as_int a, Some k')
        end;
      let vals := fromstring l in
      do p <- assign4 (map (fun x => wrap32 (as_int x)) (last4 vals));
      do (c, path) <- read_path_rows rest (S i) n links' prios';
      Ok (Some (mk_corres (Z.of_nat i + 1) p) :: c,
          mk_path (mid vals) pv nx pr (repeat fzero (Z.to_nat POSI)) (f_of_Z 1000000) (repeat (-999) (Z.to_nat POSI)) 0 :: path)
  end.

(** tracking_frame_buf.py:692-804.  [None] in the first list is a row of the numpy
    array that was never written (uninitialised memory).  lb = "": no linkage file. *)
Definition read_path_frame (fs : files) (cb lb : text) (pb : option text) (n : Z) : result (list (option corres) * list path_rec) :=
  match fs (frame_name cb n) with
  | None => Ok ([], [])
  | Some content =>
    let '(l, rest) := readline (lines content) in
    do num <- parse_int l;
    if num <? 0 then Exn ValueError else
    match (match lb with [] => Some None | _ => option_map (fun c => Some (snd (readline (lines c)))) (fs (frame_name lb n)) end) with
    | None => Ok ([], [])
    | Some links =>
      match (match pb with Some [] => Some None | _ => option_map (fun c => Some (snd (readline (lines c)))) (fs (opt_name pb n)) end) with
      | None => Ok ([], [])
      | Some prios => read_path_rows rest 0 (Z.to_nat num) links prios
      end
    end
  end.

(** ---------------- frames ---------------- *)
(** tracking_frame_buf.py:309-338 *)
Record io_frame := mk_io_frame
  { if_corr : list (option corres); if_path : list path_rec; if_targ : list (list target); if_numt : list Z; if_num : Z }.

Fixpoint read_all_targets (fs : files) (bases : list text) (n : Z) : result (list (list target)) :=
  match bases with
  | [] => Ok []
  | b :: r => do t <- read_targets fs b n; do ts <- read_all_targets fs r n; Ok (t :: ts)
  end.
(** Frame.read, 340-371: the frame afterwards and the returned flag, for num_cams = len(bases).
    The tests "== -1" never hold: both are lengths. *)
Definition frame_read (fs : files) (cb lb : text) (pb : option text) (bases : list text) (n : Z) : result (io_frame * bool) :=
  do (cor, path) <- read_path_frame fs cb lb pb n;
  if Z.of_nat (List.length cor) =? -1 then Ok (mk_io_frame cor path [] [] (-1), false) else
  do ts <- read_all_targets fs bases n;
  if existsb (fun t => Z.of_nat (List.length t) =? -1) ts then Ok (mk_io_frame cor path ts [] (Z.of_nat (List.length cor)), false)
  else Ok (mk_io_frame cor path ts (map (fun t => Z.of_nat (List.length t)) ts) (Z.of_nat (List.length cor)), true).

Fixpoint write_all_targets (fs : files) (l : list (list target * Z * text)) (n : Z) : files * result bool :=
  match l with
  | [] => (fs, Ok true)
  | (ts, num, b) :: r =>
      match write_targets fs ts num b n with
      | (fs', Ok true) => write_all_targets fs' r n
      | other => other
      end
  end.
(** Frame.write, 373-401, for a frame whose correspondence rows are all initialised *)
Definition frame_write (fs : files) (cor : list corres) (path : list path_rec) (num : Z) (cams : list (list target * Z * text))
    (cb lb : text) (pb : option text) (n : Z) : files * result bool :=
  match write_path_frame fs cor path num cb lb pb n with
  | (fs', Ok true) => write_all_targets fs' cams n
  | other => other
  end.
(** Frame.positions, 403-409 *)
Definition positions (path : list path_rec) (num : Z) : result (list (list f64)) :=
  foldM (fun acc i => do p <- pyget path i; Ok (acc ++ [pr_x p])) (zrange 0 num) [].
(** Frame.target_positions_for_camera, 411-438; ts = the targets of the camera *)
Definition target_positions (cor : list corres) (ts : list target) (cam : Z) (num : Z) : result (list (f64 * f64)) :=
  foldM (fun acc i =>
    do c <- pyget cor i; do tix <- pyget (co_p c) cam;
    if tix =? CORRES_NONE then Ok (acc ++ [(fnan, fnan)])
    else do t <- pyget ts tix; Ok (acc ++ [(t_x t, t_y t)])) (zrange 0 num) [].
End IO.
