(** Writing a frame as the sequence of operations on its files, for crashes between them. *)
From Verif Require Import F64 Model_text Model_corr Model_track Model_io Base.
Local Open Scope Z_scope.

(** open(name, "w"): the file is empty afterwards; f.write(t) *)
Inductive file_op := Open (name : text) | Write (name : text) (t : text).
Definition do_op (fs : files) (o : file_op) : files :=
  match o with
  | Open m => put fs m []
  | Write m t => put fs m (match fs m with Some c => c ++ t | None => t end)
  end.
Definition run_ops (ops : list file_op) (fs : files) : files := fold_left do_op ops fs.

(** tracking_frame_buf.py:853-872: the loop over the particles, for a priority file with a name; the operations and the
    exception that ends the loop, if any *)
Fixpoint row_ops (cn ln pn : text) (rows : list Z) (cor : list corres) (path : list path_rec) : list file_op * option exn :=
  match rows with
  | [] => ([], None)
  | i :: rest =>
      match (do p <- pyget path i; link_row p) with
      | Exn e => ([], Some e)
      | Ok r1 =>
        match (do p <- pyget path i; do c <- pyget cor i; corr_row i p c) with
        | Exn e => ([Write ln (line r1)], Some e)
        | Ok r2 =>
            match (do p <- pyget path i; prio_row p) with
            | Exn e => ([Write ln (line r1); Write cn (line r2)], Some e)
            | Ok r3 => let '(ops, e) := row_ops cn ln pn rest cor path in
                       (Write ln (line r1) :: Write cn (line r2) :: Write pn (line r3) :: ops, e)
            end
        end
      end
  end.
(** tracking_frame_buf.py:837-884, all files writable and a priority file with a name *)
Definition path_ops (cor : list corres) (path : list path_rec) (num : Z) (cb lb pb : text) (n : Z) : list file_op * option exn :=
  let cn := frame_name cb n in let ln := frame_name lb n in let pn := frame_name pb n in
  let head := line (print_int num) in
  let '(ops, e) := row_ops cn ln pn (zrange 0 num) cor path in
  ([Open cn; Write cn head; Open ln; Write ln head; Open pn; Write pn head] ++ ops, e).
(** tracking_frame_buf.py:212-246 for a table that is not empty: np.savetxt opens the file, writes header and rows *)
Definition target_ops (c : list target * Z * text) (n : Z) : list file_op :=
  let '(ts, num, b) := c in
  match write_name b n with Ok name => [Open name; Write name (targets_text ts num)] | Exn _ => [] end.
(** Frame.write, tracking_frame_buf.py:368-401: one call after the other, each closes its files before the next begins *)
Definition frame_phases (cor : list corres) (path : list path_rec) (num : Z) (cams : list (list target * Z * text)) (cb lb pb : text) (n : Z) : list (list file_op) :=
  fst (path_ops cor path num cb lb pb n) :: map (fun c => target_ops c n) cams.
