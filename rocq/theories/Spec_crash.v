(** Specification for C90: what a crash can leave on the disk. *)
From Verif Require Import F64 Model_text Model_io Model_crash Base.

Definition starts (a b : text) : Prop := exists s, b = a ++ s.
Definition opened (m : text) (ops : list file_op) : Prop := In (Open m) ops.
(** A crash of the writing process after some of the operations: files that were not opened are as before; of what was written to
    the others only some beginning has left the buffers. *)
Definition after_crash (ops : list file_op) (fs fs' : files) : Prop :=
  exists finished rest, ops = finished ++ rest /\
    forall m, (~ opened m finished -> fs' m = fs m) /\
              (opened m finished -> exists t, fs' m = Some t /\ exists c, run_ops finished fs m = Some c /\ starts t c).
(** number of lines that end with a line break *)
Definition newlines (t : text) : nat := List.length (filter (fun c => aeqb c nl) t).
(** the first k rows after the count are completely in the file *)
Definition has_rows (fs : files) (m : text) (k : nat) : Prop := exists t, fs m = Some t /\ (k < newlines t)%nat.
(** A crash of the whole call: the files of the finished parts are closed and complete, the part under way has crashed. *)
Definition crash_in (phases : list (list file_op)) (fs fs' : files) : Prop :=
  exists complete now rest, phases = complete ++ now :: rest /\ after_crash now (run_ops (concat complete) fs) fs'.
