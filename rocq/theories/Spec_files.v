(** Vocabulary for tracking runs on files. *)
From Verif Require Import F64 Model_text Model_corr Model_track Spec_track Model_io Spec_io Model_files Base.
Local Open Scope Z_scope.

Section Names.
Variable can_write : text -> bool.
Variables cb lb pb : text.
Variable bases : list text.
(** the target file of a camera for frame [n] *)
Definition target_file (n : Z) (b : text) : text := match read_name b n with Ok t => t | Exn _ => [] end.
(** the files of frame [n]: correspondences, linkage, priorities, targets of each camera *)
Definition files_of (n : Z) : list text := frame_name cb n :: frame_name lb n :: frame_name pb n :: map (target_file n) bases.
(** their contents *)
Definition contents (fs : files) (n : Z) : list (option text) := map fs (files_of n).
(** the frames [lo..hi] have names, all different, and may be written *)
Record layout (lo hi : Z) : Prop := mk_layout {
  lay_pos : 0 < lo;
  lay_links : lb <> [];
  lay_prio : pb <> [];
  lay_bases : forall b, In b bases -> ~ In "#"%char b /\ In "%"%char b /\ forall n, lo <= n <= hi -> exists t, read_name b n = Ok t;
  lay_own : forall n, lo <= n <= hi -> NoDup (files_of n);
  lay_apart : forall n m t, lo <= n <= hi -> lo <= m <= hi -> In t (files_of n) -> In t (files_of m) -> n = m;
  lay_write : forall n t, lo <= n <= hi -> In t (files_of n) -> can_write t = true }.
End Names.
(** a file of one of the frames [lo..hi] *)
Definition file_in cb lb pb bases (lo hi : Z) (t : text) : Prop := exists n, lo <= n <= hi /\ In t (files_of cb lb pb bases n).

(** numbers that the files can hold, and fewer particles than 2^53 *)
Definition vec_floats (v : vec) : Prop := let '(x, y, z) := v in float_ok x /\ float_ok y /\ float_ok z.
Definition fits (f : frame) : Prop :=
  Z.of_nat (length (fr_path f)) <= 2 ^ 53 /\ Forall corres_ok (fr_corr f) /\ Forall (Forall target_ok) (fr_targ f) /\
  forall p, In p (fr_path f) -> vec_floats (p_x p) /\ exact_int (p_prio p).
(** the positions of [q] are those of [p] to three digits *)
Definition same_position (p q : pinfo) : Prop :=
  let '(x, y, z) := p_x p in let '(x', y', z') := p_x q in to_digits 3 x x' /\ to_digits 3 y y' /\ to_digits 3 z z'.
(** [g] has the particles of [f], in the same order, at the same places and seen by the same targets *)
Definition same_particles (f g : frame) : Prop :=
  fr_num g = fr_num f /\ Forall2 (fun p q => same_position p q /\ p_prio q = p_prio p) (fr_path f) (fr_path g) /\
  same_corres (fr_corr f) (fr_corr g) /\ Forall2 (Forall2 (same_target 4)) (fr_targ f) (fr_targ g) /\ fr_numt g = fr_numt f.

(** what a run that adds particles keeps: [g] has the particles of [f], in the same order, and then others; the detections of
    [f] up to their particle numbers; each added particle has used up at least one target that no particle used *)
Definition unused_targets (f : frame) : nat := list_sum (map (fun tl => length (filter (fun t => t_tnr t =? -1) tl)) (fr_targ f)).
(** the same detection, up to the particle that it belongs to *)
Definition same_detection (t u : target) : Prop := same_target 4 (set_tnr t (t_tnr u)) u.
Definition more_particles (f g : frame) : Prop :=
  (exists old new, fr_path g = old ++ new /\ Forall2 (fun p q => same_position p q /\ p_prio q = p_prio p) (fr_path f) old /\
     Forall (fun q => p_prio q = PRIO_DEFAULT) new) /\
  fr_num g = Z.of_nat (length (fr_path g)) /\
  Forall2 (Forall2 same_detection) (fr_targ f) (fr_targ g) /\ fr_numt g = fr_numt f /\
  (length (fr_path g) + unused_targets g <= length (fr_path f) + unused_targets f)%nat.
(** room for the particles that a run may add *)
Definition roomy (f : frame) : Prop :=
  Z.of_nat (length (fr_path f) + unused_targets f) <= 2 ^ 53 /\ forall tl, In tl (fr_targ f) -> Z.of_nat (length tl) <= 2 ^ 31.
