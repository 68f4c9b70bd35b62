(** Specification vocabulary for the frame buffer and the tracking schedules. *)
From Verif Require Import Base Model_fb.
Local Open Scope Z_scope.

(** ---- bounded queue ---- *)
Section Queue.
Context {A : Type}.
Inductive qop := Push (x : A) | Pop.
(** a first-in first-out queue with room for [n] items that refuses items when full;
    each operation answers what pop returns (None for push) *)
Definition queue_step (n : nat) (q : list A) (o : qop) : list A * option A :=
  match o with
  | Push x => (if (length q <? n)%nat then q ++ [x] else q, None)
  | Pop => match q with [] => ([], None) | x :: t => (t, Some x) end
  end.
Fixpoint queue_run (n : nat) (q : list A) (ops : list qop) : list A * list (option A) :=
  match ops with
  | [] => (q, [])
  | o :: t => let '(q', a) := queue_step n q o in let '(q'', l) := queue_run n q' t in (q'', a :: l)
  end.
(** the same operations on the ring *)
Definition ring_step (r : ring A) (o : qop) : result (ring A * option A) :=
  match o with Push x => do s <- push r x; Ok (fst s, None) | Pop => pop r end.
Fixpoint ring_run (r : ring A) (ops : list qop) : result (ring A * list (option A)) :=
  match ops with
  | [] => Ok (r, [])
  | o :: t => do s <- ring_step r o; do u <- ring_run (fst s) t; Ok (fst u, snd s :: snd u)
  end.
(** items of a ring, oldest first *)
Definition ring_items (r : ring A) (q : list A) : Prop :=
  r_size r = Z.of_nat (length q) /\
  forall i x, nth_error q i = Some x -> nth_error (r_buf r) (Z.to_nat ((r_head r + Z.of_nat i) mod r_len r)) = Some x.
End Queue.
Arguments qop : clear implicits.

(** ---- schedules ---- *)
Section Sched.
Variables F D : Type.
Variable parse : bool -> D -> result F.
Variable store : F -> D.
Variable fstep : F -> F -> F -> F -> result (F * F * F * Z).
Variable bstep : F -> F -> F -> F -> result (F * F * Z).

(** [version links d0 s f]: [f] is frame [s] as read from the disk [d0], possibly updated
    by tracking steps *)
Inductive version (links : bool) (d0 : disk D) (s : Z) : F -> Prop :=
| v_read f : parse links (d0 s) = Ok f -> version links d0 s f
| v_fwd1 a b c d b' c' d' n : version links d0 s b -> fstep a b c d = Ok (b', c', d', n) -> version links d0 s b'
| v_fwd2 a b c d b' c' d' n : version links d0 s c -> fstep a b c d = Ok (b', c', d', n) -> version links d0 s c'
| v_fwd3 a b c d b' c' d' n : version links d0 s d -> fstep a b c d = Ok (b', c', d', n) -> version links d0 s d'
| v_bwd1 a b c d b' c' n : version links d0 s b -> bstep a b c d = Ok (b', c', n) -> version links d0 s b'
| v_bwd2 a b c d b' c' n : version links d0 s c -> bstep a b c d = Ok (b', c', n) -> version links d0 s c'.

(** the frames a forward run works on: [A s .. D s] are the four buffer slots when
    step [s] starts ([A last], [B last] what is left at the end) *)
Definition forward_history (first last : Z) (d0 : disk D) (A B C E : Z -> F) (N : Z -> Z) : Prop :=
  parse false (d0 first) = Ok (B first) /\ parse false (d0 (first + 1)) = Ok (C first) /\
  parse false (d0 (first + 2)) = Ok (E first) /\
  forall s, first <= s < last ->
    fstep (A s) (B s) (C s) (E s) = Ok (A (s + 1), B (s + 1), C (s + 1), N s) /\
    (if s + 3 <=? last then parse false (d0 (s + 3)) = Ok (E (s + 1)) else E (s + 1) = A s).
(** and a backward run *)
Definition backward_history (first last : Z) (d0 : disk D) (A B C E : Z -> F) (N : Z -> Z) : Prop :=
  parse true (d0 last) = Ok (A (last - 1)) /\ parse true (d0 (last - 1)) = Ok (B (last - 1)) /\
  parse true (d0 (last - 2)) = Ok (C (last - 1)) /\ parse true (d0 (last - 3)) = Ok (E (last - 1)) /\
  forall s, first < s <= last - 1 ->
    bstep (A s) (B s) (C s) (E s) = Ok (A (s - 1), B (s - 1), N s) /\ C (s - 1) = E s /\
    (if first <=? s - 3 then parse true (d0 (s - 3)) = Ok (E (s - 1)) else E (s - 1) = A s).
(** sum of N s, ..., over a list of steps *)
Definition total (N : Z -> Z) (l : list Z) : Z := fold_right Z.add 0 (map N l).
End Sched.
