(** Calibration and MultimediaPar objects as the caller sees them: object
    identity, arrays shared between the object and the caller, histories of calls
    (calibration.py:94-385, parameters.py:60-107).
    Simplifications: objects are made by Calibration() without arguments; fields
    are changed through the setters and through arrays the getters returned only; the argument of a
    setter is given by its values (every setter modelled here except set_layers copies them) as a 1-D array or
    as an array of any other shape. *)
From Verif Require Import Base F64 Model_par.
Local Open Scope Z_scope.

(** an array of the caller: 1-D with its values, or another shape *)
Inductive arg := Vec (l : list f64) | Other.
(** a numpy view: v_len entries of array v_base from v_from on *)
Record view := mk_view { v_base : nat; v_from : nat; v_len : nat }.
(** a Calibration object, calibration.py:97-129: ext_par and int_par are records of
    the object's own (deep copies, 106-109); glass_par and added_par name arrays *)
Record calobj := mk_calobj { k_pos : list f64; k_ang : list f64; k_dm : list (list f64); k_int : list f64; k_glass : view; k_added : view }.
(** all arrays, all objects, and for each call so far the object and the array it returned *)
Record world := mk_world { w_heap : list (list f64); w_objs : list calobj; w_log : list (nat * option view) }.
Definition w_empty : world := mk_world [] [] [].

(** contents of a view *)
Definition read (h : list (list f64)) (v : view) : list f64 := firstn (v_len v) (skipn (v_from v) (nth (v_base v) h [])).
(** a new array *)
Definition whole (h : list (list f64)) (l : list f64) : view := mk_view (length h) 0 (length l).
(** a[lo:hi], lo <= hi, ends clipped to the length *)
Definition slice (v : view) (lo hi : nat) : view :=
  mk_view (v_base v) (v_from v + Nat.min lo (v_len v)) (Nat.min hi (v_len v) - Nat.min lo (v_len v)).
(** a[...] = l for a view: entry by entry from v_from on *)
Definition overwrite (a : list f64) (from : nat) (l : list f64) : list f64 := firstn from a ++ l ++ skipn (from + length l) a.
Definition store (h : list (list f64)) (v : view) (l : list f64) : list (list f64) :=
  upd h (v_base v) (overwrite (nth (v_base v) h []) (v_from v) l).
(** slice assignment: only if the lengths agree (a 1-D array of 2 or 3 values is not broadcast to another length) *)
Definition assign (h : list (list f64)) (v : view) (l : list f64) : result (list (list f64)) :=
  if Nat.eqb (v_len v) (length l) then Ok (store h v l) else Exn ValueError.

Inductive call :=
| New                                            (* Calibration() *)
| SetPos (c : nat) (a : arg) | SetAngles (c : nat) (a : arg) | SetRotation (c : nat) (m : option (list (list f64))) | SetPrimary (c : nat) (a : arg)
| SetRadial (c : nat) (a : arg) | SetDecentering (c : nat) (a : arg) | SetAffine (c : nat) (a : arg) | SetGlass (c : nat) (a : arg) | SetAdded (c : nat) (l : list f64)
| GetPos (c : nat) | GetAngles (c : nat) | GetRotation (c : nat) | GetPrimary (c : nat)
| GetRadial (c : nat) | GetDecentering (c : nat) | GetAffine (c : nat) | GetGlass (c : nat)
| Poke (k : nat) (i : nat) (x : f64).            (* r[i] = x for the array r that call number k returned *)

Section Cal.
Variables fsin fcos : f64 -> f64.   (* np.sin, np.cos: arbitrary functions *)
Variable w : world.
Let h := w_heap w.
(** effects: a changed object, a changed heap *)
Definition set_obj (h : list (list f64)) (c : nat) (o : calobj) : world := mk_world h (upd (w_objs w) c o) (w_log w).
Definition ok (w' : world) : world * result (option view) := (w', Ok None).
Definition fail (e : exn) : world * result (option view) := (w, Exn e).
(** a getter that builds a new array *)
Definition fresh (l : list f64) : world * result (option view) := (mk_world (h ++ [l]) (w_objs w) (w_log w), Ok (Some (whole h l))).
(** a getter that returns a view *)
Definition live (v : view) : world * result (option view) := (w, Ok (Some v)).
Definition with_obj (c : nat) (f : calobj -> world * result (option view)) : world * result (option view) :=
  match nth_error (w_objs w) c with Some o => f o | None => fail NameError end.
(** added_par[lo:hi] = l *)
Definition set_part (c : nat) (o : calobj) (n lo hi : nat) (a : arg) : world * result (option view) :=
  match a with
  | Vec l => if Nat.eqb (length l) n then
      match assign h (slice (k_added o) lo hi) l with Ok h' => ok (mk_world h' (w_objs w) (w_log w)) | Exn e => fail e end
    else fail ValueError
  | Other => fail ValueError
  end.

Definition effect (x : call) : world * result (option view) :=
  match x with
  | New =>                                                          (* calibration.py:106-129 *)
    let glass := [fzero; fzero; f_of_Z 1] in
    ok (mk_world (h ++ [glass; added_default])
         (w_objs w ++ [mk_calobj [fzero; fzero; fzero] [fzero; fzero; fzero] (frotation fsin fcos fzero fzero fzero) [fzero; fzero; fzero]
                         (whole h glass) (mk_view (Datatypes.S (length h)) 0 7)]) (w_log w))
  | SetPos c a => with_obj c (fun o => match a with                 (* 227-241 *)
      | Vec [x; y; z] => ok (set_obj h c (mk_calobj [x; y; z] (k_ang o) (k_dm o) (k_int o) (k_glass o) (k_added o)))
      | _ => fail ValueError end)
  | SetAngles c a => with_obj c (fun o => match a with              (* 247-261 *)
      | Vec [om; ph; ka] => ok (set_obj h c (mk_calobj (k_pos o) [om; ph; ka] (frotation fsin fcos om ph ka) (k_int o) (k_glass o) (k_added o)))
      | _ => fail ValueError end)
  | SetRotation c m => with_obj c (fun o => match m with            (* 221-225: ext_par has no axis, ext_par[0] raises; None: another shape *)
      | Some [[_; _; _]; [_; _; _]; [_; _; _]] => fail IndexError
      | _ => fail ValueError end)
  | SetPrimary c a => with_obj c (fun o => match a with             (* 271-285 *)
      | Vec [x; y; z] => ok (set_obj h c (mk_calobj (k_pos o) (k_ang o) (k_dm o) [x; y; z] (k_glass o) (k_added o)))
      | _ => fail ValueError end)
  | SetRadial c a => with_obj c (fun o => set_part c o 3 0 3 a)     (* 296-310 *)
  | SetDecentering c a => with_obj c (fun o => set_part c o 2 3 5 a)(* 323-335 *)
  | SetAffine c a => with_obj c (fun o => set_part c o 2 5 (v_len (k_added o)) a) (* 342-354 *)
  | SetGlass c a => with_obj c (fun o => match a with               (* 361-376: np.array copies *)
      | Vec [x; y; z] => ok (set_obj (h ++ [[x; y; z]]) c (mk_calobj (k_pos o) (k_ang o) (k_dm o) (k_int o) (whole h [x; y; z]) (k_added o)))
      | _ => fail ValueError end)
  | SetAdded c l => with_obj c (fun o =>                            (* 382-385: astype copies; no check *)
      ok (set_obj (h ++ [l]) c (mk_calobj (k_pos o) (k_ang o) (k_dm o) (k_int o) (k_glass o) (whole h l))))
  | GetPos c => with_obj c (fun o => fresh (k_pos o))               (* 243-245 *)
  | GetAngles c => with_obj c (fun o => fresh (k_ang o))            (* 263-265 *)
  | GetRotation c => with_obj c (fun o => fresh (concat (k_dm o)))  (* 267-269, row by row *)
  | GetPrimary c => with_obj c (fun o => fresh (k_int o))           (* 287-294 *)
  | GetRadial c => with_obj c (fun o => live (slice (k_added o) 0 3))                        (* 314-321 *)
  | GetDecentering c => with_obj c (fun o => live (slice (k_added o) 3 5))                   (* 337-340 *)
  | GetAffine c => with_obj c (fun o => live (slice (k_added o) 5 (v_len (k_added o))))      (* 356-359 *)
  | GetGlass c => with_obj c (fun o => live (k_glass o))                                     (* 378-380 *)
  | Poke k i x =>
    match nth_error (w_log w) k with
    | Some (_, Some v) => if Nat.ltb i (v_len v) then ok (mk_world (store h (mk_view (v_base v) (v_from v + i) 1) [x]) (w_objs w) (w_log w)) else fail IndexError
    | _ => fail NameError
    end
  end.
(** the object a call is addressed to *)
Definition target_of (x : call) : nat :=
  match x with
  | New => length (w_objs w)
  | SetPos c _ | SetAngles c _ | SetRotation c _ | SetPrimary c _ | SetRadial c _ | SetDecentering c _ | SetAffine c _ | SetGlass c _ | SetAdded c _
  | GetPos c | GetAngles c | GetRotation c | GetPrimary c | GetRadial c | GetDecentering c | GetAffine c | GetGlass c => c
  | Poke k _ _ => match nth_error (w_log w) k with Some (c, _) => c | None => length (w_objs w) end
  end.
(** a call, noted in the log *)
Definition perform (x : call) : world * result (option view) :=
  let '(w', r) := effect x in
  (mk_world (w_heap w') (w_objs w') (w_log w' ++ [(target_of x, match r with Ok v => v | Exn _ => None end)]), r).
End Cal.
(** a history of calls *)
Definition history (fsin fcos : f64 -> f64) (w : world) (xs : list call) : world := fold_left (fun w x => fst (perform fsin fcos w x)) xs w.
