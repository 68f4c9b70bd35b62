(** Specification of the calibration accessors: what the caller can read of an object. *)
From Verif Require Import Base F64 Model_par Model_cal.
Local Open Scope Z_scope.

(** the values of calibration object c: position, angles, matrix, primary point, glass vector, distortion *)
Definition readout (w : world) (c : nat) : option calf :=
  match nth_error (w_objs w) c with
  | Some o => Some (mk_calf (mk_extf (k_pos o) (k_ang o) (k_dm o)) (k_int o) (read (w_heap w) (k_glass o)) (read (w_heap w) (k_added o)))
  | None => None
  end.
(** the array that call number k returned, as it reads now *)
Definition shows (w : world) (k : nat) : option (list f64) :=
  match nth_error (w_log w) k with Some (_, Some v) => Some (read (w_heap w) v) | _ => None end.
(** states after any history of calls from the start of the program *)
Definition reachable (fsin fcos : f64 -> f64) (w : world) : Prop := exists xs, w = history fsin fcos w_empty xs.

Definition with_pos (v : calf) (l : list f64) : calf := mk_calf (mk_extf l (xf_ang (cf_ext v)) (xf_dm (cf_ext v))) (cf_int v) (cf_glass v) (cf_added v).
Definition with_int (v : calf) (l : list f64) : calf := mk_calf (cf_ext v) l (cf_glass v) (cf_added v).
Definition with_glass (v : calf) (l : list f64) : calf := mk_calf (cf_ext v) (cf_int v) l (cf_added v).
Definition with_added (v : calf) (l : list f64) : calf := mk_calf (cf_ext v) (cf_int v) (cf_glass v) l.
(** the values after a successful setter; None where the call must be refused *)
Definition after_set (fsin fcos : f64 -> f64) (x : call) (v : calf) : option calf :=
  let n := length (cf_added v) in
  match x with
  | SetPos _ (Vec l) => if Nat.eqb (length l) 3 then Some (with_pos v l) else None
  | SetAngles _ (Vec l) =>
      match l with
      | [o; p; k] => Some (mk_calf (mk_extf (xf_pos (cf_ext v)) l (frotation fsin fcos o p k)) (cf_int v) (cf_glass v) (cf_added v))
      | _ => None
      end
  | SetPrimary _ (Vec l) => if Nat.eqb (length l) 3 then Some (with_int v l) else None
  | SetGlass _ (Vec l) => if Nat.eqb (length l) 3 then Some (with_glass v l) else None
  | SetRadial _ (Vec l) => if Nat.eqb (length l) 3 && Nat.leb 3 n then Some (with_added v (l ++ skipn 3 (cf_added v))) else None
  | SetDecentering _ (Vec l) => if Nat.eqb (length l) 2 && Nat.leb 5 n then Some (with_added v (firstn 3 (cf_added v) ++ l ++ skipn 5 (cf_added v))) else None
  | SetAffine _ (Vec l) => if Nat.eqb (length l) 2 && Nat.eqb n 7 then Some (with_added v (firstn 5 (cf_added v) ++ l)) else None
  | SetAdded _ l => Some (with_added v l)
  | _ => None
  end.
Definition is_setter (x : call) : bool :=
  match x with SetPos _ _ | SetAngles _ _ | SetRotation _ _ | SetPrimary _ _ | SetRadial _ _ | SetDecentering _ _ | SetAffine _ _ | SetGlass _ _ | SetAdded _ _ => true | _ => false end.
(** what a getter shows *)
Definition shown (x : call) (v : calf) : option (list f64) :=
  match x with
  | GetPos _ => Some (xf_pos (cf_ext v)) | GetAngles _ => Some (xf_ang (cf_ext v)) | GetRotation _ => Some (concat (xf_dm (cf_ext v)))
  | GetPrimary _ => Some (cf_int v) | GetRadial _ => Some (firstn 3 (cf_added v)) | GetDecentering _ => Some (firstn 2 (skipn 3 (cf_added v)))
  | GetAffine _ => Some (skipn 5 (cf_added v)) | GetGlass _ => Some (cf_glass v)
  | _ => None
  end.
(** getters that return an array of its own *)
Definition copies (x : call) : bool := match x with GetPos _ | GetAngles _ | GetRotation _ | GetPrimary _ => true | _ => false end.
Definition pokes (k : nat) (x : call) : bool := match x with Poke j _ _ => Nat.eqb j k | _ => false end.
(** a write into a returned array *)
Definition is_poke (x : call) : bool := match x with Poke _ _ _ => true | _ => false end.
(** calls that give object c another array for its distortion, its glass vector *)
Definition replaces_added (c : nat) (x : call) : bool := match x with SetAdded d _ => Nat.eqb d c | _ => false end.
Definition replaces_glass (c : nat) (x : call) : bool := match x with SetGlass d _ => Nat.eqb d c | _ => false end.
(** the calls that replace the array getter x showed *)
Definition detaches (x : call) : call -> bool :=
  match x with GetGlass c => replaces_glass c | GetRadial c | GetDecentering c | GetAffine c => replaces_added c | _ => fun _ => false end.
(** no call of the history is addressed to object d *)
Fixpoint spares (fsin fcos : f64 -> f64) (d : nat) (w : world) (xs : list call) : Prop :=
  match xs with [] => True | x :: r => d <> target_of w x /\ spares fsin fcos d (fst (perform fsin fcos w x)) r end.
