(** Concrete inputs for the tracking module: an orthographic toy camera
    arrangement (every camera sees pixel (x, y) of the point (x, y, z)). *)
From Coq Require Import Permutation Sorted.
From Verif Require Import Base F64 Model_corr Model_cand Spec_cand Lib Model_track Spec_track.
Local Open Scope Z_scope.

Definition fz := f_of_Z.
Definition toy_dist (cx cy x y : f64) : f64 :=
  fsqrt (fadd (fmul (fsub cx x) (fsub cx x)) (fmul (fsub cy y) (fsub cy y))).
Definition toy_pixel (_ : Z) (v : vec) : f64 * f64 := let '(x, y, _) := v in (x, y).
Definition toy_quader (_ : Z) (_ : vec) : f64 * f64 * f64 * f64 := (fz 10, fz 10, fz 10, fz 10).
Definition vop (f : f64 -> f64 -> f64) (a b : vec) : vec :=
  let '(x, y, z) := a in let '(x', y', z') := b in (f x x', f y y', f z z').
Definition toy_moving (a b : vec) : vec := vop (fun p q => fsub (fmul (fz 2) q) p) a b.
Definition toy_extrap (a b c : vec) : vec := toy_moving b a.
Definition toy_sub : vec -> vec -> vec := vop fsub.
Definition toy_norm (a b : vec) : f64 :=
  let '(x, y, z) := vop fsub a b in fsqrt (fadd (fadd (fmul x x) (fmul y y)) (fmul z z)).
Definition toy_angle (a b c : vec) : f64 * f64 := (fzero, toy_norm b c).
Definition toy_flat (_ : Z) (x y : f64) : f64 * f64 := (x, y).
Definition toy_point (l : list (f64 * f64)) : vec := match l with (x, y) :: _ => (x, y, fzero) | [] => (fzero, fzero, fzero) end.
Definition toy_tp (add : bool) : tpar := mk_tpar (fz (-20)) (fz 20) (fz (-20)) (fz 20) (fz (-20)) (fz 20) (fz 100) (fz 50) add.
Definition toy_vl : vol := mk_volume (fz (-100)) (fz 1000) (fz (-100)) (fz 100) (fz (-100)) (fz 1000) (fz 30).

(** insertion sort on pairs, as Python's sorted orders tuples *)
Definition pair_le (a b : f64 * Z) : bool := flt (fst a) (fst b) || (feq (fst a) (fst b) && (snd a <=? snd b)).
Fixpoint ins (x : f64 * Z) (l : list (f64 * Z)) : list (f64 * Z) :=
  match l with [] => [x] | y :: t => if pair_le x y then x :: l else y :: ins x t end.
Fixpoint isort (l : list (f64 * Z)) : list (f64 * Z) := match l with [] => [] | x :: t => ins x (isort t) end.
Lemma ins_perm x l : Permutation (x :: l) (ins x l).
Proof. induction l as [|y t IH]; simpl; auto. destruct (pair_le x y); auto. rewrite perm_swap. auto. Qed.
Lemma isort_perm l : Permutation l (isort l).
Proof. induction l as [|x t IH]; simpl; auto. rewrite <- ins_perm. auto. Qed.

Definition tg (x y tnr : Z) : target := mk_target 0 (fz x) (fz y) 10 3 3 100 tnr.
Definition part (cap : nat) (x y z : Z) (prev next : Z) : pinfo :=
  mk_pinfo (fz x, fz y, fz z) prev next 4 (repeat fzero cap) (fz 1000000) (repeat (-999) cap) 0.
Definition pt80 x y z := part 80 x y z PREV_NONE NEXT_NONE.
Definition frm (ps : list pinfo) (cs : list corres) (ts : list (list target)) : frame :=
  mk_frame ps cs ts (map (fun l => Z.of_nat (length l)) ts) (Z.of_nat (length ps)).

Definition toy_step ncam add := trackcorr_step isort toy_dist ncam 1000 1000 toy_pixel toy_quader toy_moving toy_extrap
  toy_sub toy_norm toy_angle toy_flat toy_point (toy_tp add) toy_vl.
Definition toy_one ncam add := track_one toy_dist ncam 1000 1000 toy_pixel toy_quader toy_moving toy_extrap
  toy_sub toy_norm toy_angle toy_flat toy_point (toy_tp add) toy_vl.
Definition toy_volume ncam := sorted_candidates_in_volume toy_dist ncam 1000 1000 toy_quader.
Definition toy_back ncam add := trackback_step isort toy_dist ncam 1000 1000 toy_pixel toy_quader toy_moving toy_extrap
  toy_sub toy_norm toy_angle toy_flat toy_point (toy_tp add) toy_vl.

Definition row (a b : Z) : corres := mk_corres 1 [a; b; -1; -1].
(** two particles moving by (3, 1) per frame, seen by two cameras *)
Definition two (k : Z) : frame :=
  frm [pt80 (50 + 3 * k) (40 + k) 0; pt80 (60 + 3 * k) (42 + k) 0]
      [row 0 0; row 1 1]
      [[tg (50 + 3 * k) (40 + k) 0; tg (60 + 3 * k) (42 + k) 1]; [tg (50 + 3 * k) (40 + k) 0; tg (60 + 3 * k) (42 + k) 1]].
Definition nofrm : frame := frm [] [] [[]; []].
Definition show (r : result (frame * frame * frame * Z)) :=
  match r with Ok (a, b, c, n) => Some (map p_next (fr_path a), map p_prev (fr_path b), n, fr_num c) | Exn _ => None end.

(** four cameras: 0 and 1 see particle 0, camera 2 sees particles 1 and 2, camera 3 sees all *)
Definition dup (cap : nat) (four : bool) : frame :=
  frm [part cap 50 40 0 (-1) (-2); part cap 51 41 0 (-1) (-2); part cap 52 42 0 (-1) (-2); part cap 53 43 0 (-1) (-2)]
      [mk_corres 1 [0; 0; -1; 0]; mk_corres 1 [-1; -1; 0; 1]; mk_corres 1 [-1; -1; 1; 2]; mk_corres 1 [-1; -1; 2; 3]]
      [[tg 50 40 0]; [tg 50 40 0];
       [tg 51 41 1; tg 52 42 2] ++ (if four then [tg 53 43 3] else []);
       [tg 50 40 0; tg 51 41 1; tg 52 42 2] ++ (if four then [tg 53 43 3] else [])].
Definition dup3 : frame :=
  frm [pt80 54 44 0; pt80 56 46 0; pt80 58 48 0]
      [mk_corres 1 [0; 0; -1; 0]; mk_corres 1 [-1; -1; 0; 1]; mk_corres 1 [-1; -1; 1; 2]]
      [[tg 54 44 0]; [tg 54 44 0]; [tg 56 46 1; tg 58 48 2]; [tg 54 44 0; tg 56 46 1; tg 58 48 2]].
Definition cur1 (cap : nat) : frame :=
  frm [part cap 50 40 0 (-1) (-2)] [mk_corres 1 [-1; -1; -1; -1]] [[]; []; []; []].
Definition showp (r : result (frame * frame * frame)) :=
  match r with Ok (a, b, c) => Ok (map p_inlist (fr_path a)) | Exn e => Exn e end.
