(** Model of openptv_python/find_candidate.py: epipolar candidate search.
    Floating point is IEEE binary64 (F64); crd entries and targets are the
    records of Model_corr. *)
From Verif Require Import Base F64 Model_corr.
Local Open Scope Z_scope.

(** find_candidate.py:159-164, numba-compiled (so: float64 arguments; numba's
    default error model raises ZeroDivisionError on division by zero).
    min/max of two floats: any order of comparison gives the same value. *)
Definition fmin (a b : f64) : f64 := if flt b a then b else a.
Definition fmax (a b : f64) : f64 := if flt a b then b else a.
Definition quality_ratio (a b : f64) : result f64 :=
  if feq a fzero && feq b fzero then Ok fzero
  else if feq (fmax a b) fzero then Exn ZeroDivisionError
  else Ok (fdiv (fmin a b) (fmax a b)).

(** find_candidate.py:193-198, the while loop.  [fuel] bounds the number of
    iterations; the proofs show that the bound used below is never reached.
    The numba code does not check bounds: [pyget] raising IndexError stands
    for an out-of-bounds read. *)
Fixpoint bin_loop (fuel : nat) (x : list f64) (lim : f64) (j0 dj : Z) : result Z :=
  if dj >? 1 then
    match fuel with
    | O => Exn OutOfFuel
    | S fuel =>
      do v <- pyget x j0;
      bin_loop fuel x lim (if flt v lim then j0 + dj else j0 - dj) (dj / 2)
    end
  else Ok j0.

(** find_candidate.py:187-207 *)
Definition find_start_point_binary (x : list f64) (num : Z) (xa eps0 : f64) : result Z :=
  do j0 <- bin_loop (Z.to_nat num) x (fsub xa eps0) (num / 2) (num / 4);
  let start_point := j0 - 12 in
  Ok (if start_point <? 0 then 0 else start_point).

(** the volume parameters used (parameters.py VolumePar) *)
Record vol_limits := mk_vol { v_eps0 : f64; v_cn : f64; v_cnx : f64; v_cny : f64; v_csumg : f64 }.
(** sensor limits xmin, xmax, ymin, ymax after correct_brown_affine
    (find_candidate.py:66-76; computing them is not modelled here) *)
Record sensor := mk_sensor { s_xmin : f64; s_xmax : f64; s_ymin : f64; s_ymax : f64 }.
(** shape of the originating target *)
Record shape := mk_shape { sh_n : Z; sh_nx : Z; sh_ny : Z; sh_sumg : Z }.

(** 1e-10 as a binary64 number *)
Definition f1em10 : f64 := S754_finite false 7737125245533627 (-86).

(** one pass of the loop body, find_candidate.py:109-146.  The distance and
    quality tests for entry [c] = crd[j]; [None]: `continue`. *)
Definition cand_test (vp : vol_limits) (sh : shape) (pix : list target)
    (m b xa ya xb yb : f64) (c : coord2d) : result (option (f64 * f64)) :=
  let e := v_eps0 vp in
  if fle (c_y c) (fsub ya e) || fge (c_y c) (fadd yb e) then Ok None else    (* 109 *)
  if fle (c_x c) (fsub xa e) || fge (c_x c) (fadd xb e) then Ok None else    (* 111 *)
  let d := fabs (fdiv (fsub (fsub (c_y c) (fmul m (c_x c))) b)
                      (fsqrt (fadd (fmul m m) (f_of_Z 1)))) in                (* 115 *)
  if fge d e then Ok None else
  do p <- pyget pix (c_pnr c);                                                (* 119 *)
  do qn <- quality_ratio (f_of_Z (sh_n sh)) (f_of_Z (t_n p));
  do qnx <- quality_ratio (f_of_Z (sh_nx sh)) (f_of_Z (t_nx p));
  do qny <- quality_ratio (f_of_Z (sh_ny sh)) (f_of_Z (t_ny p));
  do qsumg <- quality_ratio (f_of_Z (sh_sumg sh)) (f_of_Z (t_sumg p));
  if flt qn (v_cn vp) || flt qnx (v_cnx vp) || flt qny (v_cny vp) || fle qsumg (v_csumg vp)
  then Ok None else                                                           (* 131 *)
  let corr := fadd (fadd (fadd (fmul (f_of_Z 4) qsumg) (fmul (f_of_Z 2) qn)) qnx) qny in
  Ok (Some (d, fmul corr (f_of_Z (sh_sumg sh + t_sumg p)))).                  (* 140-143 *)

(** find_candidate.py:100-151, the loop over j = j0 .. num-1; the state is
    [cand], entries (pnr, corr, tol) *)
Definition cand_step (vp : vol_limits) (sh : shape) (pix : list target) (crd : list coord2d)
    (m b xa ya xb yb : f64) (j : Z) (cand : list (Z * f64 * f64)) : ctl (list (Z * f64 * f64)) :=
  tryC (pyget crd j) (fun c =>
    if fgt (c_x c) (fadd xb (v_eps0 vp)) then Ret cand                        (* 103 *)
    else tryC (cand_test vp sh pix m b xa ya xb yb c) (fun r =>
      match r with
      | None => Next cand
      | Some (d, corr) =>
        if MAXCAND <=? Z.of_nat (length cand) then Ret cand                   (* 133 *)
        else Next (cand ++ [(j, corr, d)])                                    (* 146 *)
      end)).

(** find_candidate.py:15-151.  The coordinates are numpy float64 scalars, so
    the division at line 82 follows IEEE (no ZeroDivisionError). *)
Definition find_candidate (crd : list coord2d) (pix : list target) (num : Z)
    (xa ya xb yb : f64) (sh : shape) (vp : vol_limits) (s : sensor)
  : result (list (Z * f64 * f64)) :=
  let xb := if feq xa xb then fadd xb f1em10 else xb in                       (* 79 *)
  let m := fdiv (fsub yb ya) (fsub xb xa) in                                  (* 82 *)
  let b := fsub ya (fmul m xa) in
  let '(xa, xb) := if fgt xa xb then (xb, xa) else (xa, xb) in                (* 85 *)
  let '(ya, yb) := if fgt ya yb then (yb, ya) else (ya, yb) in                (* 88 *)
  if fle xb (s_xmin s) || fge xa (s_xmax s) || fle yb (s_ymin s) || fge ya (s_ymax s)
  then Ok [] else                                                             (* 92 *)
  do j0 <- find_start_point_binary (map c_x crd) num xa (v_eps0 vp);          (* 96 *)
  runC (forC (zrange j0 num) (cand_step vp sh pix crd m b xa ya xb yb) []).
