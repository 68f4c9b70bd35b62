(** Independent specification vocabulary for the epipolar candidate search. *)
From Verif Require Import Base F64 Model_corr Model_cand.
Local Open Scope Z_scope.

(** number of one bits *)
Fixpoint pcp (p : positive) : Z :=
  match p with xH => 1 | xO p => pcp p | xI p => pcp p + 1 end.
Definition popcount (n : Z) : Z := match n with Zpos p => pcp p | _ => 0 end.

(** coordinates in ascending order (IEEE <=, so without NaN) *)
Definition ascending (x : list f64) : Prop :=
  forall i j a b, (i < j)%nat -> nth_error x i = Some a -> nth_error x j = Some b -> fle a b = true.

(** index [k] is not beyond the first entry that is not below [lim]: every
    entry before [k] is below [lim] *)
Definition before_window (x : list f64) (lim : f64) (k : Z) : Prop :=
  forall i v, 0 <= i < k -> nth_error x (Z.to_nat i) = Some v -> flt v lim = true.

(** smaller over larger value, 0 for (0,0); integers are exact in binary64 up to 2^53 *)
Definition ratio (a b : Z) : f64 :=
  if (a =? 0) && (b =? 0) then fzero else fdiv (f_of_Z (Z.min a b)) (f_of_Z (Z.max a b)).

(** 1e-10 in binary64 *)
Definition ten_to_minus_ten : f64 := fdiv (f_of_Z 1) (f_of_Z 10000000000).
(** the epipolar segment (a vertical one is tilted by moving one end by 1e-10): slope, intercept and extent *)
Record segment := mk_seg { g_m : f64; g_b : f64; g_xlo : f64; g_xhi : f64; g_ylo : f64; g_yhi : f64 }.
Definition segment_of (xa ya xb0 yb : f64) : segment :=
  let xb := if feq xa xb0 then fadd xb0 ten_to_minus_ten else xb0 in
  let m := fdiv (fsub yb ya) (fsub xb xa) in
  {| g_m := m; g_b := fsub ya (fmul m xa);
     g_xlo := if flt xb xa then xb else xa; g_xhi := if flt xb xa then xa else xb;
     g_ylo := if flt yb ya then yb else ya; g_yhi := if flt yb ya then ya else yb |}.

(** the segment lies entirely on one side of the sensor *)
Definition off_sensor (g : segment) (s : sensor) : bool :=
  fle (g_xhi g) (s_xmin s) || fle (s_xmax s) (g_xlo g) || fle (g_yhi g) (s_ymin s) || fle (s_ymax s) (g_ylo g).

(** perpendicular distance of a point from the line *)
Definition dist_to (g : segment) (c : coord2d) : f64 :=
  fabs (fdiv (fsub (fsub (c_y c) (fmul (g_m g) (c_x c))) (g_b g))
             (fsqrt (fadd (fmul (g_m g) (g_m g)) (f_of_Z 1)))).

(** strictly inside the segment's box widened by eps (not outside or on the rim) *)
Definition in_window (g : segment) (eps : f64) (c : coord2d) : bool :=
  negb (fle (c_x c) (fsub (g_xlo g) eps)) && negb (fle (fadd (g_xhi g) eps) (c_x c)) &&
  negb (fle (c_y c) (fsub (g_ylo g) eps)) && negb (fle (fadd (g_yhi g) eps) (c_y c)).

(** shape ratios reach the configured minima *)
Definition similar (vp : vol_limits) (sh : shape) (t : target) : bool :=
  negb (flt (ratio (sh_n sh) (t_n t)) (v_cn vp)) && negb (flt (ratio (sh_nx sh) (t_nx t)) (v_cnx vp)) &&
  negb (flt (ratio (sh_ny sh) (t_ny t)) (v_cny vp)) && negb (fle (ratio (sh_sumg sh) (t_sumg t)) (v_csumg vp)).

Definition qualifies (vp : vol_limits) (sh : shape) (g : segment) (c : coord2d) (t : target) : bool :=
  in_window g (v_eps0 vp) c && negb (fle (v_eps0 vp) (dist_to g c)) && similar vp sh t.

(** (4 qsumg + 2 qn + qnx + qny) * (sum of brightnesses) *)
Definition score (sh : shape) (t : target) : f64 :=
  fmul (fadd (fadd (fadd (fmul (f_of_Z 4) (ratio (sh_sumg sh) (t_sumg t)))
                         (fmul (f_of_Z 2) (ratio (sh_n sh) (t_n t))))
                   (ratio (sh_nx sh) (t_nx t))) (ratio (sh_ny sh) (t_ny t)))
       (f_of_Z (sh_sumg sh + t_sumg t)).

(** all qualifying entries of crd, from index [j] on, in order *)
Fixpoint matching (vp : vol_limits) (sh : shape) (g : segment) (pix : list target) (j : Z)
    (crd : list coord2d) : list (Z * f64 * f64) :=
  match crd with
  | [] => []
  | c :: rest =>
    match nth_error pix (Z.to_nat (c_pnr c)) with
    | Some t => if qualifies vp sh g c t then [(j, score sh t, dist_to g c)] else []
    | None => []
    end ++ matching vp sh g pix (j + 1) rest
  end.

Definition small (z : Z) : Prop := 0 <= z <= 2 ^ 53.
Definition shapes_ok (sh : shape) (pix : list target) : Prop :=
  small (sh_n sh) /\ small (sh_nx sh) /\ small (sh_ny sh) /\ small (sh_sumg sh) /\
  forall t, In t pix -> small (t_n t) /\ small (t_nx t) /\ small (t_ny t) /\ small (t_sumg t).
Definition pnrs_ok (crd : list coord2d) (pix : list target) : Prop :=
  forall c, In c crd -> 0 <= c_pnr c < Z.of_nat (length pix).
