(** Specification vocabulary for completeness of tracking (C77). *)
From Verif Require Import Base F64 Model_corr Model_cand Spec_cand Model_track Spec_track.
Local Open Scope Z_scope.

(** around the pixel [q], in the window [win] = (right, left, down, up), the
    targets [tl] of a camera show particle [k]: one of the targets that belong to
    a particle and lie in the window belongs to [k], no other one is at the same
    distance from [q], and at most three are nearer *)
Definition seen_in (pixdist : f64 -> f64 -> f64 -> f64 -> f64) (imx imy : Z) (tl : list target)
    (q : f64 * f64) (win : f64 * f64 * f64 * f64) (k : Z) : Prop :=
  let '(r, l, dn, up) := win in
  let hit := target_hit pixdist tracked tl (fst q) (snd q) l r up dn imx imy in
  centre_on_image (fst q) (snd q) imx imy /\
  (forall j d, hit j d -> flt d f1e20 = true) /\
  exists j d t, hit j d /\ nth_error tl (Z.to_nat j) = Some t /\ t_tnr t = k /\
    (forall j' d', hit j' d' -> feq d' d = true -> j' = j) /\
    (forall js, NoDup js -> (forall j', In j' js -> exists d', hit j' d' /\ flt d' d = true) -> (length js <= 3)%nat).
(** every camera shows particle [k] of the frame around its pixel [px.(c)], in the
    window of the camera for the position [centre] *)
Definition seen_everywhere (pixdist : f64 -> f64 -> f64 -> f64 -> f64) (ncam : nat) (imx imy : Z)
    (quader : Z -> vec -> f64 * f64 * f64 * f64) (frm : frame) (centre : vec) (px : list (f64 * f64)) (k : Z) : Prop :=
  forall c q tl, (c < ncam)%nat -> nth_error px c = Some q -> nth_error (fr_targ frm) c = Some tl ->
    seen_in pixdist imx imy tl q (quader (Z.of_nat c) centre) k.
(** the target lists of the frame are sorted by y, their sizes are right, and
    particle numbers on targets are numbers of particles *)
Definition searchable (ncam : nat) (frm : frame) : Prop :=
  forall c tl, (c < ncam)%nat -> nth_error (fr_targ frm) c = Some tl ->
    nth_error (fr_numt frm) c = Some (Z.of_nat (length tl)) /\ y_ascending tl /\ popcount (Z.of_nat (length tl) / 2) <= 11 /\
    forall t, In t tl -> t_tnr t < Z.of_nat (length (fr_path frm)).
(** where the cameras look for the next position of particle number [h] of [buf1]: at the
    projections of the expected position [x2] if it has a predecessor; if not, where
    they see it now (the projection of its position for a camera that does not) *)
Definition looked_at (ncam : nat) (ptp : Z -> vec -> f64 * f64) (buf1 : frame) (h : nat) (hp : bool) (x1 x2 : vec) (px : list (f64 * f64)) : Prop :=
  length px = ncam /\ forall c q, nth_error px c = Some q ->
    if hp then q = ptp (Z.of_nat c) x2
    else exists row ix, nth_error (fr_corr buf1) h = Some row /\ nth_error (co_p row) c = Some ix /\
      (ix = -1 /\ q = ptp (Z.of_nat c) x1 \/
       0 <= ix /\ exists tl t, nth_error (fr_targ buf1) c = Some tl /\ nth_error tl (Z.to_nat ix) = Some t /\ q = (t_x t, t_y t)).
(** reasons to go from [x1] to [x3]: it fits the particle's past, or a particle of the frame after
    ([buf3]), shown by every camera around the projections of the position [x5] expected there, fits *)
Inductive convincing (pixdist : f64 -> f64 -> f64 -> f64 -> f64) (ncam : nat) (imx imy : Z) (ptp : Z -> vec -> f64 * f64)
    (quader : Z -> vec -> f64 * f64 * f64 * f64) (vec_subt : vec -> vec -> vec) (angle_acc : vec -> vec -> vec -> f64 * f64)
    (tp : tpar) (buf3 : frame) (has_prev : bool) (x1 x2 x3 x5 : vec) : Prop :=
| past_fits : has_prev = true -> within_step_limits tp (vec_subt x3 x1) -> smooth_motion tp (angle_acc x1 x2 x3) ->
    convincing pixdist ncam imx imy ptp quader vec_subt angle_acc tp buf3 has_prev x1 x2 x3 x5
| future_fits : forall m q px, nth_error (fr_path buf3) m = Some q ->
    length px = ncam -> (forall c p, nth_error px c = Some p -> p = ptp (Z.of_nat c) x5) ->
    seen_everywhere pixdist ncam imx imy quader buf3 x5 px (Z.of_nat m) ->
    within_step_limits tp (vec_subt (p_x q) x3) ->
    smooth_motion tp (mean_of (if has_prev then angle_acc x1 x2 x3 else angle_acc x3 (p_x q) x5) (angle_acc x3 (p_x q) x5)) ->
    convincing pixdist ncam imx imy ptp quader vec_subt angle_acc tp buf3 has_prev x1 x2 x3 x5.

(** ---- backward tracking (C81) ---- *)
(** [p] is the beginning of a track: it goes on to [q0] of the [later] frame, and it has no predecessor *)
Definition track_begins (later : frame) (p q0 : pinfo) : Prop :=
  0 <= p_next p /\ nth_error (fr_path later) (Z.to_nat (p_next p)) = Some q0 /\ p_prev p = PREV_NONE.
(** [p], which goes on to [q0], may have come from [r] *)
Definition fits_before (moving : vec -> vec -> vec) (vec_subt : vec -> vec -> vec) (angle_acc : vec -> vec -> vec -> f64 * f64) (tp : tpar)
    (p q0 r : pinfo) : Prop :=
  within_step_limits tp (vec_subt (p_x p) (p_x r)) /\ smooth_motion tp (angle_acc (p_x p) (moving (p_x q0) (p_x p)) (p_x r)).
(** [r] is the end of a track; if it came from [q4] of the frame [before], its motion fits that of [p] and [q0] *)
Definition track_ends (extrap : vec -> vec -> vec -> vec) (angle_acc : vec -> vec -> vec -> f64 * f64) (tp : tpar) (before : frame)
    (p q0 r : pinfo) : Prop :=
  p_next r = NEXT_NONE /\
  (p_prev r = PREV_NONE \/
   exists q4, 0 <= p_prev r /\ nth_error (fr_path before) (Z.to_nat (p_prev r)) = Some q4 /\
     smooth_motion tp (angle_acc (p_x r) (p_x q4) (extrap (p_x r) (p_x p) (p_x q0)))).
