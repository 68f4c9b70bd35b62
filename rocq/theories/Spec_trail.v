(** Specification vocabulary for trajectories over whole runs (C78). *)
From Verif Require Import Base F64 Model_corr Model_cand Spec_cand Model_track Spec_track Spec_track2.
Local Open Scope Z_scope.

Section Trail.
Variable pixdist : f64 -> f64 -> f64 -> f64 -> f64.
Variable ncam : nat.
Variables imx imy : Z.
Variable ptp : Z -> vec -> f64 * f64.
Variable quader : Z -> vec -> f64 * f64 * f64 * f64.
Variable moving : vec -> vec -> vec.
Variable extrap : vec -> vec -> vec -> vec.
Variable sub : vec -> vec -> vec.
Variable angle : vec -> vec -> vec -> f64 * f64.
Variable flat : Z -> f64 -> f64 -> f64 * f64.
Variable point : list (f64 * f64) -> vec.
Variable tp : tpar.
Variable vl : vol.
(** the sequence first .. last, its frames as they are on disk, and what the buffer held before *)
Variables first last : Z.
Variable R : Z -> frame.
Variable before : frame.

(** the frame that the code takes for "two frames ahead" of [s]: that frame, except
    in the last step of a run of more than one step, where it is the frame two back *)
Definition ahead (s : Z) : frame :=
  if (s =? first) || (s + 2 <=? last) then R (s + 2) else if first <=? s - 2 then R (s - 2) else before.
(** a link over step [s] from [x1] to [x3] is justified (Spec_track) for a particle that was at [x0] before *)
Definition reasonable (s : Z) (x0 : option vec) (x1 x3 : vec) : Prop :=
  let sight f := sighting pixdist ncam imx imy ptp flat (fr_targ f) in
  let J hp x2 x5 := justified sub angle point tp vl (sight (R (s + 1))) (sight (ahead s)) (map p_x (fr_path (ahead s))) hp x1 x2 x3 x5 in
  match x0 with Some x0 => J true (moving x0 x1) (extrap x3 x1 x0) | None => J false x1 (moving x1 x3) end.
(** particles number [k s] of frame s, at [x s], for s = first .. last, are clearly one moving particle:
    in every step the next one is shown by all cameras where they look for it and fits,
    no other continuation is reasonable, and it is not reasonable for any other particle of the
    frame, whatever that particle's past is *)
Definition clear_trail (k : Z -> nat) (x : Z -> vec) : Prop :=
  (forall s, first <= s <= last -> exists q, nth_error (fr_path (R s)) (k s) = Some q /\ p_x q = x s) /\
  forall s, first <= s < last ->
    let hp := first <? s in
    let x2 := if hp then moving (x (s - 1)) (x s) else x s in
    (exists px, looked_at ncam ptp (R s) (k s) hp (x s) x2 px /\
       seen_everywhere pixdist ncam imx imy quader (R (s + 1)) x2 px (Z.of_nat (k (s + 1)))) /\
    convincing pixdist ncam imx imy ptp quader sub angle tp (ahead s) hp (x s) x2 (x (s + 1))
      (if hp then extrap (x (s + 1)) (x s) (x (s - 1)) else moving (x s) (x (s + 1))) /\
    (forall j r, nth_error (fr_path (R (s + 1))) j = Some r ->
       reasonable s (if hp then Some (x (s - 1)) else None) (x s) (p_x r) -> j = k (s + 1)) /\
    (forall h p x0, nth_error (fr_path (R s)) h = Some p ->
       match x0 with Some y => first < s /\ In y (map p_x (fr_path (R (s - 1)))) | None => True end ->
       reasonable s x0 (p_x p) (x (s + 1)) -> h = k s).
End Trail.
