(** Independent specification vocabulary for the tracking module. *)
From Coq Require Import Permutation Sorted.
From Verif Require Import Base F64 Model_corr Model_cand Spec_cand Model_track.
Local Open Scope Z_scope.

(** target [j] is selected by [sel], lies strictly inside the rectangle
    (cx-dl, cx+dr) x (cy-du, cy+dd) and strictly inside the imx x imy image,
    at distance [d] *)
Definition target_hit (pixdist : f64 -> f64 -> f64 -> f64 -> f64) (sel : target -> bool) (nf : list target)
    (cx cy dl dr du dd : f64) (imx imy : Z) (j : Z) (d : f64) : Prop :=
  exists t, 0 <= j /\ nth_error nf (Z.to_nat j) = Some t /\ sel t = true /\
    (flt (fsub cx dl) (t_x t) = true /\ flt (t_x t) (fadd cx dr) = true /\
     flt (fsub cy du) (t_y t) = true /\ flt (t_y t) (fadd cy dd) = true) /\
    (flt fzero (t_x t) = true /\ flt (t_x t) (f_of_Z imx) = true /\
     flt fzero (t_y t) = true /\ flt (t_y t) (f_of_Z imy) = true) /\
    d = pixdist cx cy (t_x t) (t_y t).
(** the search centre lies on the imx x imy image, its border included *)
Definition centre_on_image (cx cy : f64) (imx imy : Z) : Prop :=
  fle fzero cx = true /\ fle cx (f_of_Z imx) = true /\ fle fzero cy = true /\ fle cy (f_of_Z imy) = true.
(** targets that belong to a particle / do not *)
Definition tracked (t : target) : bool := negb (t_tnr t =? -1).
Definition free (t : target) : bool := t_tnr t =? -1.

(** [p] lists, padded with -1 to four entries, the hits at the (up to) four
    smallest different distances, nearest first; of hits at the same distance
    the first one in the list is taken *)
Definition nearest4 (h : Z -> f64 -> Prop) (p : list Z) : Prop :=
  exists js ds, length js = length ds /\ (length js <= 4)%nat /\
    p = js ++ repeat (-1) (4 - length js) /\
    (forall i j d, nth_error js i = Some j -> nth_error ds i = Some d -> h j d) /\
    (forall i i' d d', (i < i')%nat -> nth_error ds i = Some d -> nth_error ds i' = Some d' -> flt d d' = true) /\
    (forall j d, h j d ->
       (exists i j' d', nth_error js i = Some j' /\ nth_error ds i = Some d' /\ feq d' d = true /\ j' <= j) \/
       (length js = 4%nat /\ forall d', In d' ds -> flt d' d = true)).

(** coordinates sorted by y *)
Definition y_ascending (nf : list target) : Prop := ascending (map t_y nf).

(** ---- candidate ranking ---- *)
(** slots 4j .. 4j+3 hold the particle numbers found by camera j *)
Definition seen_by (ids : list Z) (j : nat) (v : Z) : bool :=
  existsb (Z.eqb v) (firstn 4 (skipn (4 * j) ids)).
(** number of cameras that found particle [v]; the number -1 stands for "nothing" *)
Definition votes (ncam : nat) (ids : list Z) (v : Z) : Z :=
  if v =? -1 then 0 else Z.of_nat (length (filter (fun j => seen_by ids j v) (seq 0 ncam))).
(** rows as registration leaves them: no votes yet, and marks only for cameras
    that did find the row's particle *)
Definition registered (ncam : nat) (pts : list foundpix) : Prop :=
  length pts = (4 * ncam)%nat /\
  forall f, In f pts -> freq f = 0 /\ (ncam <= length (whichcam f))%nat /\
    forall j, (j < ncam)%nat -> nth_error (whichcam f) j = Some 1 -> ftnr f <> -1 ->
      seen_by (map ftnr pts) j (ftnr f) = true.
(** some slot holds [v] and no later slot holds a particle with more votes *)
Definition survives (ncam : nat) (ids : list Z) (v : Z) : Prop :=
  exists k, nth_error ids k = Some v /\
    forall k' v', (k < k')%nat -> nth_error ids k' = Some v' -> votes ncam ids v' <= votes ncam ids v.

(** [w] is the ranking of the candidate numbers [ids] (four slots per camera):
    its rows name surviving candidates with their votes, most votes first,
    followed by an empty row; every survivor with two or more votes is there.
    The exception: a ranking that uses all 4*ncam rows has no empty row at the end. *)
Definition ranking (ncam : nat) (ids : list Z) (w : list foundpix) : Prop :=
  exists d, (length w = S d /\ (d < 4 * ncam)%nat \/ (length w = d /\ d = 4 * ncam)%nat) /\
    (forall k f, nth_error w k = Some f ->
       if (k <? d)%nat then ftnr f <> -1 /\ freq f = votes ncam ids (ftnr f) /\ 1 <= freq f /\ survives ncam ids (ftnr f)
       else ftnr f = -1 /\ freq f = 0) /\
    (forall i j f g, (i <= j)%nat -> nth_error w i = Some f -> nth_error w j = Some g -> freq g <= freq f) /\
    (forall v, 2 <= votes ncam ids v -> survives ncam ids v -> exists k f, nth_error w k = Some f /\ ftnr f = v) /\
    (forall f v, nth_error w 0 = Some f -> In v ids -> votes ncam ids v <= freq f) /\
    (forall k f, nth_error w k = Some f -> freq f = 1 -> d = 1%nat).

(** Python's targets[c] for the candidate c: -1 means the last one *)
Definition cand_target (nf : list target) (c : Z) : option target :=
  if c =? -1 then nth_error nf (length nf - 1) else nth_error nf (Z.to_nat c).
(** row [i] of a camera's four rows after registration: it holds the particle
    number of that target, and the camera's mark *)
Definition slot_after (nf : list target) (p : list Z) (cam : Z) (f g : foundpix) (i : nat) : Prop :=
  exists c t, nth_error p i = Some c /\ cand_target nf c = Some t /\
    ftnr g = t_tnr t /\ freq g = freq f /\
    whichcam g = upd (whichcam f) (Z.to_nat cam) 1.
(** what camera [c] contributes: the particle numbers of the four candidates *)
Definition cam_slots (pixdist : f64 -> f64 -> f64 -> f64 -> f64) (imx imy : Z)
    (searchquader : Z -> vec -> f64 * f64 * f64 * f64)
    (center : vec) (proj : list (f64 * f64)) (frm : frame) (c : nat) (ids4 : list Z) : Prop :=
  exists tl nt q p, nth_error (fr_targ frm) c = Some tl /\ nth_error (fr_numt frm) c = Some nt /\
    nth_error proj c = Some q /\
    (let '(r, l, dn, up) := searchquader (Z.of_nat c) center in
     candsearch_in_pix pixdist tl nt (fst q) (snd q) l r up dn imx imy = Ok p) /\
    length ids4 = 4%nat /\
    forall i v, nth_error ids4 i = Some v -> exists j t, nth_error p i = Some j /\ cand_target tl j = Some t /\ v = t_tnr t.

(** ---- link decisions ---- *)
(** particle [h] of the current frame has candidates and its best one is particle [k] of the next frame *)
Definition wants (cur : list pinfo) (h k : nat) : Prop :=
  exists p, nth_error cur h = Some p /\ 0 < p_inlist p /\ p_next p = Z.of_nat k.
(** of all particles that want [k], [h] has the smallest decision value (the first of equals) *)
Definition winner (cur : list pinfo) (h k : nat) : Prop :=
  exists p, nth_error cur h = Some p /\ wants cur h k /\
  forall h' p', wants cur h' k -> nth_error cur h' = Some p' -> h' <> h ->
    if (h' <? h)%nat then flt (p_final p) (p_final p') = true else flt (p_final p') (p_final p) = false.
(** before linking: a particle with candidates points at an existing particle of
    the next frame and has a comparable decision value; one without has no
    successor; no particle of the next frame has a predecessor *)
Definition ready (cur nxt : list pinfo) : Prop :=
  (forall h p, nth_error cur h = Some p ->
     if 0 <? p_inlist p then 0 <= p_next p < Z.of_nat (length nxt) /\ is_nan (p_final p) = false
     else p_next p = NEXT_NONE) /\
  (forall k r, nth_error nxt k = Some r -> p_prev r = PREV_NONE).
(** successor and predecessor numbers; -2 / -1 if there is none *)
Definition next_of (cur : list pinfo) (h : nat) : Z := match nth_error cur h with Some p => p_next p | None => NEXT_NONE end.
Definition prev_of (nxt : list pinfo) (k : nat) : Z := match nth_error nxt k with Some p => p_prev p | None => PREV_NONE end.
Definition mutual (cur nxt : list pinfo) : Prop :=
  forall h k : nat, next_of cur h = Z.of_nat k <-> prev_of nxt k = Z.of_nat h.
(** same particle apart from its successor / predecessor *)
Definition same_but_next (p q : pinfo) : Prop := exists v, q = set_next p v.
Definition same_but_prev (p q : pinfo) : Prop := exists v, q = set_prev p v.
(** when its turn came, [h] beat every earlier particle that wants the same [k] *)
Definition leads (cur : list pinfo) (h k : nat) : Prop :=
  exists p, nth_error cur h = Some p /\ wants cur h k /\
  forall h' p', (h' < h)%nat -> wants cur h' k -> nth_error cur h' = Some p' -> flt (p_final p) (p_final p') = true.
(** the same, read off the particles after a step: the first entry of the sorted candidate list is [k] *)
Definition chose (cur : list pinfo) (h k : nat) : Prop :=
  exists p, nth_error cur h = Some p /\ 0 < p_inlist p /\ nth_error (p_link p) 0 = Some (Z.of_nat k).
(** of all that chose [k], [h] has the smallest decision value (the first of equals) *)
Definition chose_best (cur : list pinfo) (h k : nat) : Prop :=
  exists p, nth_error cur h = Some p /\ chose cur h k /\
  forall h' p', chose cur h' k -> nth_error cur h' = Some p' -> h' <> h ->
    if (h' <? h)%nat then flt (p_final p) (p_final p') = true else flt (p_final p') (p_final p) = false.
(** when its turn came, [h] beat every earlier particle that chose the same [k] *)
Definition chose_first (cur : list pinfo) (h k : nat) : Prop :=
  exists p, nth_error cur h = Some p /\ chose cur h k /\
  forall h' p', (h' < h)%nat -> chose cur h' k -> nth_error cur h' = Some p' -> flt (p_final p) (p_final p') = true.
(** as [ready], without the demand that decision values are numbers *)
Definition ready_weak (cur nxt : list pinfo) : Prop :=
  (forall h p, nth_error cur h = Some p ->
     if 0 <? p_inlist p then 0 <= p_next p < Z.of_nat (length nxt) else p_next p = NEXT_NONE) /\
  (forall k r, nth_error nxt k = Some r -> p_prev r = PREV_NONE).
(** the particle count matches, and target numbers are -1 or indices *)
Definition frame_ok (frm : frame) : Prop :=
  fr_num frm = Z.of_nat (length (fr_path frm)) /\
  forall tl t, In tl (fr_targ frm) -> In t tl -> -1 <= t_tnr t.
(** a frame of the buffer that nothing was read into yet, as Frame() makes it: rows are allocated, but none counts *)
Definition unread (frm : frame) : Prop :=
  fr_num frm = 0 /\ (forall nt, In nt (fr_numt frm) -> nt = 0) /\ forall tl t, In tl (fr_targ frm) -> In t tl -> t_tnr t = -1.
Definition fresh_particle (p : pinfo) : Prop := p_prev p = PREV_NONE /\ p_next p = NEXT_NONE.
(** [f'] is [f] with fresh particles appended (targets and correspondences may change) *)
Definition only_added (f f' : frame) : Prop :=
  exists l, fr_path f' = fr_path f ++ l /\ Forall fresh_particle l.
(** the same for the backward search: predecessor of [h] and successor of [k] *)
Definition back_mutual (cur nxt : list pinfo) : Prop :=
  forall h k : nat, prev_of cur h = Z.of_nat k <-> next_of nxt k = Z.of_nat h.

(** ---- the candidate buffer of a particle ---- *)
(** the same particle with [n] more slots in its candidate buffer *)
Definition roomier (n : nat) (p : pinfo) : pinfo :=
  mk_pinfo (p_x p) (p_prev p) (p_next p) (p_prio p) (p_decis p ++ repeat fzero n) (p_final p)
    (p_link p ++ repeat (-999) n) (p_inlist p).
Definition roomier_frame (n : nat) (f : frame) : frame := set_path f (map (roomier n) (fr_path f)).
(** apply a function to the result of a successful run; errors stay the same *)
Definition on_ok {A B} (f : A -> B) (r : result A) : result B := match r with Ok a => Ok (f a) | Exn e => Exn e end.

(** ---- adding a particle ---- *)
(** what the code puts into the row with the number of camera [c] instead *)
Definition new_p (ix : Z) : list Z := if ix =? PT_UNUSED then [-1; -1; -1; -1] else [ix; ix; ix; ix].
(** the correspondence row a new particle seen at target [ix.(c)] of camera [c] should have *)
Definition wanted_row (ncam : nat) (inds : list Z) (r : corres) : Prop :=
  forall c ix, (c < ncam)%nat -> nth_error inds c = Some ix -> nth_error (co_p r) c = Some ix.

(** ---- why a link may be made ---- *)
(** every component of a displacement lies strictly between the configured limits *)
Definition within_step_limits (tp : tpar) (d : vec) : Prop :=
  let '(x, y, z) := d in
  flt (dvxmin tp) x = true /\ flt x (dvxmax tp) = true /\
  flt (dvymin tp) y = true /\ flt y (dvymax tp) = true /\
  flt (dvzmin tp) z = true /\ flt z (dvzmax tp) = true.
(** (angle, acceleration): both below their limits, or the acceleration below a tenth of its limit *)
Definition smooth_motion (tp : tpar) (aa : f64 * f64) : Prop :=
  (flt (snd aa) (dacc tp) = true /\ flt (fst aa) (dangle tp) = true) \/
  flt (snd aa) (fdiv (dacc tp) (f_of_Z 10)) = true.
(** strictly inside the measurement volume *)
Definition inside_volume (vl : vol) (v : vec) : Prop :=
  let '(x, y, z) := v in
  flt (vx0 vl) x = true /\ flt x (vx1 vl) = true /\ flt (vymin vl) y = true /\ flt y (vymax vl) = true /\
  flt (vz0 vl) z = true /\ flt z (vz1 vl) = true.
Definition mean_of (a b : f64 * f64) : f64 * f64 :=
  (fdiv (fadd (fst a) (fst b)) (f_of_Z 2), fdiv (fadd (snd a) (snd b)) (f_of_Z 2)).
(** [n] cameras see an unused target of the frame within 3 pixels (left, right,
    up, down) of the projection of [centre]; [flats] are the flat coordinates of
    these targets, a dummy value for the other cameras *)
Definition sighting (pixdist : f64 -> f64 -> f64 -> f64 -> f64) (ncam : nat) (imx imy : Z)
    (point_to_pixel : Z -> vec -> f64 * f64) (to_flat : Z -> f64 -> f64 -> f64 * f64)
    (targets : list (list target)) (centre : vec) (n : Z) (flats : list (f64 * f64)) : Prop :=
  exists seen : list (option target), length seen = ncam /\ length flats = ncam /\
    n = Z.of_nat (length (filter (fun o => match o with Some _ => true | None => false end) seen)) /\
    (forall c, nth_error seen c = Some None -> nth_error flats c = Some (f_of_Z (-10000000000), f_of_Z (-10000000000))) /\
    (forall c t, nth_error seen c = Some (Some t) ->
       nth_error flats c = Some (to_flat (Z.of_nat c) (t_x t) (t_y t)) /\
       exists tl j d, nth_error targets c = Some tl /\ nth_error tl (Z.to_nat j) = Some t /\
         let '(cx, cy) := point_to_pixel (Z.of_nat c) centre in
         target_hit pixdist free tl cx cy (f_of_Z 3) (f_of_Z 3) (f_of_Z 3) (f_of_Z 3) imx imy j d).
(** the link from a particle at [x1] to one at [x3] is justified; [x0] is the
    particle's previous position if it has one, [x2] its expected position, [x5]
    the position expected two frames ahead, [later] the positions known there *)
Inductive justified (vec_subt : vec -> vec -> vec) (angle_acc : vec -> vec -> vec -> f64 * f64)
    (point_position : list (f64 * f64) -> vec) (tp : tpar) (vl : vol)
    (sight2 sight3 : vec -> Z -> list (f64 * f64) -> Prop) (later : list vec)
    (has_prev : bool) (x1 x2 x3 x5 : vec) : Prop :=
| continued : forall x4, In x4 later -> within_step_limits tp (vec_subt x4 x3) ->
    smooth_motion tp (mean_of (if has_prev then angle_acc x1 x2 x3 else angle_acc x3 x4 x5) (angle_acc x3 x4 x5)) ->
    justified vec_subt angle_acc point_position tp vl sight2 sight3 later has_prev x1 x2 x3 x5
| reappears : forall n flats, sight3 x5 n flats -> 2 <= n ->
    inside_volume vl (point_position flats) -> within_step_limits tp (vec_subt x3 (point_position flats)) ->
    smooth_motion tp (angle_acc x3 (point_position flats) x5) ->
    justified vec_subt angle_acc point_position tp vl sight2 sight3 later has_prev x1 x2 x3 x5
| direct : has_prev = true -> within_step_limits tp (vec_subt x3 x1) -> smooth_motion tp (angle_acc x1 x2 x3) ->
    justified vec_subt angle_acc point_position tp vl sight2 sight3 later has_prev x1 x2 x3 x5
| filled_in : forall n flats, do_add tp = true -> has_prev = true -> sight2 x2 n flats -> 2 <= n -> x3 = point_position flats ->
    inside_volume vl x3 -> within_step_limits tp (vec_subt x2 x3) -> smooth_motion tp (angle_acc x1 x2 x3) ->
    justified vec_subt angle_acc point_position tp vl sight2 sight3 later has_prev x1 x2 x3 x5.
(** the particle's position in the frame before, if it has a predecessor, and
    the position expected for the next frame: the extrapolated one, or the
    particle's own position if it has no predecessor *)
Definition past_of (moving : vec -> vec -> vec) (buf0 : frame) (p : pinfo) (hp : bool) (x0 x2 : vec) : Prop :=
  hp = (0 <=? p_prev p) /\
  (hp = true -> exists q0, nth_error (fr_path buf0) (Z.to_nat (p_prev p)) = Some q0 /\ x0 = p_x q0 /\ x2 = moving x0 (p_x p)) /\
  (hp = false -> x2 = p_x p).
