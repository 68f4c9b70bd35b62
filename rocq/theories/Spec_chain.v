(** Specification of the correspondence search in terms of the detected
    targets: cameras and target numbers only, no sorted lists. *)
From Verif Require Import Base F64 Model_corr Spec_corr Model_cand Spec_cand.
Local Open Scope Z_scope.

Section Targets.
Variable flat : Z -> f64 -> f64 -> f64 * f64.
Variable epi : Z -> Z -> f64 -> f64 -> result (f64 * f64 * f64 * f64).
Variable vp : vol_limits.
Variable sens : Z -> sensor.
(** imgs: per camera the detected targets *)
Variable imgs : list (list target).

(** the point of target number p in the flat image of camera a *)
Definition spot (a p : Z) (t : target) : coord2d :=
  mk_coord2d p (fst (flat a (t_x t) (t_y t))) (snd (flat a (t_x t) (t_y t))).
Definition look (t : target) : shape := mk_shape (t_n t) (t_nx t) (t_ny t) (t_sumg t).

(** target q of camera b lies on the epipolar line of target p of camera a and
    looks similar; [x] is their similarity score and [d] the distance to the line *)
Definition compatible (a b p q : Z) (x d : f64) : Prop :=
  0 <= p /\ 0 <= q /\
  exists ta tb xa ya xb yb,
    target_at imgs a p = Some ta /\ target_at imgs b q = Some tb /\
    epi a b (fst (flat a (t_x ta) (t_y ta))) (snd (flat a (t_x ta) (t_y ta))) = Ok (xa, ya, xb, yb) /\
    let g := segment_of xa ya xb yb in
    off_sensor g (sens b) = false /\ qualifies vp (look ta) g (spot b q tb) tb = true /\
    x = score (look ta) tb /\ d = dist_to g (spot b q tb).

(** no target of camera a lies left of target p in the flat image *)
Definition leftmost (a p : Z) : Prop :=
  0 <= p /\ exists t, target_at imgs a p = Some t /\
  forall q u, 0 <= q -> target_at imgs a q = Some u ->
    fle (fst (flat a (t_x t) (t_y t))) (fst (flat a (t_x u) (t_y u))) = true.

(** target numbers, one per camera; -1: no target of that camera *)
Definition numbers_at (l : list (Z * Z)) : list Z :=
  map (fun cam => match find (fun q => fst q =? cam) l with Some q => snd q | None => -1 end) [0; 1; 2; 3].

(** four pairwise compatible targets with a score above the limit *)
Definition good_quad (corrmin : f64) (ids : list Z) (s : f64) : Prop :=
  exists p0 p1 p2 p3 x01 d01 x02 d02 x03 d03 x12 d12 x13 d13 x23 d23,
    ids = [p0; p1; p2; p3] /\
    compatible 0 1 p0 p1 x01 d01 /\ compatible 0 2 p0 p2 x02 d02 /\ compatible 0 3 p0 p3 x03 d03 /\
    compatible 1 2 p1 p2 x12 d12 /\ compatible 1 3 p1 p3 x13 d13 /\ compatible 2 3 p2 p3 x23 d23 /\
    s = fdiv (fadd (fadd (fadd (fadd (fadd x01 x02) x03) x12) x13) x23)
             (fadd (fadd (fadd (fadd (fadd d01 d02) d03) d12) d13) d23) /\
    fle s corrmin = false.
(** three targets of cameras i<j<k: the first is compatible with both others;
    the others are compatible with each other, or the last one is the leftmost of its camera
    (then score and distance of that pair count as 0) *)
Definition good_triplet (corrmin : f64) (ids : list Z) : Prop :=
  exists i j k p q r xij dij xik dik xjk djk,
    0 <= i /\ i < j /\ j < k /\ k < 4 /\ ids = numbers_at [(i, p); (j, q); (k, r)] /\
    compatible i j p q xij dij /\ compatible i k p r xik dik /\
    (compatible j k q r xjk djk \/ (leftmost k r /\ xjk = fzero /\ djk = fzero)) /\
    fle (fdiv (fadd (fadd xij xik) xjk) (fadd (fadd dij dik) djk)) corrmin = false.
Definition good_pair (corrmin : f64) (ids : list Z) : Prop :=
  exists i j p q x d, 0 <= i /\ i < j /\ j < 4 /\ ids = numbers_at [(i, p); (j, q)] /\
    compatible i j p q x d /\ fle (fdiv x d) corrmin = false.

(** a reported quadruplet and the score it competes with: a good quadruplet, or the
    leftmost target of every camera, with score 0 *)
Definition quad_score (corrmin : f64) (ids : list Z) (s : f64) : Prop :=
  good_quad corrmin ids s \/
  (s = fzero /\ forall cam id, nth_error ids cam = Some id -> leftmost (Z.of_nat cam) id).

(** what is returned for target number id of camera cam: number and pixel position *)
Definition shown (cam : nat) (id : Z) (item : Z * f64 * f64) : Prop :=
  (id = -1 /\ item = (-1, f_of_Z (-999), f_of_Z (-999))) \/
  (0 <= id /\ exists t, target_at imgs (Z.of_nat cam) id = Some t /\ item = (id, t_x t, t_y t)).
(** [rows] (one per camera) shows exactly the matches [ms], in order *)
Definition shows (ms : list (list Z)) (rows : list (list (Z * f64 * f64))) : Prop :=
  length rows = 4%nat /\ forall cam row, nth_error rows cam = Some row ->
    Forall2 (fun ids item => exists id, nth_error ids cam = Some id /\ shown cam id item) ms row.

(** the inputs: four cameras with 1 to 10000 targets, usable numbers *)
Definition usable : Prop :=
  length imgs = 4%nat /\
  forall a ts, nth_error imgs a = Some ts -> 1 <= Z.of_nat (length ts) <= 10000 /\
    forall t, In t ts -> is_nan (fst (flat (Z.of_nat a) (t_x t) (t_y t))) = false /\
      small (t_n t) /\ small (t_nx t) /\ small (t_ny t) /\ small (t_sumg t) /\
      forall b, exists seg, epi (Z.of_nat a) b (fst (flat (Z.of_nat a) (t_x t) (t_y t)))
                                 (snd (flat (Z.of_nat a) (t_x t) (t_y t))) = Ok seg.

(** two matches share a target *)
Definition share (a b : list Z) : Prop :=
  exists cam id, 0 <= id /\ nth_error a cam = Some id /\ nth_error b cam = Some id.
End Targets.
