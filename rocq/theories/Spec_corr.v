(** Independent specification vocabulary for the correspondence search. *)
From Coq Require Import Permutation Sorted.
From Verif Require Import Base F64 Model_corr.
Local Open Scope Z_scope.

(** numpy's sort order on floats: ascending, NaN last *)
Definition np_le (a b : f64) : bool := fle a b || is_nan b.

(** what is assumed of numpy's sort(order="corr"): a permutation, ascending in
    the score; how ties are broken is left open *)
Definition sorts (f : list ntupel -> list ntupel) : Prop :=
  forall l, Permutation (f l) l /\
            StronglySorted (fun a b => np_le (tcorr a) (tcorr b) = true) (f l).

(** clique [t] uses target [k] of camera [cam] *)
Definition member (num_cams : Z) (t : ntupel) (cam k : Z) : Prop :=
  0 <= cam < num_cams /\ 0 <= k /\ nth_error (tp t) (Z.to_nat cam) = Some k.

(** two cliques share a target *)
Definition clash (num_cams : Z) (a b : ntupel) : Prop :=
  exists cam k, member num_cams a cam k /\ member num_cams b cam k.

(** target [k] of camera [cam] carries a usage mark *)
Definition used (tus : list (list Z)) (cam k : Z) : Prop :=
  0 <= cam /\ 0 <= k /\
  exists row u, nth_error tus (Z.to_nat cam) = Some row /\
                nth_error row (Z.to_nat k) = Some u /\ 0 < u.

(** usage counters are never negative *)
Definition marks_ok (tus : list (list Z)) : Prop :=
  forall row u, In row tus -> In u row -> 0 <= u.

(** the sub-list of [l] at the positions where [mask] is true *)
Fixpoint select {A} (mask : list bool) (l : list A) : list A :=
  match mask, l with
  | b :: m, x :: t => if b then x :: select m t else select m t
  | _, _ => []
  end.

(** scores never increase along the list *)
Definition descending (l : list ntupel) : Prop :=
  forall i j a b, (i < j)%nat -> nth_error l i = Some a -> nth_error l j = Some b ->
                  np_le (tcorr b) (tcorr a) = true.

(** Target [i] of camera [a] has target [j] of camera [b] among its epipolar
    candidates, with correlation [x] and distance [d] to the epipolar line. *)
Definition entry (cl : adj) (a b i : Z) (c : correspond) : Prop :=
  0 <= a /\ 0 <= b /\ 0 <= i /\
  exists l1 l2, nth_error cl (Z.to_nat a) = Some l1 /\ nth_error l1 (Z.to_nat b) = Some l2 /\
                nth_error l2 (Z.to_nat i) = Some c.
Definition edge (cl : adj) (a b i j : Z) (x d : f64) : Prop :=
  exists c k, entry cl a b i c /\ Z.of_nat k < cn c /\
    nth_error (cp2 c) k = Some j /\ nth_error (ccorr c) k = Some x /\ nth_error (cdist c) k = Some d.

(** Well-formed candidate lists, as produced by match_pairs: one list per
    target, at most MAXCAND candidates, all of them existing targets of the
    other camera; unused slots hold 0. *)
Definition wf_entry (count_b : Z) (i : Z) (c : correspond) : Prop :=
  cp1 c = i /\ 0 <= cn c <= MAXCAND /\
  length (cp2 c) = Z.to_nat MAXCAND /\ length (ccorr c) = Z.to_nat MAXCAND /\
  length (cdist c) = Z.to_nat MAXCAND /\
  (forall k j, nth_error (cp2 c) k = Some j ->
     if Z.of_nat k <? cn c then 0 <= j < count_b else j = 0) /\
  (forall k x, cn c <= Z.of_nat k -> nth_error (ccorr c) k = Some x -> x = fzero) /\
  (forall k x, cn c <= Z.of_nat k -> nth_error (cdist c) k = Some x -> x = fzero).
Definition wf_adj (num_cams : Z) (counts : list Z) (cl : adj) : Prop :=
  length counts = Z.to_nat num_cams /\
  (forall n, In n counts -> 0 <= n) /\
  forall a b i na nb, 0 <= a < b -> b < num_cams ->
    nth_error counts (Z.to_nat a) = Some na -> nth_error counts (Z.to_nat b) = Some nb ->
    0 <= i < na -> exists c, entry cl a b i c /\ wf_entry nb i c.

(** candidates of one target are different targets *)
Definition distinct_cands (cl : adj) : Prop :=
  forall a b i c k k' j, entry cl a b i c -> Z.of_nat k < cn c -> Z.of_nat k' < cn c ->
    nth_error (cp2 c) k = Some j -> nth_error (cp2 c) k' = Some j -> k = k'.

(** A quadruplet: targets p1..p4 joined by all six candidate edges, scored by
    sum of correlations over sum of distances, better than [accept]. *)
Definition is_quad (cl : adj) (count0 : Z) (accept : f64) (t : ntupel) : Prop :=
  exists p1 p2 p3 p4 x12 d12 x13 d13 x14 d14 x23 d23 x24 d24 x34 d34,
    0 <= p1 < count0 /\
    edge cl 0 1 p1 p2 x12 d12 /\ edge cl 0 2 p1 p3 x13 d13 /\ edge cl 0 3 p1 p4 x14 d14 /\
    edge cl 1 2 p2 p3 x23 d23 /\ edge cl 1 3 p2 p4 x24 d24 /\ edge cl 2 3 p3 p4 x34 d34 /\
    tp t = [p1; p2; p3; p4] /\
    tcorr t = fdiv (fadd (fadd (fadd (fadd (fadd x12 x13) x14) x23) x24) x34)
                   (fadd (fadd (fadd (fadd (fadd d12 d13) d14) d23) d24) d34) /\
    fle (tcorr t) accept = false.

(** put values into a 4-slot vector filled with -2 *)
Definition slots (l : list (Z * Z)) : list Z :=
  map (fun cam => match find (fun q => fst q =? cam) l with Some q => snd q | None => -2 end)
      [0; 1; 2; 3].

(** A triplet of unused targets in cameras i1<i2<i3, joined by all three edges. *)
Definition is_triplet (cl : adj) (num_cams : Z) (counts : list Z) (tus : list (list Z))
    (accept : f64) (t : ntupel) : Prop :=
  exists i1 i2 i3 n1 p1 p2 p3 x12 d12 x13 d13 x23 d23,
    0 <= i1 /\ i1 < i2 /\ i2 < i3 /\ i3 < num_cams /\
    nth_error counts (Z.to_nat i1) = Some n1 /\ 0 <= p1 < n1 /\
    ~ used tus i1 p1 /\ ~ used tus i2 p2 /\ ~ used tus i3 p3 /\
    edge cl i1 i2 p1 p2 x12 d12 /\ edge cl i1 i3 p1 p3 x13 d13 /\ edge cl i2 i3 p2 p3 x23 d23 /\
    tp t = slots [(i1, p1); (i2, p2); (i3, p3)] /\
    tcorr t = fdiv (fadd (fadd x12 x13) x23) (fadd (fadd d12 d13) d23) /\
    fle (tcorr t) accept = false.

(** An unambiguous pair of unused targets: j is the only candidate of p1. *)
Definition is_pair (cl : adj) (num_cams : Z) (counts : list Z) (tus : list (list Z))
    (accept : f64) (t : ntupel) : Prop :=
  exists i1 i2 n1 p1 p2 x d,
    0 <= i1 /\ i1 < i2 /\ i2 < num_cams /\
    nth_error counts (Z.to_nat i1) = Some n1 /\ 0 <= p1 < n1 /\
    ~ used tus i1 p1 /\ ~ used tus i2 p2 /\
    edge cl i1 i2 p1 p2 x d /\ (forall c, entry cl i1 i2 p1 c -> cn c = 1) /\
    tp t = slots [(i1, p1); (i2, p2)] /\
    tcorr t = fdiv x d /\ fle (tcorr t) accept = false.

(** What three_camera_matching actually accepts: the third edge may also be a
    padding slot (value 0) of a not completely filled candidate list. *)
Definition padded_edge (cl : adj) (a b i j : Z) (x d : f64) : Prop :=
  edge cl a b i j x d \/
  (j = 0 /\ x = fzero /\ d = fzero /\ (forall x' d', ~ edge cl a b i j x' d') /\
   exists c, entry cl a b i c /\ cn c < MAXCAND).
Definition is_triplet_padded (cl : adj) (num_cams : Z) (counts : list Z) (tus : list (list Z))
    (accept : f64) (t : ntupel) : Prop :=
  exists i1 i2 i3 n1 p1 p2 p3 x12 d12 x13 d13 x23 d23,
    0 <= i1 /\ i1 < i2 /\ i2 < i3 /\ i3 < num_cams /\
    nth_error counts (Z.to_nat i1) = Some n1 /\ 0 <= p1 < n1 /\
    ~ used tus i1 p1 /\ ~ used tus i2 p2 /\ ~ used tus i3 p3 /\
    edge cl i1 i2 p1 p2 x12 d12 /\ edge cl i1 i3 p1 p3 x13 d13 /\ padded_edge cl i2 i3 p2 p3 x23 d23 /\
    tp t = slots [(i1, p1); (i2, p2); (i3, p3)] /\
    tcorr t = fdiv (fadd (fadd x12 x13) x23) (fadd (fadd d12 d13) d23) /\
    fle (tcorr t) accept = false.

(** the usage table covers every target (num_cams rows of NMAX marks, and no
    camera has more than NMAX targets) *)
Definition table_ok (num_cams : Z) (counts : list Z) (tus : list (list Z)) : Prop :=
  length tus = Z.to_nat num_cams /\
  (forall n, In n counts -> n <= NMAX) /\
  (forall row, In row tus -> length row = Z.to_nat NMAX).

(** scratch entries have four target slots *)
Definition scratch_ok (sc : list ntupel) : Prop := forall t, In t sc -> length (tp t) = 4%nat.

(** the scratch array with its first entries replaced by [found] *)
Definition overwrite (sc found : list ntupel) : list ntupel :=
  found ++ skipn (length found) sc.
(** the same when only the first [num_cams] slots of each entry are written *)
Fixpoint overwrite_nc (num_cams : nat) (sc found : list ntupel) {struct found} : list ntupel :=
  match found, sc with
  | t :: f, old :: s =>
      {| tp := firstn num_cams (tp t) ++ skipn num_cams (tp old); tcorr := tcorr t |}
      :: overwrite_nc num_cams s f
  | _, s => s
  end.

(** corrected coordinate lists and targets fit the target counts: per camera
    as many coordinates and targets as counted; the pnr of the coordinates are
    the target numbers, each once. *)
Definition coords_ok (num_cams : Z) (counts : list Z) (corrected : list (list coord2d)) (targets : list (list target)) : Prop :=
  length corrected = Z.to_nat num_cams /\ length targets = Z.to_nat num_cams /\
  forall cam n cs ts, nth_error counts cam = Some n -> nth_error corrected cam = Some cs ->
    nth_error targets cam = Some ts ->
    length cs = Z.to_nat n /\ length ts = Z.to_nat n /\
    (forall c, In c cs -> 0 <= c_pnr c < n) /\ NoDup (map c_pnr cs).

(** target [p] of camera [cam] belongs to clique number [i]: the clique names a
    position in the x-sorted coordinate list, whose pnr is the target number *)
Definition in_clique (num_cams : Z) (cliques : list ntupel) (corrected : list (list coord2d)) (i cam p : Z) : Prop :=
  0 <= i /\ exists t k row c, nth_error cliques (Z.to_nat i) = Some t /\ member num_cams t cam k /\
    nth_error corrected (Z.to_nat cam) = Some row /\ nth_error row (Z.to_nat k) = Some c /\ c_pnr c = p.

Definition target_at (targets : list (list target)) (cam p : Z) : option target :=
  match nth_error targets (Z.to_nat cam) with
  | Some row => nth_error row (Z.to_nat p)
  | None => None
  end.

(** the clique (0,0,0,0) with score 0: the initial content of the scratch array *)
Definition blank : ntupel := {| tp := [0; 0; 0; 0]; tcorr := fzero |}.

(** pairwise disjoint *)
Definition disjoint_cliques (num_cams : Z) (l : list ntupel) : Prop :=
  forall i j a b, i <> j -> nth_error l i = Some a -> nth_error l j = Some b -> ~ clash num_cams a b.

(** the usage table has one row of NMAX marks per camera *)
Definition table_dims (nc : Z) (tus : list (list Z)) : Prop :=
  length tus = Z.to_nat nc /\ forall row, In row tus -> length row = Z.to_nat NMAX.

(** the clique has a slot for every camera and its target numbers are below NMAX *)
Definition fits (nc : Z) (c : ntupel) : Prop :=
  (Z.to_nat nc <= length (tp c))%nat /\ forall cam k, member nc c cam k -> k < NMAX.

(** the clique names at least one target *)
Definition has_member (nc : Z) (c : ntupel) : Prop := exists cam k, member nc c cam k.

(** four slots, at least one target, and every target number mentioned exists *)
Definition in_counts (nc : Z) (counts : list Z) (t : ntupel) : Prop :=
  length (tp t) = 4%nat /\ has_member nc t /\
  forall cam k, member nc t cam k -> exists n, nth_error counts (Z.to_nat cam) = Some n /\ k < n.

(** what the user is told about clique [t] in camera [cam]: the id (and pixel
    position) of its target, or -1 (and -999) if the clique has none there *)
Definition reported (flat : list (list coord2d)) (targets : list (list target)) (t : ntupel) (cam : nat)
    (item : Z * f64 * f64) : Prop :=
  exists k, nth_error (tp t) cam = Some k /\
    ((k < 0 /\ item = (CORRES_NONE, f_of_Z PT_UNUSED, f_of_Z PT_UNUSED)) \/
     (0 <= k /\ exists row c tgt, nth_error flat cam = Some row /\ nth_error row (Z.to_nat k) = Some c /\
        target_at targets (Z.of_nat cam) (c_pnr c) = Some tgt /\ item = (c_pnr c, t_x tgt, t_y tgt))).

(** per camera one column per clique, in order *)
Definition reports (num_cams : nat) (flat : list (list coord2d)) (targets : list (list target))
    (cliques : list ntupel) (rows : list (list (Z * f64 * f64))) : Prop :=
  length rows = num_cams /\
  forall cam row, nth_error rows cam = Some row ->
    Forall2 (fun t item => reported flat targets t cam item) cliques row.

(** every candidate list found fits: existing targets, distinct, at most MAXCAND *)
Definition cands_ok (cands : Z -> Z -> Z -> result (list (Z * f64 * f64))) (nc : Z) (counts : list Z) : Prop :=
  forall a b i na nb, 0 <= a < b -> b < nc ->
    nth_error counts (Z.to_nat a) = Some na -> nth_error counts (Z.to_nat b) = Some nb -> 0 <= i < na ->
    exists l, cands a b i = Ok l /\ (length l <= 40)%nat /\
      (forall x, In x l -> 0 <= fst (fst x) < nb) /\ NoDup (map (fun x => fst (fst x)) l).

(** a pair [t] as it is stored when there are only [nc] cameras: the slots of absent cameras keep the 0 of the zeroed array *)
Definition stored (nc : Z) (t c : ntupel) : Prop :=
  tp c = firstn (Z.to_nat nc) (tp t) ++ repeat 0 (4 - Z.to_nat nc) /\ tcorr c = tcorr t.

(** the target with another correspondence number *)
Definition with_number (t : target) (i : Z) : target :=
  mk_target (t_pnr t) (t_x t) (t_y t) (t_n t) (t_nx t) (t_ny t) (t_sumg t) i.
(** the targets after the call: those of clique [i] carry tnr [i], all others are unchanged *)
Definition named_by_clique (nc : Z) (cliques : list ntupel) (corrected : list (list coord2d)) (targets tg : list (list target)) : Prop :=
  length tg = length targets /\
  forall cam k, 0 <= cam -> 0 <= k ->
    match target_at targets cam k with
    | None => target_at tg cam k = None
    | Some old =>
       (exists i, i < Z.of_nat (length cliques) /\ in_clique nc cliques corrected i cam k /\
          (forall j, in_clique nc cliques corrected j cam k -> j = i) /\
          target_at tg cam k = Some (with_number old i)) \/
       ((forall i, ~ in_clique nc cliques corrected i cam k) /\ target_at tg cam k = Some old)
    end.
