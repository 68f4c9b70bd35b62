(** Specification of segmentation: regions as sets of pixels. *)
From Coq Require Import Permutation.
From Verif Require Import Base F64 Model_corr Model_seg.
Local Open Scope Z_scope.

(** a pixel is (x, y) *)
Definition pixel := (Z * Z)%type.
Definition grey (m : image) (p : pixel) : Z := im_px m (snd p) (fst p).
Definition in_range (L : limits) (p : pixel) : Prop :=
  l_xmin L <= fst p < l_xmax L /\ l_ymin L <= snd p < l_ymax L.
(** the scanned range keeps a border of one pixel inside the image *)
Definition range_ok (m : image) (L : limits) : Prop :=
  1 <= l_xmin L /\ l_xmax L <= im_w m - 1 /\ 1 <= l_ymin L /\ l_ymax L <= im_h m - 1.
(** the four neighbours *)
Definition neighbour (p q : pixel) : Prop :=
  q = (fst p - 1, snd p) \/ q = (fst p + 1, snd p) \/ q = (fst p, snd p - 1) \/ q = (fst p, snd p + 1).
(** a region may grow from pixel p to q: q is a neighbour in the range, above
    the threshold, and q and all its neighbours are brighter than p by at most the discontinuity *)
Definition admits (m : image) (L : limits) (p q : pixel) : Prop :=
  neighbour p q /\ in_range L q /\ l_thres L < grey m q /\ grey m q <= grey m p + l_disco L /\
  forall r, neighbour q r -> grey m r <= grey m p + l_disco L.
(** pixels reached from s by growing over free pixels *)
Inductive reach (m : image) (L : limits) (free : pixel -> Prop) (s : pixel) : pixel -> Prop :=
| reach_start : reach m L free s s
| reach_grow p q : reach m L free s p -> admits m L p q -> free q -> reach m L free s q.

(** the eight pixels around p *)
Definition around (p q : pixel) : Prop := q <> p /\ Z.abs (fst q - fst p) <= 1 /\ Z.abs (snd q - snd p) <= 1.
(** s starts a region: above threshold, in the range, and not darker than any of
    the surrounding pixels that are still free *)
Definition peak (m : image) (L : limits) (free : pixel -> Prop) (s : pixel) : Prop :=
  in_range L s /\ free s /\ l_thres L < grey m s /\ forall q, around s q -> free q -> grey m q <= grey m s.
(** R (without repetition) is the region of a peak among the free pixels *)
Definition region (m : image) (L : limits) (free : pixel -> Prop) (R : list pixel) : Prop :=
  NoDup R /\ exists s, peak m L free s /\ forall q, In q R <-> reach m L free s q.

Definition zsum (l : list Z) : Z := fold_right Z.add 0 l.
(** lo .. hi is the smallest interval with all values *)
Definition span (l : list Z) (lo hi : Z) : Prop := In lo l /\ In hi l /\ forall v, In v l -> lo <= v <= hi.
Definition excess (m : image) (L : limits) (p : pixel) : Z := grey m p - l_thres L.
(** the limits of the target parameters, as the code applies them: sumg_min is
    compared with the sum of the full grey values *)
Definition accepted (m : image) (L : limits) (R : list pixel) : Prop :=
  l_nnmin L <= Z.of_nat (length R) <= l_nnmax L /\
  (exists lo hi, span (map fst R) lo hi /\ l_nxmin L <= hi - lo + 1 <= l_nxmax L) /\
  (exists lo hi, span (map snd R) lo hi /\ l_nymin L <= hi - lo + 1 <= l_nymax L) /\
  l_sumg_min L < zsum (map (grey m) R).
(** t is target number k with the statistics of R *)
Definition describes (m : image) (L : limits) (R : list pixel) (k : nat) (t : target) : Prop :=
  t_pnr t = Z.of_nat k /\ t_tnr t = -1 /\ t_n t = Z.of_nat (length R) /\
  (exists lo hi, span (map fst R) lo hi /\ t_nx t = hi - lo + 1) /\
  (exists lo hi, span (map snd R) lo hi /\ t_ny t = hi - lo + 1) /\
  t_sumg t = zsum (map (excess m L) R) /\
  t_x t = fadd (fdiv (f_of_Z (zsum (map (fun p => fst p * excess m L p) R))) (f_of_Z (t_sumg t))) (fdiv (f_of_Z 1) (f_of_Z 2)) /\
  t_y t = fadd (fdiv (f_of_Z (zsum (map (fun p => snd p * excess m L p) R))) (f_of_Z (t_sumg t))) (fdiv (f_of_Z 1) (f_of_Z 2)).
(** the targets reported for a sequence of regions: the accepted ones, numbered 0, 1, 2, ... *)
Inductive reported (m : image) (L : limits) : list (list pixel) -> list target -> Prop :=
| rep_nil : reported m L [] []
| rep_take Rs ts R t : reported m L Rs ts -> accepted m L R -> describes m L R (length ts) t -> reported m L (Rs ++ [R]) (ts ++ [t])
| rep_drop Rs ts R : reported m L Rs ts -> ~ accepted m L R -> reported m L (Rs ++ [R]) ts.
(** every region is grown among the pixels not in an earlier one *)
Definition segmentation (m : image) (L : limits) (Rs : list (list pixel)) : Prop :=
  forall Rs1 R Rs2, Rs = Rs1 ++ R :: Rs2 -> region m L (fun p => ~ In p (concat Rs1)) R.
(** the regions found while scanning pixels one after the other: a pixel that is a
    peak among the pixels of no earlier region starts a region, any other does not *)
Inductive scanned (m : image) (L : limits) : list pixel -> list (list pixel) -> Prop :=
| sc_nil : scanned m L [] []
| sc_peak ps p Rs R : scanned m L ps Rs -> peak m L (fun q => ~ In q (concat Rs)) p -> NoDup R ->
    (forall q, In q R <-> reach m L (fun q => ~ In q (concat Rs)) p q) -> scanned m L (ps ++ [p]) (Rs ++ [R])
| sc_none ps p Rs : scanned m L ps Rs -> ~ peak m L (fun q => ~ In q (concat Rs)) p -> scanned m L (ps ++ [p]) Rs.
(** row by row, from left to right *)
Definition raster (L : limits) : list pixel := flat_map (fun y => map (fun x => (x, y)) (zrange (l_xmin L) (l_xmax L))) (zrange (l_ymin L) (l_ymax L)).
(** a set of pixels that nothing bright touches: every pixel around it in the range is at or below the threshold *)
Definition isolated (m : image) (L : limits) (B : pixel -> bool) : Prop :=
  forall p q, B p = true -> around p q -> in_range L q -> B q = false -> grey m q <= l_thres L.
(** two images agree on B and on the pixels around it *)
Definition agree_at (m m' : image) (B : pixel -> bool) : Prop :=
  forall p, B p = true -> grey m' p = grey m p /\ forall q, around p q -> grey m' q = grey m q.
(** the regions with a pixel in B, in the order they were found *)
Definition regions_in (B : pixel -> bool) (Rs : list (list pixel)) : list (list pixel) := filter (existsb B) Rs.
(** targets equal but for their number *)
Definition same_target (t t' : target) : Prop :=
  t_x t' = t_x t /\ t_y t' = t_y t /\ t_n t' = t_n t /\ t_nx t' = t_nx t /\ t_ny t' = t_ny t /\ t_sumg t' = t_sumg t /\ t_tnr t' = t_tnr t.
(** the limits for targets and growing are the same, the ranges may differ *)
Definition same_rules (L L' : limits) : Prop :=
  l_thres L' = l_thres L /\ l_disco L' = l_disco L /\ l_nnmin L' = l_nnmin L /\ l_nnmax L' = l_nnmax L /\
  l_nxmin L' = l_nxmin L /\ l_nxmax L' = l_nxmax L /\ l_nymin L' = l_nymin L /\ l_nymax L' = l_nymax L /\ l_sumg_min L' = l_sumg_min L.
(** no more than n pixels can be reached from a single one *)
Definition blobs_below (m : image) (L : limits) (n : Z) : Prop :=
  forall s R, NoDup R -> (forall q, In q R -> reach m L (fun _ => True) s q) -> Z.of_nat (length R) <= n.
(** number of pixels in the range *)
Definition area (L : limits) : Z := Z.max 0 (l_xmax L - l_xmin L) * Z.max 0 (l_ymax L - l_ymin L).
(** the range targ_rec scans: at least one pixel away from the configured image borders *)
Definition clamped (tp : targ_par) (thres xmin xmax ymin ymax imx imy : Z) : limits :=
  mk_limits thres (tpar_discont tp) (tpar_nnmin tp) (tpar_nnmax tp) (tpar_nxmin tp) (tpar_nxmax tp)
    (tpar_nymin tp) (tpar_nymax tp) (tpar_sumg_min tp) (Z.max 1 xmin) (Z.min (imx - 1) xmax) (Z.max 1 ymin) (Z.min (imy - 1) ymax).
(** the coordinates asked for: the subrange if given, else the configured size *)
Definition requested (size : Z) (sub : option (Z * Z)) : Z * Z := match sub with None => (0, size) | Some r => r end.
(** the range target_recognition scans *)
Definition scan_range (tp : targ_par) (thres imx imy : Z) (sx sy : option (Z * Z)) : limits :=
  clamped tp thres (fst (requested imx sx)) (snd (requested imx sx)) (fst (requested imy sy)) (snd (requested imy sy)) imx imy.
(** a bright local maximum at row i, column j of the flat image *)
Definition flat_peak (img : list Z) (thres imx imy i j : Z) : Prop :=
  let n := i * imx + j in
  exists gv, pyget img n = Ok gv /\ thres < gv /\ 0 <= n < imx * imy /\
  forall d, In d [-1; 1; - imx; imx; - imx - 1; imx - 1; - imx + 1; imx + 1] -> exists g, pyget img (n + d) = Ok g /\ g <= gv.
