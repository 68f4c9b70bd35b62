(** Properties C32-C35: segmentation. *)
From Coq Require Import Reals.
From Verif Require Import Base F64 F64R Model_corr Model_seg Spec_seg Proof_seg Proof_seg2 Proof_seg3 Proof_seg4 Proof_seg5.
Local Open Scope Z_scope.

(** ===== C32: the targets are disjoint pixel sets with exact statistics =====
    For every image, every non-negative threshold and every configuration whose
    image size does not exceed the image: targ_rec returns the list of the
    accepted regions, where the regions are disjoint, above the threshold and in
    the range, each grown from a local maximum among the pixels of no earlier
    region; every local maximum of the image is in a region; targets carry the
    statistics of their region and the numbers 0, 1, 2, ... *)
Theorem C32_segmentation : forall img tp xmin xmax ymin ymax imx imy num_cam thres,
  imx <= im_w img -> imy <= im_h img -> pyget (tpar_gvthresh tp) num_cam = Ok thres -> 0 <= thres ->
  let L := clamped tp thres xmin xmax ymin ymax imx imy in
  blobs_below img L MAX_TARGETS ->
  exists Rs ts, targ_rec img tp xmin xmax ymin ymax imx imy num_cam = Ok ts /\
    segmentation img L Rs /\ reported img L Rs ts /\ NoDup (concat Rs) /\
    (forall q, In q (concat Rs) -> in_range L q /\ thres < grey img q) /\
    (forall p, in_range L p -> thres < grey img p -> (forall q, around p q -> grey img q <= grey img p) -> In p (concat Rs)) /\
    scanned img L (raster L) Rs.
Proof. exact targ_rec_ok. Qed.
Print Assumptions C32_segmentation.
(** the target numbers *)
Theorem C32_numbers : forall m L Rs ts, reported m L Rs ts ->
  forall k t, nth_error ts k = Some t -> t_pnr t = Z.of_nat k /\ t_tnr t = -1.
Proof. exact reported_numbers. Qed.
Print Assumptions C32_numbers.
(** each reported target is an accepted region, each accepted region is reported *)
Theorem C32_reported_iff : forall m L Rs ts, reported m L Rs ts ->
  (forall t, In t ts -> exists R k, In R Rs /\ accepted m L R /\ describes m L R k t) /\
  (forall R, In R Rs -> accepted m L R -> exists t k, In t ts /\ describes m L R k t).
Proof. exact reported_iff. Qed.
Print Assumptions C32_reported_iff.
(** the same for the numba kernel with a wait list of any capacity *)
Theorem C32_kernel : forall img L cap, range_ok img L -> 0 <= l_thres L -> blobs_below img L (Z.of_nat cap) ->
  exists Rs ts, fast_targ_rec img L cap = Ok ts /\
    segmentation img L Rs /\ reported img L Rs ts /\ NoDup (concat Rs) /\
    (forall q, In q (concat Rs) -> in_range L q /\ l_thres L < grey img q) /\
    (forall p, in_range L p -> l_thres L < grey img p -> (forall q, around p q -> grey img q <= grey img p) -> In p (concat Rs)) /\
    scanned img L (raster L) Rs.
Proof. exact kernel_ok. Qed.
Print Assumptions C32_kernel.

(** ===== C33: limits and bounding box =====
    [G] bounds the grey values (255 for uint8). The bound on sizes keeps the moments exact in binary64. *)
Theorem C33_limits : forall img tp xmin xmax ymin ymax imx imy num_cam thres G ts,
  imx <= im_w img -> imy <= im_h img -> pyget (tpar_gvthresh tp) num_cam = Ok thres -> 0 <= thres ->
  let L := clamped tp thres xmin xmax ymin ymax imx imy in
  blobs_below img L MAX_TARGETS -> (forall q, in_range L q -> grey img q <= G) ->
  Z.max (im_w img) (im_h img) * (area L * G) <= 2 ^ 51 ->
  targ_rec img tp xmin xmax ymin ymax imx imy num_cam = Ok ts ->
  forall t, In t ts ->
    tpar_nnmin tp <= t_n t <= tpar_nnmax tp /\ tpar_nxmin tp <= t_nx t <= tpar_nxmax tp /\
    tpar_nymin tp <= t_ny t <= tpar_nymax tp /\ tpar_sumg_min tp < t_sumg t + t_n t * thres /\ 0 < t_sumg t /\
    exists R lx hx ly hy, (forall q, In q R -> in_range L q) /\ Z.of_nat (length R) = t_n t /\
      span (map fst R) lx hx /\ t_nx t = hx - lx + 1 /\ span (map snd R) ly hy /\ t_ny t = hy - ly + 1 /\
      fin (t_x t) /\ (IZR lx + / 2 <= val (t_x t) <= IZR hx + / 2)%R /\
      fin (t_y t) /\ (IZR ly + / 2 <= val (t_y t) <= IZR hy + / 2)%R.
Proof. exact targ_rec_limits. Qed.
Print Assumptions C33_limits.
(** The grey value limit is not met by the reported sum: sumg_min is compared
    with the sum before the threshold is subtracted. A 4 by 4 image, threshold 9,
    one pixel of grey value 20: returned sumg 11 although sumg_min = 15. *)
Theorem C33_sumg_refuted : exists img tp, exists t,
  targ_rec img tp 0 4 0 4 4 4 0 = Ok [t] /\ t_sumg t <= tpar_sumg_min tp.
Proof. exact sumg_refuted. Qed.
Print Assumptions C33_sumg_refuted.

(** ===== C34: no access outside the image, termination ===== *)
Theorem C34_no_error : forall img tp xmin xmax ymin ymax imx imy num_cam thres,
  imx <= im_w img -> imy <= im_h img -> pyget (tpar_gvthresh tp) num_cam = Ok thres -> 0 <= thres ->
  blobs_below img (clamped tp thres xmin xmax ymin ymax imx imy) MAX_TARGETS ->
  exists ts, targ_rec img tp xmin xmax ymin ymax imx imy num_cam = Ok ts.
Proof. exact targ_rec_total. Qed.
Print Assumptions C34_no_error.
(** sufficient: a range of less than 20480 pixels *)
Theorem C34_small_range : forall m L n, area L < n -> blobs_below m L n.
Proof. exact small_range. Qed.
Print Assumptions C34_small_range.
(** for every image of every size: if the wait list had room for as many entries
    as the image has pixels, no access would be outside of the image or of the list and the scan would end *)
Theorem C34_any_image : forall img L, range_ok img L -> 0 <= l_thres L -> 0 <= im_h img -> 0 <= im_w img ->
  exists ts, fast_targ_rec img L (Z.to_nat (im_h img * im_w img) + 1) = Ok ts.
Proof. exact kernel_any_image. Qed.
Print Assumptions C34_any_image.
(** the limit is real: on a uniform bright image of 20483 x 20483 pixels the wait list of 20480 entries overflows,
    although image, range and threshold are valid *)
Theorem C34_overflow_refuted : forall tp, pyget (tpar_gvthresh tp) 0 = Ok 0 -> tpar_discont tp = 0 ->
  let img := mk_image 20483 20483 (fun _ _ => 1) in targ_rec img tp 0 20483 0 20483 20483 20483 0 = Exn IndexError.
Proof. intros tp T D. exact (uniform_overflow tp T D). Qed.
Print Assumptions C34_overflow_refuted.
Example C34_overflow_case : let tp := mk_targ_par [0] 0 1 100 1 100 1 100 1 in pyget (tpar_gvthresh tp) 0 = Ok 0 /\ tpar_discont tp = 0.
Proof. split; reflexivity. Qed.
(** the configured size is not checked against the image: with imx one larger than the width it fails *)
Theorem C34_too_large_refuted : exists img tp, im_w img = 4 /\ targ_rec img tp 0 5 0 4 5 4 0 = Exn IndexError.
Proof. exact too_large_refuted. Qed.
Print Assumptions C34_too_large_refuted.
(** without the limits set by targ_rec: fast_targ_rec called directly with a range that starts in column 0
    compares a pixel of that column with the opposite edge of the image *)
Theorem C34_wrap_refuted : exists L a b, l_xmin L = 0 /\ l_xmax L = 2 /\ im_w a = 4 /\ im_w b = 4 /\ im_h a = 3 /\ im_h b = 3 /\
  (forall y x, x < 3 -> im_px a y x = im_px b y x) /\
  exists ta tb, fast_targ_rec a L 20 = Ok ta /\ fast_targ_rec b L 20 = Ok tb /\ length ta = 1%nat /\ length tb = 0%nat.
Proof.
  exists (mk_limits 5 0 1 9 1 9 1 9 1 0 2 1 2), (mk_image 3 4 (fun y x => if (y =? 1) && (x =? 0) then 10 else 0)),
    (mk_image 3 4 (fun y x => if (y =? 1) && (x =? 0) then 10 else if (y =? 1) && (x =? 3) then 20 else 0)).
  repeat (split; [reflexivity|]). split.
  { intros y x H. cbn. destruct (Z.eqb_spec x 3); [lia|]. now rewrite andb_false_r. }
  eexists _, _. split; [vm_compute; reflexivity|]. split; [vm_compute; reflexivity|]. split; reflexivity.
Qed.
Print Assumptions C34_wrap_refuted.
(** a negative threshold makes the growing loop endless: cleared pixels (0) are above it.
    4 by 3 image of zeros, threshold -1, any wait list, any number of rounds *)
Theorem C34_negative_threshold_refuted : forall cap fuel, (2 <= cap)%nat ->
  rounds dark neg_limits fuel (mk_grow dark 0 1 1 1 1 1 1 1 ((1, 1) :: repeat (0, 0) (cap - 1)) 1) = Exn OutOfFuel.
Proof. exact negative_threshold. Qed.
Print Assumptions C34_negative_threshold_refuted.

(** ===== C35: peak_fit fails on every image with a peak =====
    not just for some: for every image with a local maximum above the threshold in the scanned range *)
Theorem C35_refuted : forall img thres xmin xmax ymin ymax imx imy i j,
  ymin <= i < ymax - 1 -> xmin <= j < xmax -> flat_peak img thres imx imy i j ->
  peak_fit img thres xmin xmax ymin ymax imx imy = Exn IndexError.
Proof. exact peak_fit_fails. Qed.
Print Assumptions C35_refuted.

(** without one the scan ends and nothing is found: the exception tells exactly that there is a peak *)
Theorem C35_no_peak : forall img thres xmin xmax ymin ymax imx imy, Z.of_nat (length img) = imx * imy ->
  1 <= xmin -> xmax <= imx - 1 -> 1 <= ymin -> ymax <= imy ->
  (forall i j, ymin <= i < ymax - 1 -> xmin <= j < xmax -> ~ flat_peak img thres imx imy i j) ->
  peak_fit img thres xmin xmax ymin ymax imx imy = Ok [].
Proof. exact peak_fit_none. Qed.
Print Assumptions C35_no_peak.
(** bright, but below its diagonal neighbour, which is outside the scanned range *)
Definition slope : list Z := [0;0;0;0; 0;9;0;0; 0;0;11;0; 0;0;0;12].
Example C35_no_peak_case : (forall i j, 1 <= i < 4 - 1 -> 1 <= j < 3 -> ~ flat_peak slope 5 4 4 i j) /\ peak_fit slope 5 1 3 1 4 4 4 = Ok [].
Proof.
  split; [|vm_compute; reflexivity]. intros i j I J (gv & E & T & _ & N). assert (i = 1 \/ i = 2) as [-> | ->] by lia; assert (j = 1 \/ j = 2) as [-> | ->] by lia; cbn in E; injection E as <-; try lia;
    destruct (N 5 ltac:(cbn; tauto)) as (g & G & L); cbn in G; injection G as <-; lia.
Qed.

(** ---- non-vacuity ---- *)
Definition small_img : image := mk_image 6 7 (fun y x =>
  nth (Z.to_nat x) (nth (Z.to_nat y) [[0;0;0;0;0;0;0];[0;9;12;0;0;0;0];[0;12;30;11;0;0;0];[0;0;10;0;0;15;0];[0;0;0;0;0;0;0];[0;0;0;0;0;0;0]] []) 0).
Definition small_tp : targ_par := mk_targ_par [8] 50 1 100 1 20 1 20 10.
Example C32_small : exists t1 t2, targ_rec small_img small_tp 0 7 0 6 7 6 0 = Ok [t1; t2] /\
  (t_pnr t1, t_n t1, t_nx t1, t_ny t1, t_sumg t1) = (0, 6, 3, 3, 36) /\ (t_pnr t2, t_n t2, t_nx t2, t_ny t2, t_sumg t2) = (1, 1, 1, 1, 7).
Proof.
  eexists _, _. split; [vm_compute; reflexivity|]. vm_compute. auto.
Qed.
Example C32_hyps : 7 <= im_w small_img /\ 6 <= im_h small_img /\ pyget (tpar_gvthresh small_tp) 0 = Ok 8 /\ 0 <= 8 /\
  blobs_below small_img (clamped small_tp 8 0 7 0 6 7 6) MAX_TARGETS /\
  Z.max (im_w small_img) (im_h small_img) * (area (clamped small_tp 8 0 7 0 6 7 6) * 255) <= 2 ^ 51.
Proof. repeat split; try (vm_compute; congruence). apply small_range. vm_compute. reflexivity. Qed.
Example C35_hyps : flat_peak [0;0;0;0; 0;9;0;0; 0;0;0;0; 0;0;0;0] 5 4 4 1 1 /\
  peak_fit [0;0;0;0; 0;9;0;0; 0;0;0;0; 0;0;0;0] 5 1 3 1 4 4 4 = Exn IndexError.
Proof.
  split; [|vm_compute; reflexivity]. exists 9. split; [reflexivity|]. split; [lia|]. split; [lia|].
  intros d Hd. cbn in Hd. repeat (destruct Hd as [<-|Hd]; [eexists; split; [reflexivity|lia]|]). destruct Hd.
Qed.
