(** Properties C35 (bookkeeping) and C74: the detection depends on the pixels of a target and around it only. *)
From Coq Require Import Permutation.
From Verif Require Import Base F64 Model_corr Model_seg Spec_seg Proof_seg Proof_seg2 Proof_seg3 Proof_seg4 Proof_seg6.
Local Open Scope Z_scope.

(** check_touch, the bookkeeping of peak_fit: on a list of at least four entries of
    which n <= 3 are in use, a label that is 0, the peak's own, already noted, or a
    fourth one leaves the noted labels as they are; any other is added *)
Theorem C35_touch : forall touch n p1 p2, (4 <= length touch)%nat -> 0 <= n <= 3 ->
  exists touch' n', check_touch touch n p1 p2 = Ok (touch', n') /\ length touch' = length touch /\ 0 <= n' <= 3 /\
    let old := firstn (Z.to_nat n) touch in
    ((p2 = 0 \/ p2 = p1 \/ In p2 old \/ n = 3) -> firstn (Z.to_nat n') touch' = old) /\
    (p2 <> 0 -> p2 <> p1 -> ~ In p2 old -> n < 3 -> firstn (Z.to_nat n') touch' = old ++ [p2]).
Proof. exact touch_ok. Qed.
Print Assumptions C35_touch.
(** but the list of a new Peak is empty: the first neighbour with another label raises *)
Theorem C35_touch_refuted : forall p1 p2, p2 <> 0 -> p2 <> p1 -> check_touch [] 0 p1 p2 = Exn IndexError.
Proof. exact touch_fresh. Qed.
Print Assumptions C35_touch_refuted.
Example C35_touch_case : check_touch [7; 9; 0; 0] 2 1 4 = Ok ([7; 9; 4; 0], 3) /\ check_touch [7; 9; 4; 0] 3 1 5 = Ok ([7; 9; 4; 5], 3).
Proof. split; reflexivity. Qed.

(** ===== C74: target_recognition on a subrange =====
    a region of detection that ends outside the image is rejected, whatever the image and the parameters *)
Theorem C74_rejects : forall img tp cam imx imy sx sy,
  im_w img < snd (requested imx sx) \/ im_h img < snd (requested imy sy) ->
  target_recognition img tp cam imx imy sx sy = Exn ValueError.
Proof. exact recognition_rejects. Qed.
Print Assumptions C74_rejects.
(** any other request, with a configured size that fits the image, is answered by
    the regions found in raster order in the requested range, kept one pixel away from the borders of the image *)
Theorem C74_found : forall img tp cam imx imy sx sy thres,
  imx <= im_w img -> imy <= im_h img -> snd (requested imx sx) <= im_w img -> snd (requested imy sy) <= im_h img ->
  pyget (tpar_gvthresh tp) cam = Ok thres -> 0 <= thres ->
  let L := scan_range tp thres imx imy sx sy in
  blobs_below img L MAX_TARGETS ->
  exists Rs ts, target_recognition img tp cam imx imy sx sy = Ok ts /\ scanned img L (raster L) Rs /\ reported img L Rs ts.
Proof. exact recognition_ok. Qed.
Print Assumptions C74_found.
(** the regions of a scan are determined by the image and the limits, up to the order of the pixels in a region *)
Theorem C74_determined : forall m L ps Rs Rs', scanned m L ps Rs -> scanned m L ps Rs' -> Forall2 (@Permutation pixel) Rs Rs'.
Proof. intros m L ps Rs Rs' S S'. exact (scanned_unique m L ps Rs S Rs' S'). Qed.
Print Assumptions C74_determined.
(** two images that agree on a set B of pixels and around it, two requests (with
    possibly different configured sizes) that contain B; nothing above the threshold touches B in either
    scanned range: both runs find the same regions in B, in the same order, accept the same of them and
    report targets for them that are equal but for their number - whatever else is in the images *)
Theorem C74_local : forall img img' tp cam imx imy sx sy imx' imy' sx' sy' thres B ts ts',
  imx <= im_w img -> imy <= im_h img -> snd (requested imx sx) <= im_w img -> snd (requested imy sy) <= im_h img ->
  imx' <= im_w img' -> imy' <= im_h img' -> snd (requested imx' sx') <= im_w img' -> snd (requested imy' sy') <= im_h img' ->
  pyget (tpar_gvthresh tp) cam = Ok thres -> 0 <= thres ->
  let L := scan_range tp thres imx imy sx sy in
  let L' := scan_range tp thres imx' imy' sx' sy' in
  blobs_below img L MAX_TARGETS -> blobs_below img' L' MAX_TARGETS ->
  agree_at img img' B -> isolated img L B -> isolated img' L' B ->
  (forall p, B p = true -> in_range L p /\ in_range L' p) ->
  target_recognition img tp cam imx imy sx sy = Ok ts -> target_recognition img' tp cam imx' imy' sx' sy' = Ok ts' ->
  exists Rs Rs', scanned img L (raster L) Rs /\ reported img L Rs ts /\ scanned img' L' (raster L') Rs' /\ reported img' L' Rs' ts' /\
    Forall2 (@Permutation pixel) (regions_in B Rs) (regions_in B Rs') /\
    forall R, In R (regions_in B Rs) -> (forall q, In q R -> B q = true) /\
      ((accepted img L R <-> accepted img' L' R) /\
      (accepted img L R -> exists t t' k k', In t ts /\ In t' ts' /\ describes img L R k t /\ describes img' L' R k' t' /\ same_target t t')).
Proof. exact recognition_local. Qed.
Print Assumptions C74_local.
(** a subrange that holds every bright pixel of the interior of the image gives the targets of the whole image, bit by bit *)
Theorem C74_crop : forall img tp cam imx imy sx sy thres,
  imx <= im_w img -> imy <= im_h img -> snd (requested imx sx) <= im_w img -> snd (requested imy sy) <= im_h img ->
  pyget (tpar_gvthresh tp) cam = Ok thres -> 0 <= thres ->
  blobs_below img (scan_range tp thres imx imy None None) MAX_TARGETS ->
  (forall p, 1 <= fst p < imx - 1 -> 1 <= snd p < imy - 1 -> thres < grey img p ->
     fst (requested imx sx) <= fst p < snd (requested imx sx) /\ fst (requested imy sy) <= snd p < snd (requested imy sy)) ->
  target_recognition img tp cam imx imy sx sy = target_recognition img tp cam imx imy None None.
Proof. exact recognition_crop. Qed.
Print Assumptions C74_crop.
(** the check does not cover the configured size: an image of 4 by 4 pixels, a
    configured width of 6, a requested range 0..4: accepted, and an access outside the image follows *)
Theorem C74_size_refuted : exists img tp, im_w img = 4 /\ im_h img = 4 /\
  snd (requested 6 (Some (0, 4))) <= im_w img /\ snd (requested 4 None) <= im_h img /\
  target_recognition img tp 0 6 4 (Some (0, 4)) None = Exn IndexError.
Proof.
  exists (mk_image 4 4 (fun _ x => x)), (mk_targ_par [0] 100 1 100 1 20 1 20 1). repeat (split; [vm_compute; congruence|]). vm_compute. reflexivity.
Qed.
Print Assumptions C74_size_refuted.
(** a target cut by the border of a subrange is reported with the pixels inside only: the claim needs the isolation.
    a row of three bright pixels, cut after two *)
Theorem C74_cut_refuted : exists img tp t t', im_w img = 6 /\ im_h img = 3 /\
  target_recognition img tp 0 6 3 None None = Ok [t] /\ target_recognition img tp 0 6 3 (Some (0, 3)) None = Ok [t'] /\
  t_n t = 3 /\ t_n t' = 2 /\ t_pnr t = t_pnr t' /\ t_x t <> t_x t'.
Proof.
  exists (mk_image 3 6 (fun y x => if (y =? 1) && (1 <=? x) && (x <=? 3) then 10 else 0)), (mk_targ_par [5] 100 1 100 1 20 1 20 1).
  eexists _, _. split; [reflexivity|]. split; [reflexivity|]. split; [vm_compute; reflexivity|]. split; [vm_compute; reflexivity|].
  split; [reflexivity|]. split; [reflexivity|]. split; [reflexivity|]. vm_compute. discriminate.
Qed.
Print Assumptions C74_cut_refuted.

(** ---- non-vacuity: two blobs, one in B; a subrange with the second only ---- *)
Definition two_img : image := mk_image 6 7 (fun y x =>
  nth (Z.to_nat x) (nth (Z.to_nat y) [[0;0;0;0;0;0;0];[0;9;12;0;0;0;0];[0;12;30;11;0;0;0];[0;0;10;0;0;15;0];[0;0;0;0;0;0;0];[0;0;0;0;0;0;0]] []) 0).
Definition two_tp : targ_par := mk_targ_par [8] 50 1 100 1 20 1 20 10.
Example C74_two : exists t1 t2 t3, target_recognition two_img two_tp 0 7 6 None None = Ok [t1; t2] /\
  target_recognition two_img two_tp 0 7 6 (Some (4, 7)) (Some (2, 5)) = Ok [t3] /\ t_pnr t2 = 1 /\ t_pnr t3 = 0 /\ t_x t2 = t_x t3 /\ t_sumg t3 = 7.
Proof. eexists _, _, _. split; [vm_compute; reflexivity|]. split; [vm_compute; reflexivity|]. vm_compute. auto. Qed.
Example C74_local_hyps : let B := fun p : pixel => (fst p =? 5) && (snd p =? 3) in
  let L := scan_range two_tp 8 7 6 None None in let L' := scan_range two_tp 8 7 6 (Some (4, 7)) (Some (2, 5)) in
  agree_at two_img two_img B /\ isolated two_img L B /\ isolated two_img L' B /\ (forall p, B p = true -> in_range L p /\ in_range L' p) /\
  blobs_below two_img L MAX_TARGETS /\ blobs_below two_img L' MAX_TARGETS.
Proof.
  cbv zeta.
  assert (forall L p q, l_thres L = 8 -> (fst p =? 5) && (snd p =? 3) = true -> around p q -> (fst q =? 5) && (snd q =? 3) = false -> grey two_img q <= l_thres L) as H.
  { intros L [a b] [c d] T Bp (N & X & Y) Bq. cbn [fst snd] in *. rewrite T.
    assert (a = 5) by lia. assert (b = 3) by lia. subst a b.
    assert (c = 4 \/ c = 5 \/ c = 6) as [->|[->| ->]] by lia; assert (d = 2 \/ d = 3 \/ d = 4) as [->|[->| ->]] by lia; vm_compute; congruence. }
  split; [intros p _; auto|]. split; [intros p q Bp Aq _ Bq; apply (H _ p q); auto|]. split; [intros p q Bp Aq _ Bq; apply (H _ p q); auto|].
  split; [intros [a b] Bp; cbn [fst snd] in Bp; unfold in_range; cbn; lia|].
  split; apply small_range; vm_compute; reflexivity.
Qed.
Example C74_crop_hyps : forall p, 1 <= fst p < 7 - 1 -> 1 <= snd p < 6 - 1 -> 8 < grey two_img p ->
  fst (requested 7 (Some (1, 6))) <= fst p < snd (requested 7 (Some (1, 6))) /\ fst (requested 6 (Some (1, 4))) <= snd p < snd (requested 6 (Some (1, 4))).
Proof.
  intros [x y] X Y G. cbn [fst snd requested] in *. split; [lia|].
  assert (y = 4 \/ y < 4) as [->|] by lia; [|lia]. exfalso. revert G. unfold grey, two_img. cbn [im_px fst snd].
  assert (x = 1 \/ x = 2 \/ x = 3 \/ x = 4 \/ x = 5) as [->|[->|[->|[->| ->]]]] by lia; vm_compute; congruence.
Qed.
