(** C92: what image preparation does to an image. *)
From Verif Require Import Base F64 Model_corr Model_seg Model_img Spec_img Proof_img.
Local Open Scope Z_scope.

(** ===== C92 =====
    The prepared image has the size of the original; each pixel is the original byte with the bits of the box mean added,
    a byte again and never darker; the box mean is the mean over the window (black outside the image), less than two
    grey levels below the exact mean. *)
Theorem C92_value : forall m dim fhp, bytes m -> 0 <= dim -> fhp <> 1 -> fhp <> 2 ->
  exists out, prepare_image2 true m dim fhp None = Ok out /\ im_h out = im_h m /\ im_w out = im_w m /\
  forall y x, inside m y x -> exists mean, im_px out y x = Z.lor (im_px m y x) mean /\ im_px m y x <= im_px out y x < 256 /\ 0 <= mean < 256 /\
    let n := 2 * dim + 1 in n * n * mean <= window_sum m (Z.to_nat dim) y x <= n * n * mean + 2 * (n * (n - 1)).
Proof.
  intros m dim fhp B D F1 F2. exists (ored m dim). split.
  { unfold prepare_image2. cbn [negb]. destruct (Z.eqb_spec fhp 1); [lia|]. destruct (Z.eqb_spec fhp 2); [lia|]. reflexivity. }
  split; [reflexivity|]. split; [reflexivity|]. intros y x I. specialize (B y x I) as P. exists (box m (Z.to_nat dim) y x).
  pose proof (box_bytes m (Z.to_nat dim) y x B) as Q. pose proof (box_mean m (Z.to_nat dim) y x) as M. cbv zeta in M. rewrite Z2Nat.id in M by lia.
  assert (E : im_px (ored m dim) y x = Z.lor (im_px m y x) (box m (Z.to_nat dim) y x)).
  { rewrite ored_px. destruct (Z.leb_spec 1 dim); [reflexivity|]. assert (dim = 0) by lia. subst dim. change (Z.to_nat 0) with O. rewrite (box_flat m 0 y x (im_px m y x)).
    - symmetry. apply Z.lor_diag.
    - cbn [Z.of_nat]. intros a b A C. replace (y + a) with y by lia. replace (x + b) with x by lia. now apply level_in. }
  split; [exact E|]. split; [rewrite E; now apply lor_byte|]. split; [exact Q|]. cbv zeta. lia.
Qed.
Print Assumptions C92_value.
(** Smoothing of the result (filter_hp = 1): the mean over the 3x3 window of the image prepared without it. *)
Theorem C92_smoothed : forall m dim, bytes m -> 0 <= dim ->
  exists hp out, prepare_image2 true m dim 0 None = Ok hp /\ prepare_image2 true m dim 1 None = Ok out /\ im_h out = im_h m /\ im_w out = im_w m /\
  forall y x, inside m y x -> 0 <= im_px out y x < 256 /\ 9 * im_px out y x <= window_sum hp 1 y x <= 9 * im_px out y x + 12.
Proof.
  intros m dim B D. exists (ored m dim), (uniform_filter (ored m dim) 3). split; [reflexivity|]. split; [reflexivity|].
  destruct (uniform_size (ored m dim) 3) as [-> ->]. split; [reflexivity|]. split; [reflexivity|]. intros y x I.
  change 3 with (2 * Z.of_nat 1 + 1). rewrite uniform_px by lia. split; [apply box_bytes; now apply ored_bytes|].
  pose proof (box_mean (ored m dim) 1 y x) as M. cbv zeta in M. cbn [Z.of_nat Pos.of_succ_nat] in M. lia.
Qed.
Print Assumptions C92_smoothed.
(** A pixel depends on its surroundings only, whatever the rest of the two images, their sizes and the place. *)
Theorem C92_local : forall m m' y x y' x' dim fhp out out', fhp <> 2 -> inside m y x ->
  looks_like m y x m' y' x' (reach dim fhp) ->
  prepare_image2 true m dim fhp None = Ok out -> prepare_image2 true m' dim fhp None = Ok out' -> im_px out y x = im_px out' y' x'.
Proof.
  intros m m' y x y' x' dim fhp out out' F2 I L. unfold prepare_image2, reach in *. cbn [negb]. fold (ored m dim) (ored m' dim).
  destruct (Z.eqb_spec fhp 1) as [F|F].
  - intros [= <-] [= <-]. change 3 with (2 * Z.of_nat 1 + 1). rewrite !uniform_px by lia. apply box_local. apply ored_local; [lia|exact L].
  - destruct (Z.eqb_spec fhp 2); [lia|]. intros [= <-] [= <-]. apply (ored_local _ _ _ _ _ _ _ 0) in L; [|lia].
    destruct (L 0 0 ltac:(lia) ltac:(lia)) as [_ P]. rewrite !Z.add_0_r in P. now apply P.
Qed.
Print Assumptions C92_local.
(** Not a high-pass: where the surroundings are of one grey, that grey stays (a high-pass gives 0). *)
Theorem C92_background_refuted : forall m y x g dim fhp out, fhp <> 2 ->
  (forall a b, Z.abs a <= reach dim fhp -> Z.abs b <= reach dim fhp -> inside m (y + a) (x + b) /\ im_px m (y + a) (x + b) = g) ->
  prepare_image2 true m dim fhp None = Ok out -> im_px out y x = g.
Proof.
  intros m y x g dim fhp out F2 A.
  assert (K : forall a b, Z.abs a + Z.max dim 0 <= reach dim fhp -> Z.abs b + Z.max dim 0 <= reach dim fhp -> im_px (ored m dim) (y + a) (x + b) = g).
  { intros a b HA HB. rewrite ored_px. destruct (A a b ltac:(lia) ltac:(lia)) as [_ ->]. destruct (Z.leb_spec 1 dim); [|reflexivity].
    rewrite (box_flat m (Z.to_nat dim) (y + a) (x + b) g); [apply Z.lor_diag|]. rewrite Z2Nat.id by lia. intros p q P Q. rewrite <- !Z.add_assoc.
    destruct (A (a + p) (b + q) ltac:(lia) ltac:(lia)) as [J E]. rewrite level_in by exact J. exact E. }
  unfold prepare_image2. cbn [negb]. fold (ored m dim). unfold reach in *. destruct (Z.eqb_spec fhp 1) as [F|F].
  - intros [= <-]. change 3 with (2 * Z.of_nat 1 + 1). rewrite uniform_px by lia. apply box_flat. cbn [Z.of_nat Pos.of_succ_nat]. intros a b HA HB.
    rewrite level_in; [apply K; lia|]. change (inside m (y + a) (x + b)); apply A; lia.
  - destruct (Z.eqb_spec fhp 2); [lia|]. intros [= <-]. specialize (K 0 0 ltac:(lia) ltac:(lia)). now rewrite !Z.add_0_r in K.
Qed.
Print Assumptions C92_background_refuted.
(** Without low-pass window (dim_lp <= 0) the image is returned as it is. *)
Theorem C92_copy : forall m dim fhp y x, dim <= 0 -> fhp <> 1 -> fhp <> 2 ->
  exists out, prepare_image2 true m dim fhp None = Ok out /\ im_px out y x = im_px m y x.
Proof.
  intros m dim fhp y x D F1 F2. exists (ored m dim). split.
  { unfold prepare_image2. cbn [negb]. destruct (Z.eqb_spec fhp 1); [lia|]. destruct (Z.eqb_spec fhp 2); [lia|]. reflexivity. }
  rewrite ored_px. destruct (Z.leb_spec 1 dim); [lia|reflexivity].
Qed.
Print Assumptions C92_copy.
(** Refused: another dtype, an unreadable filter file; preprocess_image never names a filter file, so that its filter 2 is none. *)
Theorem C92_refused : forall m dim fhp file,
  prepare_image2 false m dim fhp file = Exn TypeError /\ prepare_image2 true m dim 2 (Some None) = Exn IOError /\
  preprocess_image false m fhp dim = Exn TypeError /\
  (exists out, preprocess_image true m fhp dim = Ok out /\ prepare_image2 true m dim fhp None = Ok out) /\
  preprocess_image true m 2 dim = preprocess_image true m 0 dim.
Proof.
  intros m dim fhp file. split; [reflexivity|]. split; [reflexivity|]. split; [reflexivity|]. split; [|reflexivity].
  unfold preprocess_image. unfold prepare_image2. cbn [negb]. destruct (fhp =? 1); [eexists; split; reflexivity|]. destruct (fhp =? 2); eexists; split; reflexivity.
Qed.
Print Assumptions C92_refused.
(** One grey level of difference can become full white: a pixel of 128 among 127s is 255 afterwards. *)
Theorem C92_white_refuted : exists m out, bytes m /\ (forall y x, im_px m y x <= 128) /\ prepare_image2 true m 1 0 None = Ok out /\ im_px out 1 1 = 255 /\ im_px m 1 1 = 128 /\ im_px m 1 2 = 127.
Proof.
  exists (mk_image 3 3 (fun y x => if (y =? 1) && (x =? 1) then 128 else 127)). eexists. split; [|split; [|split; [reflexivity|vm_compute; auto]]].
  - intros y x _. cbn [im_px]. destruct ((y =? 1) && (x =? 1)); lia.
  - intros y x. cbn [im_px]. destruct ((y =? 1) && (x =? 1)); lia.
Qed.
Print Assumptions C92_white_refuted.
(** The border of an image of one grey is not of that grey afterwards: the outside counts as black. *)
Theorem C92_border_refuted : exists m out, bytes m /\ (forall y x, im_px m y x = 16) /\ prepare_image2 true m 1 0 None = Ok out /\ im_px out 0 0 = 22 /\ im_px out 1 1 = 16.
Proof. exists (mk_image 3 3 (fun _ _ => 16)). eexists. split; [intros y x _; cbn; lia|]. split; [reflexivity|]. split; [reflexivity|]. vm_compute. auto. Qed.
Print Assumptions C92_border_refuted.
(** the hypotheses are met: an image with a bright spot, and the same spot in a larger image elsewhere *)
Example C92_case :
  let m := mk_image 5 5 (fun y x => if (y =? 2) && (x =? 2) then 90 else 9) in
  let m' := mk_image 8 9 (fun y x => if (y =? 4) && (x =? 5) then 90 else if x =? 0 then 200 else 9) in
  bytes m /\ inside m 2 2 /\ looks_like m 2 2 m' 4 5 (reach 1 1) /\ window_sum m 1 2 2 = 162 /\
  match prepare_image2 true m 1 0 None, prepare_image2 true m' 1 0 None with
  | Ok a, Ok b => im_px a 2 2 = Z.lor 90 18 /\ im_px b 4 5 = Z.lor 90 18 | _, _ => False end.
Proof.
  cbv zeta. split; [intros y x _; cbn [im_px]; destruct ((y =? 2) && (x =? 2)); lia|]. split; [unfold inside; cbn; lia|]. split.
  { intros a b A B. unfold reach in A, B. cbn in A, B. unfold inside. cbn [im_h im_w im_px]. split; [lia|]. intros _.
    destruct (Z.eqb_spec (2 + a) 2), (Z.eqb_spec (2 + b) 2), (Z.eqb_spec (4 + a) 4), (Z.eqb_spec (5 + b) 5), (Z.eqb_spec (5 + b) 0); cbn [andb]; lia. }
  split; [vm_compute; reflexivity|]. vm_compute. auto.
Qed.
