(** Property C94: the box blur in loops and masking. *)
From Verif Require Import Model_blur Proof_blur Base.
Local Open Scope Z_scope.

(** ===== C94 =====
    With half-width 0 the blur returns the image that it was given. *)
Theorem C94_copies : forall imx imy src, 1 <= imx -> 1 <= imy -> Z.of_nat (length src) = imx * imy -> fast_box_blur_numba 0 imx imy src = Ok src.
Proof. intros imx imy src HX HY HL. now apply blur_copies. Qed.
Print Assumptions C94_copies.
(** Natural expectation: with a positive half-width it returns a blurred image.  It raises IndexError for every half-width and
    every image (the last row is read beyond its end). *)
Theorem C94_blur_refuted : forall span imx imy src, 1 <= span -> 1 <= imx -> 1 <= imy -> Z.of_nat (length src) = imx * imy ->
  fast_box_blur_numba span imx imy src = Exn IndexError.
Proof. intros span imx imy src. apply blur_fails. Qed.
Print Assumptions C94_blur_refuted.
(** Masking keeps the pixels where the mask is not 0 and blackens the others; doing it twice is doing it once. *)
Theorem C94_mask : forall img mask, length img = length mask -> exists out, subtract_mask img mask = Ok out /\ length out = length img /\
  (forall n p m, nth_error img n = Some p -> nth_error mask n = Some m -> nth_error out n = Some (if m =? 0 then 0 else p)) /\
  subtract_mask out mask = Ok out.
Proof.
  intros img mask H. unfold subtract_mask. rewrite vmap2_same by auto. eexists. split; [reflexivity|].
  assert (L : length (map (fun xy : Z * Z => if snd xy =? 0 then 0 else fst xy) (combine img mask)) = length img) by (rewrite map_length, combine_length; lia).
  split; [exact L|]. split.
  - clear L. revert mask H. induction img as [|a l IH]; intros [|b m'] H n p m Hp Hm; try discriminate; destruct n as [|n]; cbn [nth_error] in *; try discriminate.
    + injection Hp as <-. injection Hm as <-. reflexivity.
    + cbn [combine map nth_error]. apply IH; auto.
  - rewrite vmap2_same by (rewrite L; auto). f_equal. clear L. revert mask H. induction img as [|a l IH]; intros [|b m'] H; try discriminate; auto.
    cbn [combine map fst snd]. injection H as H. f_equal; [destruct (b =? 0); auto|]. apply IH; auto.
Qed.
Print Assumptions C94_mask.
Example C94_case : fast_box_blur_numba 0 3 2 [1; 2; 3; 40; 50; 255] = Ok [1; 2; 3; 40; 50; 255] /\
  fast_box_blur_numba 1 5 5 (repeat 7 25) = Exn IndexError /\ subtract_mask [9; 8; 7] [1; 0; 255] = Ok [9; 0; 7].
Proof. vm_compute. auto. Qed.
(** the rows before the last one are summed without an error *)
Example C94_case_row : exists r, blur_row 1 5 (repeat 7 25) (repeat 0 25) 0 = Ok r /\ firstn 5 r = [21; 21; 21; 21; 21].
Proof. eexists. split; vm_compute; reflexivity. Qed.
