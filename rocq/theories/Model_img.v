(** Image preparation with its box filter (image_processing.py). *)
From Verif Require Import Base F64 Model_corr Model_seg.
Local Open Scope Z_scope.

(** scipy.ndimage.uniform_filter1d along an axis of length len, for the odd sizes 2 d + 1 used here, mode="constant",
    cval=0: the sum over the window, pixels outside count 0, divided by the size and cut to an integer when it is
    stored in the uint8 output.  (scipy keeps the sum in a double and divides: for sums of bytes that cuts to the
    same integer.) *)
Definition filter_line (len d : Z) (f : Z -> Z) (i : Z) : Z :=
  fold_left (fun s k => s + (if (0 <=? k) && (k <? len) then f k else 0)) (zrange (i - d) (i + d + 1)) 0 / (2 * d + 1).
(** scipy.ndimage.uniform_filter as called in image_processing.py:109-114 and 121-127: axis 0 (rows) first, then axis 1
    on the bytes of the first pass; sizes up to 1 copy the image *)
Definition uniform_filter (m : image) (size : Z) : image :=
  if size <=? 1 then m else
  let d := size / 2 in
  let v := fun y x => filter_line (im_h m) d (fun k => im_px m k x) y in
  mk_image (im_h m) (im_w m) (fun y x => filter_line (im_w m) d (fun k => v y k) x).
(** image_processing.py:117: img | img_lp *)
Definition image_or (a b : image) : image := mk_image (im_h a) (im_w a) (fun y x => Z.lor (im_px a y x) (im_px b y x)).
(** image_processing.py:91-143; u8: the dtype is uint8; file: None if filter_file is "", Some None if it cannot be read
    as nine numbers, Some (Some f) where f is the convolution with them (arbitrary) *)
Definition prepare_image2 (u8 : bool) (m : image) (dim_lp filter_hp : Z) (file : option (option (image -> image))) : result image :=
  if negb u8 then Exn TypeError else
  let lp := uniform_filter m (dim_lp * 2 + 1) in
  let hp := image_or m lp in
  if filter_hp =? 1 then Ok (uniform_filter hp 3)
  else if filter_hp =? 2 then
    match file with None => Ok hp | Some None => Exn IOError | Some (Some f) => Ok (f hp) end
  else Ok hp.
(** image_processing.py:146-148: the filter file is always "" *)
Definition preprocess_image (u8 : bool) (m : image) (filter_hp dim_lp : Z) : result image :=
  prepare_image2 u8 m dim_lp filter_hp None.
