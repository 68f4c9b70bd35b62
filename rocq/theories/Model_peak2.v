(** segmentation.py:551-582, peak_fit_new: peaks from a smoothed image. The Gaussian filter and the labelling of components come
    from scipy.ndimage and are parameters here; the maximum filter and everything that the function itself does are modelled. *)
From Verif Require Import F64 Base.
Local Open Scope Z_scope.

Definition image := list (list f64).
(** element (i, j), 0 <= i, j in range; image[indices] with indices that are there *)
Definition pix {A} (d : A) (m : list (list A)) (p : nat * nat) : A := nth (snd p) (nth (fst p) m []) d.
(** the greater of two values, as numpy takes it without NaN *)
Definition greater (a b : f64) : f64 := if flt a b then b else a.
(** scipy.ndimage.maximum_filter with a 3 by 3 footprint of ones, mode "reflect": the value of the pixel next to the border is
    repeated once outside *)
Definition mirrored (n : nat) (i : Z) : nat := if i <? 0 then O else if i >=? Z.of_nat n then pred n else Z.to_nat i.
Definition around (rows cols : nat) (p : nat * nat) : list (nat * nat) :=
  flat_map (fun di => map (fun dj => (mirrored rows (Z.of_nat (fst p) + di), mirrored cols (Z.of_nat (snd p) + dj))) [-1; 0; 1]) [-1; 0; 1].
Definition max_filter (rows cols : nat) (m : image) (p : nat * nat) : f64 :=
  fold_left (fun a q => greater a (pix fzero m q)) (around rows cols p) (pix fzero m p).
(** np.max; of no values it raises (ValueError) *)
Definition np_max (l : list f64) : result f64 := match l with [] => Exn ValueError | a :: r => Ok (fold_left greater r a) end.
(** scipy.ndimage.center_of_mass of a one-dimensional array of booleans: a tuple of one number, 0/0 if all are false *)
Definition center_of_mass (l : list bool) : list f64 :=
  let w b := if b : bool then 1 else 0 in
  [fdiv (f_of_Z (fold_right Z.add 0 (map (fun kb => Z.of_nat (fst kb) * w (snd kb)) (combine (seq 0 (length l)) l)))) (f_of_Z (fold_right Z.add 0 (map w l)))].
(** x, y = v *)
Definition unpack2 {A} (l : list A) : result (A * A) := match l with [x; y] => Ok (x, y) | _ => Exn ValueError end.
Section Peak.
Variable gaussian : image -> image.                                    (* gaussian_filter(image, sigma) *)
Variable label : list (list bool) -> list (list (nat * nat)).          (* np.argwhere(labeled == i + 1) for i = 0, 1, ... *)
Variable round : f64 -> result Z.                                      (* int(round(x)) *)
(** 566-581 *)
Definition maxima (sm : image) : list (list bool) :=
  let rows := length sm in
  map (fun i => let cols := length (nth i sm []) in map (fun j => feq (max_filter rows cols sm (i, j)) (pix fzero sm (i, j))) (seq 0 cols)) (seq 0 rows).
(** 574-580 for one component *)
Definition one_peak (sm : image) (mask : list (list bool)) (ind : list (nat * nat)) : result (Z * Z * f64) :=
  let coordinates := rev (center_of_mass (map (pix false mask) ind)) in
  do intensity <- np_max (map (pix fzero sm) ind);
  (* np.mean over the only row *)
  do xy <- unpack2 (map (fun c => fdiv c (f_of_Z 1)) coordinates);
  do x <- round (fst xy); do y <- round (snd xy);
  Ok (x, y, intensity).
Definition peak_fit_new (threshold : f64) (im : image) : result (list (Z * Z * f64)) :=
  let sm := gaussian im in
  do top <- np_max (concat sm);
  let level := fmul threshold top in
  let mask := map (map (fun v => fgt v level)) sm in
  foldM (fun peaks ind => do p <- one_peak sm mask ind; Ok (peaks ++ [p])) (label (maxima sm)) [].
End Peak.
