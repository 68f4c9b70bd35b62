(** Properties C31 (matched coordinates), C50 (sortgrid), C51 (image preparation). *)
From Coq Require Import Permutation Sorted.
From Verif Require Import Base F64 Model_corr Spec_corr Model_cand Spec_cand Model_misc Spec_misc Proof_misc Proof_misc2.
Local Open Scope Z_scope.

(** ===== C31: match_coords keeps every target once, in x order =====
    for every list of targets, every projection and every sort routine that sorts by x *)
Theorem C31_match_coords : forall flat sort_x, sorts_by_x sort_x -> forall targs reset,
  let '(targs', mc) := match_coords flat sort_x targs reset in
  length targs' = length targs /\
  (forall k t, nth_error targs k = Some t -> nth_error targs' k = Some (if reset then numbered t (Z.of_nat k) else t)) /\
  Permutation mc (map (flat_of flat) targs') /\ StronglySorted (fun a b => np_le (c_x a) (c_x b) = true) mc.
Proof. exact match_coords_ok. Qed.
Print Assumptions C31_match_coords.
(** with reset_numbers, entry c of the block comes from target number c.pnr *)
Theorem C31_names_its_target : forall flat sort_x, sorts_by_x sort_x -> forall targs c,
  In c (snd (match_coords flat sort_x targs true)) <->
  exists k t, nth_error targs k = Some t /\ c_pnr c = Z.of_nat k /\ (c_x c, c_y c) = flat (t_x t) (t_y t).
Proof. exact match_coords_reset. Qed.
Print Assumptions C31_names_its_target.
(** such a block meets the input conditions of the candidate search (C10) *)
Theorem C31_usable : forall flat sort_x, sorts_by_x sort_x -> forall targs,
  (forall t, In t targs -> is_nan (fst (flat (t_x t) (t_y t))) = false) ->
  ascending (map c_x (snd (match_coords flat sort_x targs true))) /\
  pnrs_ok (snd (match_coords flat sort_x targs true)) (fst (match_coords flat sort_x targs true)).
Proof. exact match_coords_usable. Qed.
Print Assumptions C31_usable.
(** without reset_numbers the numbers are those stored in the targets, which
    need not be their positions: whatever the sort, one target with number 7 gives an entry with number 7 *)
Theorem C31_stale_numbers_refuted : forall flat sort_x x y, sorts_by_x sort_x ->
  exists c, snd (match_coords flat sort_x [mk_target 7 x y 1 1 1 1 (-1)] false) = [c] /\ c_pnr c = 7.
Proof.
  intros flat sort_x x y SX. pose proof (match_coords_ok flat sort_x SX [mk_target 7 x y 1 1 1 1 (-1)] false) as H.
  destruct (match_coords _ _ _ _) as (ts & mc). destruct H as (L & N & P & _). specialize (N 0%nat _ eq_refl).
  destruct ts as [|t [|]]; try discriminate. injection N as ->. cbn [map] in P. apply Permutation_sym, Permutation_length_1_inv in P. subst mc.
  eexists. split; reflexivity.
Qed.
Print Assumptions C31_stale_numbers_refuted.
(** a sort routine as assumed exists *)
Example C31_sort_exists : exists f, sorts_by_x f.
Proof. exact some_sort_by_x. Qed.
(** get_by_pnrs: at the first place of a requested number, the position of the
    last entry with that number; (-1e10, -1e10) if there is none; repeated requests stay that *)
Theorem C31_get_by_pnrs : forall mc pnrs, length (get_by_pnrs mc pnrs) = length pnrs /\
  forall k v, nth_error pnrs k = Some v ->
    ((forall k', (k' < k)%nat -> nth_error pnrs k' <> Some v) ->
       (forall c, last_with mc v c -> nth_error (get_by_pnrs mc pnrs) k = Some (c_x c, c_y c)) /\
       ((forall c, In c mc -> c_pnr c <> v) -> nth_error (get_by_pnrs mc pnrs) k = Some (f_of_Z (-10000000000), f_of_Z (-10000000000)))) /\
    ((exists k', (k' < k)%nat /\ nth_error pnrs k' = Some v) -> nth_error (get_by_pnrs mc pnrs) k = Some (f_of_Z (-10000000000), f_of_Z (-10000000000))).
Proof. exact get_by_pnrs_ok. Qed.
Print Assumptions C31_get_by_pnrs.
(** so a number requested twice is answered only once *)
Theorem C31_repeated_request_refuted : forall mc v, nth_error (get_by_pnrs mc [v; v]) 1 = Some (f_of_Z (-10000000000), f_of_Z (-10000000000)).
Proof.
  intros mc v. destruct (get_by_pnrs_ok mc [v; v]) as (_ & H). apply (H 1%nat v eq_refl). exists 0%nat. split; auto.
Qed.
Print Assumptions C31_repeated_request_refuted.

(** ===== C50: sortgrid =====
    For every projection defined on all points [i < nfix], every list of detections and
    every search radius: entry i is the nearest detection in the box around the
    projected point (if that is on the sensor) or an unused Target; a detection
    gets as number the LAST point it was assigned to; nothing else changes. *)
Theorem C50_sortgrid : forall project eps imx imy pix0 nfix,
  0 <= nfix -> (forall i, 0 <= i < nfix -> exists p, project i = Ok p) ->
  exists sorted pix, sortgrid project eps imx imy nfix pix0 = Ok (sorted, pix) /\
    length sorted = Z.to_nat nfix /\ length pix = length pix0 /\
    (forall i, 0 <= i < nfix ->
       (exists j t, assigned project eps imx imy pix0 i j /\ nth_error pix j = Some t /\ nth_error sorted (Z.to_nat i) = Some t) \/
       ((forall j, ~ assigned project eps imx imy pix0 i j) /\ nth_error sorted (Z.to_nat i) = Some no_target)) /\
    (forall j t, nth_error pix0 j = Some t ->
       (exists i, last_assigned project eps imx imy pix0 nfix i j /\ nth_error pix j = Some (numbered t i)) \/
       ((forall i, 0 <= i < nfix -> ~ assigned project eps imx imy pix0 i j) /\ nth_error pix j = Some t)).
Proof.
  intros project eps imx imy pix0 nfix HN HP. destruct (sortgrid_ok project eps imx imy pix0 nfix HN HP) as (s & q & A & B & C & D & E).
  exists s, q. split; auto. split; auto. split; auto. split.
  - intros i Hi. destruct (D i Hi) as [(j & t & D1 & D2)|(D1 & D2)]; [left; exists j, t; split; auto; apply assigned_iff; auto|right].
    split; auto. intros j Hj. apply (D1 j). apply assigned_iff. auto.
  - intros j t Hj. destruct (E j t Hj) as [(i & E1 & E2)|(E1 & E2)]; [left; exists i; split; auto; apply last_assigned_iff; auto|right].
    split; auto. intros i Hi H. apply (E1 i Hi). apply assigned_iff. auto.
Qed.
Print Assumptions C50_sortgrid.
(** if no detection is nearest to two points, every entry carries its row number *)
Theorem C50_row_numbers : forall project eps imx imy pix0 nfix,
  0 <= nfix -> (forall i, 0 <= i < nfix -> exists p, project i = Ok p) ->
  (forall i i' j, 0 <= i < nfix -> 0 <= i' < nfix -> assigned project eps imx imy pix0 i j -> assigned project eps imx imy pix0 i' j -> i = i') ->
  exists sorted pix, sortgrid project eps imx imy nfix pix0 = Ok (sorted, pix) /\ length sorted = Z.to_nat nfix /\
    forall i, 0 <= i < nfix ->
       (exists j t, assigned project eps imx imy pix0 i j /\ nth_error pix0 j = Some t /\ nth_error sorted (Z.to_nat i) = Some (numbered t i)) \/
       ((forall j, ~ assigned project eps imx imy pix0 i j) /\ nth_error sorted (Z.to_nat i) = Some no_target).
Proof.
  intros project eps imx imy pix0 nfix HN HP INJ.
  destruct (sortgrid_injective project eps imx imy pix0 nfix HN HP) as (s & q & A & B & D).
  { intros i i' j Hi Hi' H1 H2. apply (INJ i i' j); auto; apply assigned_iff; auto. }
  exists s, q. split; auto. split; auto.
  intros i Hi. destruct (D i Hi) as [(j & t & D1 & D2)|(D1 & D2)]; [left; exists j, t; split; auto; apply assigned_iff; auto|right].
  split; auto. intros j Hj. apply (D1 j). apply assigned_iff. auto.
Qed.
Print Assumptions C50_row_numbers.
Theorem C50_nearest_unique : forall pix x y eps j k, nearest pix x y eps j -> nearest pix x y eps k -> j = k.
Proof. intros pix x y eps j k H1 H2. apply (nearest_unique pix x y eps); apply nearest_iff; auto. Qed.
Print Assumptions C50_nearest_unique.

(** one detection can be given to two points, and then the first entry carries the second point's row number *)
Definition ex_pix : list target := [mk_target 5 (f_of_Z 100) (f_of_Z 100) 9 3 3 500 (-1); mk_target 6 (f_of_Z 300) (f_of_Z 50) 9 3 3 400 (-1)].
Definition ex_proj (i : Z) : result (f64 * f64) := Ok (f_of_Z (99 + 2 * i), f_of_Z 100).
Theorem C50_shared_refuted : exists t pix, sortgrid ex_proj (f_of_Z 25) (f_of_Z 640) (f_of_Z 480) 2 ex_pix = Ok ([t; t], pix) /\ t_pnr t = 1.
Proof. eexists _, _. split; vm_compute; reflexivity. Qed.
Print Assumptions C50_shared_refuted.
(** the injective case occurs: two well separated points *)
Definition ex_proj2 (i : Z) : result (f64 * f64) := Ok (f_of_Z (99 + 200 * i), f_of_Z (100 - 50 * i)).
Example C50_example : exists a b pix, sortgrid ex_proj2 (f_of_Z 25) (f_of_Z 640) (f_of_Z 480) 3 ex_pix = Ok ([a; b; no_target], pix) /\
  t_pnr a = 0 /\ t_sumg a = 500 /\ t_pnr b = 1 /\ t_sumg b = 400.
Proof. eexists _, _, _. split; [vm_compute; reflexivity|]. vm_compute. auto. Qed.

(** ===== C51: prepare_image =====
    Refuted: the "subtraction" is a bitwise or. For every image, every filter
    size and whatever the low-pass filter returns, no pixel gets darker, and a
    pixel is the clipped difference only where the low-pass is zero. *)
Theorem C51_refuted : forall uniform file_filter,
  (forall n img, length (uniform n img) = length img) -> (forall n img, Forall is_byte img -> Forall is_byte (uniform n img)) ->
  forall img dim_lp has_file fhp, Forall is_byte img -> fhp <> 1 -> (fhp = 2 -> has_file = false) ->
  exists out, prepare_image uniform file_filter img dim_lp fhp has_file = Ok out /\ length out = length img /\
  forall k v lp, nth_error img k = Some v -> nth_error (uniform (dim_lp * 2 + 1) img) k = Some lp ->
    exists o, nth_error out k = Some o /\ is_byte o /\ v <= o /\ lp <= o /\ (o = Z.max (v - lp) 0 <-> lp = 0).
Proof. exact prepare_pixels. Qed.
Print Assumptions C51_refuted.
Example C51_example : prepare_image (fun _ img => map (fun _ => 3) img) None [4; 12; 3] 1 0 false = Ok [7; 15; 3].
Proof. reflexivity. Qed.
