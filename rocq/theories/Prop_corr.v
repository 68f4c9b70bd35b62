(** Properties C01-C09: correspondence search. *)
From Coq Require Import Permutation Sorted.
From Verif Require Import Base F64 Model_corr Spec_corr Proof_corr_take Proof_corr_loops Proof_corr_three Proof_corr_pairs Proof_corr_all Proof_corr_main Proof_corr_pm Proof_corr_prop Proof_corr_ex Proof_corr_few.
Local Open Scope Z_scope.

(** ===== C01 ===== No target is used twice. *)
Theorem C01_take_best_disjoint : forall srt src dst nc tus n src' dst' tus',
  sorts srt -> marks_ok tus ->
  take_best_candidates srt src dst nc tus = Ok (n, src', dst', tus') ->
  0 <= n <= Z.of_nat (length dst) /\ length dst' = length dst /\
  skipn (Z.to_nat n) dst' = skipn (Z.to_nat n) dst /\
  disjoint_cliques nc (firstn (Z.to_nat n) dst') /\
  (forall a cam k, In a (firstn (Z.to_nat n) dst') -> member nc a cam k -> ~ used tus cam k) /\
  (forall cam k, used tus' cam k <-> used tus cam k \/ exists a, In a (firstn (Z.to_nat n) dst') /\ member nc a cam k).
Proof. exact take_best_disjoint. Qed.
Print Assumptions C01_take_best_disjoint.

(** and the selection never raises when the tables have the sizes that
    correspondences allocates *)
Theorem C01_take_best_total : forall srt src dst nc tus,
  sorts srt -> 0 <= nc -> marks_ok tus -> table_dims nc tus ->
  (forall c, In c src -> has_member nc c /\ fits nc c) ->
  nc * NMAX <= Z.of_nat (length dst) ->
  exists n src' dst' tus', take_best_candidates srt src dst nc tus = Ok (n, src', dst', tus').
Proof. exact take_best_total. Qed.
Print Assumptions C01_take_best_total.

(** ===== C02 ===== Best first and maximal. *)
Theorem C02_take_best_greedy : forall srt src dst nc tus n src' dst' tus',
  sorts srt -> marks_ok tus ->
  take_best_candidates srt src dst nc tus = Ok (n, src', dst', tus') ->
  let taken := firstn (Z.to_nat n) dst' in
  descending taken /\ Z.of_nat (length taken) = n /\ Permutation src' src /\
  exists mask, length mask = length src' /\ taken = select mask src' /\
    forall i c, nth_error src' i = Some c -> nth_error mask i = Some false ->
      (exists cam k, member nc c cam k /\ used tus cam k) \/
      exists b, In b taken /\ clash nc c b /\ np_le (tcorr c) (tcorr b) = true.
Proof. exact take_best_greedy. Qed.
Print Assumptions C02_take_best_greedy.

(** non-vacuity: three candidates, the second-best clashes with the best *)
Example C01_C02_case :
  sorts isort /\
  let c a b x := {| tp := [a; b]; tcorr := f_of_Z x |} in
  take_best_candidates isort [c 0 1 2; c 1 1 3; c 0 0 1] (repeat (c 9 9 0) 3) 2 [[0; 0]; [0; 0]] =
    Ok (2, [c 1 1 3; c 0 1 2; c 0 0 1], [c 1 1 3; c 0 0 1; c 9 9 0], [[1; 1]; [1; 1]]).
Proof. split; [exact isort_sorts|vm_compute; reflexivity]. Qed.

(** ===== C03 ===== At most one clique per target, over all clique sizes; tnr names it. *)
Theorem C03_one_clique_per_target : forall srt cl counts corrmin flag corrected targets,
  sorts srt -> wf_adj 4 counts cl -> distinct_cands cl ->
  (forall n, In n counts -> 1 <= n <= NMAX) ->
  coords_ok 4 counts corrected targets ->
  exists con tg q t p,
    correspondences_from srt NMAX cl counts corrmin 4 flag corrected targets [0; 0; 0; 0] =
      Ok (con, [q; t; p; q + t + p], tg) /\
    0 <= q /\ 0 <= t /\ 0 <= p /\ q + t + p <= Z.of_nat (length con) /\
    let cliques := firstn (Z.to_nat (q + t + p)) con in
    disjoint_cliques 4 cliques /\
    (forall c, In c cliques -> in_counts 4 counts c) /\
    length tg = length targets /\
    forall cam k, 0 <= cam -> 0 <= k ->
      match target_at targets cam k with
      | None => target_at tg cam k = None
      | Some old =>
         (exists i, i < q + t + p /\ in_clique 4 cliques corrected i cam k /\
            (forall j, in_clique 4 cliques corrected j cam k -> j = i) /\
            target_at tg cam k = Some (with_number old i)) \/
         ((forall i, ~ in_clique 4 cliques corrected i cam k) /\ target_at tg cam k = Some old)
      end.
Proof. exact corr4_tnr. Qed.
Print Assumptions C03_one_clique_per_target.

Example C03_case : sorts isort /\ wf_adj 4 ex_counts ex_adj /\ distinct_cands ex_adj /\
  (forall n, In n ex_counts -> 1 <= n <= NMAX) /\ coords_ok 4 ex_counts ex_coords ex_targets.
Proof.
  destruct ex_adj_ok as (W & D & _).
  exact (conj isort_sorts (conj W (conj D (conj ex_counts_ok ex_coords_ok)))).
Qed.

(** Two cameras: the cliques are the pairs (cameras 2 and 3 do not exist, their slots keep the 0
    of the zeroed array), but a spurious pair (0,0) of score 0 is added whenever
    target 0 of both cameras is left free. *)
Theorem C03_two_cameras : forall srt cl counts corrmin flag corrected targets,
  sorts srt -> wf_adj 2 counts cl -> (forall n, In n counts -> 1 <= n <= NMAX) -> coords_ok 2 counts corrected targets ->
  exists con tg P,
    correspondences_from srt NMAX cl counts corrmin 2 flag corrected targets [0; 0; 0; 0] =
      Ok (con, [0; 0; Z.of_nat (length P); Z.of_nat (length P)], tg) /\
    firstn (length P) con = P /\ descending P /\ disjoint_cliques 2 P /\ named_by_clique 2 P corrected targets tg /\
    (flag <> 0 -> P = []) /\
    (forall tus, (forall cam k, ~ used tus cam k) ->
      (forall c, In c P -> c = blank \/ exists t, is_pair cl 2 counts tus corrmin t /\ stored 2 t c) /\
      (flag = 0 -> forall t, is_pair cl 2 counts tus corrmin t -> (exists c, In c P /\ stored 2 t c) \/
         exists b, In b P /\ clash 2 t b /\ np_le (tcorr t) (tcorr b) = true)) /\
    (flag = 0 -> In blank P \/ exists b, In b P /\ clash 2 blank b /\ np_le fzero (tcorr b) = true).
Proof. exact two_cams_any. Qed.
Print Assumptions C03_two_cameras.

(** Three cameras: a single triplet (three targets with candidate edges 1-2 and 1-3
    whose third edge exists or is padding) makes the call raise ValueError.  Without one, the
    call reports exactly one triplet, the blank (0,0,0), and the pairs not touching
    target 0 of any camera. *)
Theorem C03_three_cameras : forall srt cl counts corrmin flag corrected targets,
  sorts srt -> wf_adj 3 counts cl -> distinct_cands cl ->
  (forall n, In n counts -> 1 <= n <= NMAX) -> coords_ok 3 counts corrected targets ->
  ((exists tus t, (forall cam k, ~ used tus cam k) /\ is_triplet_padded cl 3 counts tus corrmin t) /\
   correspondences_from srt NMAX cl counts corrmin 3 flag corrected targets [0; 0; 0; 0] = Exn ValueError) \/
  ((forall tus t, (forall cam k, ~ used tus cam k) -> ~ is_triplet_padded cl 3 counts tus corrmin t) /\
   exists con tg P,
    correspondences_from srt NMAX cl counts corrmin 3 flag corrected targets [0; 0; 0; 0] =
      Ok (con, [0; 1; Z.of_nat (length P); 1 + Z.of_nat (length P)], tg) /\
    firstn (S (length P)) con = blank :: P /\ descending P /\
    disjoint_cliques 3 (blank :: P) /\ named_by_clique 3 (blank :: P) corrected targets tg /\
    (flag <> 0 -> P = []) /\
    (forall tus, (forall cam k, used tus cam k <-> 0 <= cam < 3 /\ k = 0) ->
      (forall c, In c P -> exists t, is_pair cl 3 counts tus corrmin t /\ stored 3 t c) /\
      (flag = 0 -> forall t, is_pair cl 3 counts tus corrmin t -> (exists c, In c P /\ stored 3 t c) \/
         exists b, In b P /\ clash 3 t b /\ np_le (tcorr t) (tcorr b) = true))).
Proof. exact three_cams. Qed.
Print Assumptions C03_three_cameras.

(** non-vacuity: two cameras whose targets 0 and 1 match each other; three cameras with a
    triplet, and with no candidates at all *)
Example C03_few_case : sorts isort /\
  (let cl := few_adj ex_cands 2 in wf_adj 2 [2; 2] cl /\ distinct_cands cl /\ coords_ok 2 [2; 2] (repeat [crd 1; crd 0] 2) (repeat [tar 0; tar 1] 2) /\
     is_pair cl 2 [2; 2] [[0; 0]; [0; 0]] f1 {| tp := [1; 1; -2; -2]; tcorr := f2 |}) /\
  (let cl := few_adj ex_cands 3 in wf_adj 3 [2; 2; 2] cl /\ distinct_cands cl /\ coords_ok 3 [2; 2; 2] (repeat [crd 1; crd 0] 3) (repeat [tar 0; tar 1] 3) /\
     is_triplet_padded cl 3 [2; 2; 2] [[0; 0]; [0; 0]; [0; 0]] f1 {| tp := [1; 1; 1; -2]; tcorr := f2 |}) /\
  (let cl := few_adj no_cands 3 in wf_adj 3 [2; 2; 2] cl /\ distinct_cands cl /\ coords_ok 3 [2; 2; 2] (repeat [crd 1; crd 0] 3) (repeat [tar 0; tar 1] 3) /\
     forall tus t, ~ is_triplet_padded cl 3 [2; 2; 2] tus f1 t).
Proof. exact few_case. Qed.

(** ===== C04 ===== Support of the returned cliques.  Natural expectation: every
    element of Q is a quadruplet, of T a triplet, of P a pair.  Proved: the same
    but Q may contain the blank clique (0,0,0,0) of score 0 and the third edge of
    a triplet may be a padding slot.  The expectation is refuted below. *)
Theorem C04_clique_support : forall srt cl counts corrmin flag corrected targets,
  sorts srt -> wf_adj 4 counts cl -> distinct_cands cl ->
  (forall n, In n counts -> 1 <= n <= NMAX) ->
  coords_ok 4 counts corrected targets ->
  exists con tg Q T P,
    correspondences_from srt NMAX cl counts corrmin 4 flag corrected targets [0; 0; 0; 0] =
      Ok (con, [Z.of_nat (length Q); Z.of_nat (length T); Z.of_nat (length P); Z.of_nat (length (Q ++ T ++ P))], tg) /\
    firstn (length (Q ++ T ++ P)) con = Q ++ T ++ P /\
    descending Q /\ descending T /\ descending P /\
    (forall n0, nth_error counts 0 = Some n0 ->
      (forall t, In t Q -> is_quad cl n0 corrmin t \/ t = blank) /\
      ((forall l, NoDup l -> (forall t, In t l -> is_quad cl n0 corrmin t) -> Z.of_nat (length l) <= 4 * NMAX) ->
       forall t, is_quad cl n0 corrmin t -> In t Q \/
        exists b, In b Q /\ clash 4 t b /\ np_le (tcorr t) (tcorr b) = true)) /\
    (forall t, In t T -> exists tus, (forall cam k, used tus cam k <-> exists a, In a Q /\ member 4 a cam k) /\
        is_triplet_padded cl 4 counts tus corrmin t) /\
    (forall t, In t P -> exists tus, (forall cam k, used tus cam k <-> exists a, In a (Q ++ T) /\ member 4 a cam k) /\
        is_pair cl 4 counts tus corrmin t) /\
    (flag <> 0 -> T = [] /\ P = []) /\
    (flag = 0 -> forall tus, (forall cam k, used tus cam k <-> exists a, In a Q /\ member 4 a cam k) ->
      (forall l, NoDup l -> (forall t, In t l -> is_triplet_padded cl 4 counts tus corrmin t) -> Z.of_nat (length l) <= 4 * NMAX) ->
      forall t, is_triplet_padded cl 4 counts tus corrmin t -> In t T \/
        exists b, In b T /\ clash 4 t b /\ np_le (tcorr t) (tcorr b) = true) /\
    (flag = 0 -> forall tus, (forall cam k, used tus cam k <-> exists a, In a (Q ++ T) /\ member 4 a cam k) ->
      (forall l, NoDup l -> (forall t, In t l -> is_pair cl 4 counts tus corrmin t) -> Z.of_nat (length l) <= 4 * NMAX) ->
      forall t, is_pair cl 4 counts tus corrmin t -> In t P \/
        exists b, In b P /\ clash 4 t b /\ np_le (tcorr t) (tcorr b) = true).
Proof. exact corr4_support. Qed.
Print Assumptions C04_clique_support.

(** Whenever there is no candidate edge at all, one quadruplet (0,0,0,0) is
    nevertheless reported. *)
Theorem C04_spurious_quadruplet : forall srt cl counts corrmin flag corrected targets,
  sorts srt -> wf_adj 4 counts cl -> distinct_cands cl ->
  (forall n, In n counts -> 1 <= n <= NMAX) ->
  coords_ok 4 counts corrected targets ->
  (forall a b i j x d, ~ edge cl a b i j x d) ->
  exists con tg,
    correspondences_from srt NMAX cl counts corrmin 4 flag corrected targets [0; 0; 0; 0] =
      Ok (con, [1; 0; 0; 1], tg) /\
    nth_error con 0 = Some blank.
Proof. exact corr4_spurious. Qed.
Print Assumptions C04_spurious_quadruplet.

Theorem C04_refuted : exists srt cl counts corrmin flag corrected targets con tg,
  sorts srt /\ wf_adj 4 counts cl /\ distinct_cands cl /\ (forall n, In n counts -> 1 <= n <= NMAX) /\
  coords_ok 4 counts corrected targets /\
  correspondences_from srt NMAX cl counts corrmin 4 flag corrected targets [0; 0; 0; 0] =
      Ok (con, [1; 0; 0; 1], tg) /\
  forall a b i j x d, ~ edge cl a b i j x d.
Proof. exact spurious_witness. Qed.
Print Assumptions C04_refuted.

(** The same blank entry makes every call fail when a camera has no target. *)
Theorem C04_empty_camera_fails : forall srt cl counts corrmin flag corrected targets,
  sorts srt -> wf_adj 4 counts cl -> distinct_cands cl ->
  (forall n, In n counts -> 0 <= n <= NMAX) -> In 0 counts ->
  coords_ok 4 counts corrected targets ->
  correspondences_from srt NMAX cl counts corrmin 4 flag corrected targets [0; 0; 0; 0] = Exn IndexError.
Proof. exact corr4_empty_camera. Qed.
Print Assumptions C04_empty_camera_fails.

(** ===== C05 ===== Quadruplet search is exact. *)
Theorem C05_four_camera_exact : forall cl counts n0 accept sc size,
  wf_adj 4 counts cl -> nth_error counts 0 = Some n0 -> scratch_ok sc -> 0 < size <= Z.of_nat (length sc) ->
  exists found,
    (forall t, In t found <-> is_quad cl n0 accept t) /\
    (distinct_cands cl -> NoDup found) /\
    four_camera_matching cl n0 accept sc size =
      Ok (overwrite sc (firstn (Z.to_nat size) found), Z.of_nat (length (firstn (Z.to_nat size) found))).
Proof. exact four_exact. Qed.
Print Assumptions C05_four_camera_exact.

Example C05_case : wf_adj 4 ex_counts ex_adj /\ nth_error ex_counts 0 = Some 2 /\ scratch_ok ex_scratch /\
  is_quad ex_adj 2 f1 {| tp := [1; 1; 1; 1]; tcorr := f2 |} /\
  exists sc, four_camera_matching ex_adj 2 f1 ex_scratch 8 = Ok (sc, 2).
Proof.
  split; [apply ex_adj_ok|]. split; [reflexivity|]. split; [exact ex_scratch_ok|]. split; [exact ex_quad|].
  eexists. vm_compute. reflexivity.
Qed.

(** ===== C06 ===== Triplet search.  Natural expectation: In t found <-> is_triplet.
    Proved: In t found <-> is_triplet_padded (third edge may be a padding slot 0),
    which contains all genuine triplets and whose members whose third-camera
    target is not 0 are genuine. *)
Theorem C06_three_camera_exact : forall cl counts accept sc size tus,
  wf_adj 4 counts cl -> distinct_cands cl -> table_ok 4 counts tus ->
  scratch_ok sc -> 0 < size <= Z.of_nat (length sc) ->
  exists found,
    (forall t, In t found <-> is_triplet_padded cl 4 counts tus accept t) /\ NoDup found /\
    three_camera_matching cl 4 counts accept sc size tus =
      Ok (overwrite sc (firstn (Z.to_nat size) found), Z.of_nat (length (firstn (Z.to_nat size) found))).
Proof. exact three_exact. Qed.
Print Assumptions C06_three_camera_exact.

Theorem C06_genuine_triplets : forall cl counts tus accept t,
  (is_triplet cl 4 counts tus accept t -> is_triplet_padded cl 4 counts tus accept t) /\
  (is_triplet_padded cl 4 counts tus accept t -> ~ In 0 (tp t) -> is_triplet cl 4 counts tus accept t).
Proof. exact triplet_genuine. Qed.
Print Assumptions C06_genuine_triplets.

Example C06_case : wf_adj 4 ex_counts ex_adj /\ distinct_cands ex_adj /\ table_ok 4 ex_counts free_marks /\
  is_triplet ex_adj 4 ex_counts free_marks f1 {| tp := [1; -2; 1; 1]; tcorr := f2 |}.
Proof.
  destruct ex_adj_ok as (W & D & _). destruct free_marks_ok as (T & _).
  exact (conj W (conj D (conj T ex_triplet))).
Qed.

Theorem C06_refuted : exists cl counts accept sc size tus sc' t,
  wf_adj 4 counts cl /\ distinct_cands cl /\ table_ok 4 counts tus /\ scratch_ok sc /\
  three_camera_matching cl 4 counts accept sc size tus = Ok (sc', 1) /\
  nth_error sc' 0 = Some t /\ ~ is_triplet cl 4 counts tus accept t.
Proof. exact triplet_witness. Qed.
Print Assumptions C06_refuted.

(** With three cameras every triplet found makes the search raise. *)
Theorem C06_three_cameras_raise : forall cl counts accept sc size tus,
  wf_adj 3 counts cl -> distinct_cands cl -> table_ok 3 counts tus ->
  scratch_ok sc -> 0 < Z.of_nat (length sc) ->
  three_camera_matching cl 3 counts accept sc size tus = Ok (sc, 0) /\
    (forall t, ~ is_triplet_padded cl 3 counts tus accept t) \/
  three_camera_matching cl 3 counts accept sc size tus = Exn ValueError /\
    (exists t, is_triplet_padded cl 3 counts tus accept t).
Proof. exact three_cams3. Qed.
Print Assumptions C06_three_cameras_raise.

(** ===== C07 ===== Pair search is exact. *)
Theorem C07_pair_exact : forall nc cl counts accept sc size tus,
  nc <= 4 -> wf_adj nc counts cl -> table_ok nc counts tus ->
  scratch_ok sc -> 0 < size <= Z.of_nat (length sc) ->
  exists found,
    (forall t, In t found <-> is_pair cl nc counts tus accept t) /\ NoDup found /\
    consistent_pair_matching cl nc counts accept sc size tus =
      Ok (overwrite_nc (Z.to_nat nc) sc (firstn (Z.to_nat size) found),
          Z.of_nat (length (firstn (Z.to_nat size) found))).
Proof. exact pair_exact. Qed.
Print Assumptions C07_pair_exact.

Example C07_case : wf_adj 4 ex_counts ex_adj /\ table_ok 4 ex_counts free_marks /\ scratch_ok ex_scratch /\
  is_pair ex_adj 4 ex_counts free_marks f1 {| tp := [-2; 0; -2; 0]; tcorr := f2 |}.
Proof.
  destruct ex_adj_ok as (W & D & _). destruct free_marks_ok as (T & _).
  exact (conj W (conj T (conj ex_scratch_ok ex_pair))).
Qed.

(** ===== C08 ===== Natural expectation: a result for 2, 3 and 4 cameras.  Proved for 4;
    for 2 and 3 cameras no input gives a result. *)
Theorem C08_four_cameras : forall srt cl counts corrmin flag flat targets,
  sorts srt -> wf_adj 4 counts cl -> distinct_cands cl ->
  (forall n, In n counts -> 1 <= n <= NMAX) ->
  coords_ok 4 counts flat targets ->
  exists con tg Q T P rq rt rp,
    correspondences_from srt NMAX cl counts corrmin 4 flag flat targets [0; 0; 0; 0] =
      Ok (con, [Z.of_nat (length Q); Z.of_nat (length T); Z.of_nat (length P); Z.of_nat (length (Q ++ T ++ P))], tg) /\
    firstn (length (Q ++ T ++ P)) con = Q ++ T ++ P /\
    py_correspondences_multi srt cl counts corrmin 4 flag flat targets =
      Ok ([rq; rt; rp], Z.of_nat (length (Q ++ T ++ P)), tg) /\
    reports 4 flat targets Q rq /\ reports 4 flat targets T rt /\ reports 4 flat targets P rp.
Proof. exact py4_ok. Qed.
Print Assumptions C08_four_cameras.

Theorem C08_two_three_cameras_refuted :
  (forall srt cl counts corrmin flag flat targets,
     exists e, py_correspondences_multi srt cl counts corrmin 2 flag flat targets = Exn e) /\
  (forall srt cl counts corrmin flag flat targets,
     exists e, py_correspondences_multi srt cl counts corrmin 3 flag flat targets = Exn e).
Proof. exact (conj py2_fails py3_fails). Qed.
Print Assumptions C08_two_three_cameras_refuted.

(** ===== C09 ===== One camera. *)
Theorem C09_single_camera : forall img corrected,
  length corrected = length img ->
  (forall c, In c corrected -> 0 <= c_pnr c < Z.of_nat (length img)) -> NoDup (map c_pnr corrected) ->
  exists ids tg, single_cam_correspondences img corrected = Ok (ids, tg) /\
    length tg = length img /\
    Forall2 (fun c item => exists t, nth_error img (Z.to_nat (c_pnr c)) = Some t /\ item = (c_pnr c, t_x t, t_y t)) corrected ids /\
    forall pt c t, nth_error corrected pt = Some c -> nth_error img (Z.to_nat (c_pnr c)) = Some t ->
       nth_error tg (Z.to_nat (c_pnr c)) = Some (with_number t (Z.of_nat pt)).
Proof. exact single_cam_ok. Qed.
Print Assumptions C09_single_camera.

Example C09_case : exists ids tg, single_cam_correspondences [tar 0; tar 1; tar 2] [crd 2; crd 0; crd 1] = Ok (ids, tg) /\
  map t_tnr tg = [1; 2; 0].
Proof. eexists _, _. split; vm_compute; reflexivity. Qed.

(** ===== candidate lists (with C10) ===== the adjacency lists are exactly the
    candidates found, and satisfy the well-formedness assumed above *)
Theorem C10_match_pairs_exact : forall cands nc counts maxt, 0 <= nc -> length counts = Z.to_nat nc ->
  (forall n, In n counts -> 0 <= n <= Z.of_nat maxt) -> cands_ok cands nc counts ->
  exists cl, match_pairs cands nc counts (empty_adj (Z.to_nat nc) maxt) = Ok cl /\
    wf_adj nc counts cl /\ distinct_cands cl /\
    (forall a b i na, 0 <= a < b -> b < nc -> nth_error counts (Z.to_nat a) = Some na -> 0 <= i < na ->
       forall j x d, edge cl a b i j x d <-> exists l, cands a b i = Ok l /\ In (j, x, d) l).
Proof. exact match_pairs_exact. Qed.
Print Assumptions C10_match_pairs_exact.
