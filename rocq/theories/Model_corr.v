(** Model of openptv_python/correspondences.py.
    Scores and distances are binary64 (f64), counts and target numbers Z.
    numpy int32 fields are modelled by unbounded Z: all values stored are loop
    indices below the array sizes. *)
From Verif Require Import Base F64.
Local Open Scope Z_scope.

(** constants.py:3-5 *)
Definition NMAX : Z := 10000.
Definition MAXCAND : Z := 40.
Definition PT_UNUSED : Z := -999.
Definition CORRES_NONE : Z := -1.

(** tracking_frame_buf.py:26  n_tupel_dtype *)
Record ntupel := mk_ntupel { tp : list Z; tcorr : f64 }.

(** correspondences.py:19-27  Correspond_dtype *)
Record correspond := mk_correspond
  { cp1 : Z; cn : Z; cp2 : list Z; ccorr : list f64; cdist : list f64 }.

(** [num_cams][num_cams][max targets] array *)
Definition adj := list (list (list correspond)).

(** correspondences.py:74-86: initial adjacency lists *)
Definition empty_correspond : correspond :=
  {| cp1 := PT_UNUSED; cn := 0; cp2 := repeat 0 (Z.to_nat MAXCAND);
     ccorr := repeat fzero (Z.to_nat MAXCAND); cdist := repeat fzero (Z.to_nat MAXCAND) |}.
Definition empty_adj (num_cams : nat) (maxt : nat) : adj :=
  repeat (repeat (repeat empty_correspond maxt) num_cams) num_cams.

(** corr_list[i1][i2][i] *)
Definition getc (cl : adj) (i1 i2 i : Z) : result correspond :=
  do a <- pyget cl i1; do b <- pyget a i2; pyget b i.

(** tusage[cam][t] *)
Definition getu (tus : list (list Z)) (cam t : Z) : result Z :=
  do a <- pyget tus cam; pyget a t.

(** scratch array and number of entries written so far *)
Definition scr := (list ntupel * Z)%type.

(** `scratch[matched] := ...; matched += 1; if matched == scratch_size: return`
    (correspondences.py:150-161, 227-239, 274-286) *)
Definition emit (size : Z) (mk : ntupel -> result ntupel) (s : scr) : ctl scr :=
  let '(sc, matched) := s in
  tryC (pyget sc matched) (fun old =>
  tryC (mk old) (fun t =>
  tryC (pyset sc matched t) (fun sc' =>
  let matched' := matched + 1 in
  if matched' =? size then Ret (sc', matched') else Next (sc', matched')))).

(** correspondences.py:90-163 *)
Definition four_camera_matching (cl : adj) (base : Z) (accept : f64)
    (scratch : list ntupel) (size : Z) : result scr :=
  runC (forC (zrange 0 base) (fun i s =>
    tryC (getc cl 0 1 i) (fun c01 =>
    let p1 := cp1 c01 in
    forC (zrange 0 (cn c01)) (fun j s =>
      tryC (pyget (cp2 c01) j) (fun p2 =>
      tryC (getc cl 0 2 i) (fun c02 =>
      forC (zrange 0 (cn c02)) (fun k s =>
        tryC (pyget (cp2 c02) k) (fun p3 =>
        tryC (getc cl 0 3 i) (fun c03 =>
        forC (zrange 0 (cn c03)) (fun ll s =>
          tryC (pyget (cp2 c03) ll) (fun p4 =>
          tryC (getc cl 1 2 p2) (fun c12 =>
          forC (zrange 0 (cn c12)) (fun m s =>
            tryC (pyget (cp2 c12) m) (fun p31 =>
            if negb (p3 =? p31) then Next s else
            tryC (getc cl 1 3 p2) (fun c13 =>
            forC (zrange 0 (cn c13)) (fun n s =>
              tryC (pyget (cp2 c13) n) (fun p41 =>
              if negb (p4 =? p41) then Next s else
              tryC (getc cl 2 3 p3) (fun c23 =>
              forC (zrange 0 (cn c23)) (fun o s =>
                tryC (pyget (cp2 c23) o) (fun p42 =>
                if negb (p4 =? p42) then Next s else
                tryC (pyget (ccorr c01) j) (fun x1 =>
                tryC (pyget (ccorr c02) k) (fun x2 =>
                tryC (pyget (ccorr c03) ll) (fun x3 =>
                tryC (pyget (ccorr c12) m) (fun x4 =>
                tryC (pyget (ccorr c13) n) (fun x5 =>
                tryC (pyget (ccorr c23) o) (fun x6 =>
                tryC (pyget (cdist c01) j) (fun d1 =>
                tryC (pyget (cdist c02) k) (fun d2 =>
                tryC (pyget (cdist c03) ll) (fun d3 =>
                tryC (pyget (cdist c12) m) (fun d4 =>
                tryC (pyget (cdist c13) n) (fun d5 =>
                tryC (pyget (cdist c23) o) (fun d6 =>
                let corr :=
                  fdiv (fadd (fadd (fadd (fadd (fadd x1 x2) x3) x4) x5) x6)
                       (fadd (fadd (fadd (fadd (fadd d1 d2) d3) d4) d5) d6) in
                if fle corr accept then Next s else
                emit size (fun old =>
                  do q0 <- pyset (tp old) 0 p1;
                  do q1 <- pyset q0 1 p2;
                  do q2 <- pyset q1 2 p3;
                  do q3 <- pyset q2 3 p4;
                  Ok {| tp := q3; tcorr := corr |}) s))))))))))))))
              s)))
            s))) s))) s))) s))) s)) (scratch, 0)).

(** np.where(p2array == p3)[0][0], over all MAXCAND slots (correspondences.py:203-205) *)
Fixpoint find_first (l : list Z) (x : Z) (i : Z) : option Z :=
  match l with
  | [] => None
  | h :: t => if h =? x then Some i else find_first t x (i + 1)
  end.

(** correspondences.py:166-242.  `scratch[matched].p = p` copies a num_cams
    vector into the 4-slot field: numpy raises ValueError unless the lengths
    agree (227-230). *)
Definition three_camera_matching (cl : adj) (num_cams : Z) (counts : list Z)
    (accept : f64) (scratch : list ntupel) (size : Z) (tus : list (list Z)) : result scr :=
  runC (forC (zrange 0 (num_cams - 2)) (fun i1 s =>
    tryC (pyget counts i1) (fun cnt1 =>
    forC (zrange 0 cnt1) (fun i s =>
      forC (zrange (i1 + 1) (num_cams - 1)) (fun i2 s =>
        tryC (getc cl i1 i2 i) (fun c12 =>
        let p1 := cp1 c12 in
        if NMAX <=? p1 then Next s else
        tryC (getu tus i1 p1) (fun u1 =>
        if 0 <? u1 then Next s else
        forC (zrange 0 (cn c12)) (fun j s =>
          tryC (pyget (cp2 c12) j) (fun p2 =>
          if NMAX <? p2 then Next s else
          tryC (getu tus i2 p2) (fun u2 =>
          if 0 <? u2 then Next s else
          forC (zrange (i2 + 1) num_cams) (fun i3 s =>
            tryC (getc cl i1 i3 i) (fun c13 =>
            forC (zrange 0 (cn c13)) (fun k s =>
              tryC (pyget (cp2 c13) k) (fun p3 =>
              if NMAX <? p3 then Next s else
              tryC (getu tus i3 p3) (fun u3 =>
              if 0 <? u3 then Next s else
              tryC (getc cl i2 i3 p2) (fun c23 =>
              match find_first (cp2 c23) p3 0 with
              | None => Next s
              | Some m =>
                tryC (pyget (ccorr c12) j) (fun x1 =>
                tryC (pyget (ccorr c13) k) (fun x2 =>
                tryC (pyget (ccorr c23) m) (fun x3 =>
                tryC (pyget (cdist c12) j) (fun d1 =>
                tryC (pyget (cdist c13) k) (fun d2 =>
                tryC (pyget (cdist c23) m) (fun d3 =>
                let corr := fdiv (fadd (fadd x1 x2) x3) (fadd (fadd d1 d2) d3) in
                if fle corr accept then Next s else
                emit size (fun old =>
                  do q1 <- pyset (repeat (-2) (Z.to_nat num_cams)) i1 p1;
                  do q2 <- pyset q1 i2 p2;
                  do q3 <- pyset q2 i3 p3;
                  if Nat.eqb (length q3) (length (tp old))
                  then Ok {| tp := q3; tcorr := corr |}
                  else Exn ValueError) s))))))
              end)))) s)) s))) s))) s) s)) (scratch, 0)).

(** correspondences.py:245-288 *)
Definition consistent_pair_matching (cl : adj) (num_cams : Z) (counts : list Z)
    (accept : f64) (scratch : list ntupel) (size : Z) (tus : list (list Z)) : result scr :=
  runC (forC (zrange 0 (num_cams - 1)) (fun i1 s =>
    forC (zrange (i1 + 1) num_cams) (fun i2 s =>
      tryC (pyget counts i1) (fun cnt1 =>
      forC (zrange 0 cnt1) (fun i s =>
        tryC (getc cl i1 i2 i) (fun c =>
        let p1 := cp1 c in
        if NMAX <=? p1 then Next s else
        tryC (getu tus i1 p1) (fun u1 =>
        if 0 <? u1 then Next s else
        if negb (cn c =? 1) then Next s else
        tryC (pyget (cp2 c) 0) (fun p2 =>
        if NMAX <=? p2 then Next s else
        tryC (getu tus i2 p2) (fun u2 =>
        if 0 <? u2 then Next s else
        tryC (pyget (ccorr c) 0) (fun x =>
        tryC (pyget (cdist c) 0) (fun d =>
        let corr := fdiv x d in
        if fle corr accept then Next s else
        emit size (fun old =>
          do q0 <- foldM (fun q n => pyset q n (-2)) (zrange 0 num_cams) (tp old);
          do q1 <- pyset q0 i1 p1;
          do q2 <- pyset q1 i2 p2;
          Ok {| tp := q2; tcorr := corr |}) s))))))) s)) s) (scratch, 0)).

(** correspondences.py:443-453: does any camera's target of this candidate carry a mark? *)
Definition has_used_target (num_cams : Z) (tus : list (list Z)) (c : ntupel) : result bool :=
  foldM (fun (b : bool) cam =>
    if b then Ok b else (* break *)
    do tnum <- pyget (tp c) cam;
    if -1 <? tnum then do u <- getu tus cam tnum; Ok (0 <? u) else Ok false)
  (zrange 0 num_cams) false.

(** correspondences.py:459-462 *)
Definition mark_targets (num_cams : Z) (tus : list (list Z)) (c : ntupel) : result (list (list Z)) :=
  foldM (fun tus cam =>
    do tnum <- pyget (tp c) cam;
    if -1 <? tnum then
      do row <- pyget tus cam;
      do u <- pyget row tnum;
      do row' <- pyset row tnum (u + 1);
      pyset tus cam row'
    else Ok tus)
  (zrange 0 num_cams) tus.

(** correspondences.py:442-467: the selection loop over the sorted candidates;
    state: number taken, destination, usage marks *)
Definition take_step (num_cams : Z) (s : Z * list ntupel * list (list Z)) (c : ntupel)
  : result (Z * list ntupel * list (list Z)) :=
  let '(taken, dst, tus) := s in
  do used <- has_used_target num_cams tus c;
  if (used : bool) then Ok s else
  do tus' <- mark_targets num_cams tus c;
  do dst' <- pyset dst taken c;
  Ok (taken + 1, dst', tus').

(** tracking_frame_buf.py:76-87 Target *)
Record target := mk_target
  { t_pnr : Z; t_x : f64; t_y : f64; t_n : Z; t_nx : Z; t_ny : Z; t_sumg : Z; t_tnr : Z }.

Definition set_tnr (t : target) (v : Z) : target :=
  {| t_pnr := t_pnr t; t_x := t_x t; t_y := t_y t; t_n := t_n t; t_nx := t_nx t;
     t_ny := t_ny t; t_sumg := t_sumg t; t_tnr := v |}.

(** epi.py Coord2d_dtype *)
Record coord2d := mk_coord2d { c_pnr : Z; c_x : f64; c_y : f64 }.

Section WithSort.
(** numpy's ndarray.sort(order="corr") on the candidate array (434): any
    function; its properties are hypotheses of the theorems (Spec_corr.sorts). *)
Variable np_sort_corr : list ntupel -> list ntupel.

(** correspondences.py:392-469.  Returns (taken, src, dst, tusage): src is
    sorted in place, dst and tusage are updated in place. *)
Definition take_best_candidates (src dst : list ntupel) (num_cams : Z) (tus : list (list Z))
  : result (Z * list ntupel * list ntupel * list (list Z)) :=
  let src' := rev (np_sort_corr src) in   (* 434-437 *)
  do r <- foldM (take_step num_cams) src' (0, dst, tus);
  let '(taken, dst', tus') := r in
  Ok (taken, src', dst', tus').

(** correspondences.py:672-683: give each used pix the correspondence number *)
Definition assign_tnr (num_cams total : Z) (con : list ntupel)
    (corrected : list (list coord2d)) (targets : list (list target))
  : result (list (list target)) :=
  foldM (fun tg i =>
    foldM (fun tg j =>
      do c <- pyget con i;
      do q <- pyget (tp c) j;
      if q <? 0 then Ok tg else
      do row <- pyget corrected j;
      do crd <- pyget row q;
      let p1 := c_pnr crd in
      if (-1 <? p1) && (p1 <? 1202590843) then
        do trow <- pyget tg j;
        do t <- pyget trow p1;
        do trow' <- pyset trow p1 (set_tnr t i);
        pyset tg j trow'
      else Ok tg) (zrange 0 num_cams) tg)
  (zrange 0 total) targets.

(** con[k:] (a view) with 0 <= k, and writing a view back *)
Definition view_from {A} (con : list A) (k : Z) : list A := skipn (Z.to_nat k) con.
Definition write_view {A} (con : list A) (k : Z) (v : list A) : list A :=
  firstn (Z.to_nat k) con ++ v.

(** one phase: scratch search result -> take_best into con[match_counts[3]:],
    match_counts[slot] = taken; match_counts[3] += taken
    (correspondences.py:641-647, 650-658, 661-669) *)
Definition phase (slot : Z) (num_cams : Z)
    (found : scr) (st : list ntupel * list ntupel * list (list Z) * list Z)
  : result (list ntupel * list ntupel * list (list Z) * list Z) :=
  let '(con0, con, tim, mc) := st in
  do off <- (if slot =? 0 then Ok 0 else pyget mc 3);
  do r <- take_best_candidates (fst found) (view_from con off) num_cams tim;
  let '(taken, con0', v, tim') := r in
  let con' := write_view con off v in
  do mc1 <- pyset mc slot taken;
  do total <- pyget mc1 3;
  do mc2 <- pyset mc1 3 (total + taken);
  Ok (con0', con', tim', mc2).

(** correspondences.py:588-700 after the adjacency lists are computed.
    Returns (con, match_counts, targets). *)
Definition correspondences_from (nmax : Z) (cl : adj) (counts : list Z) (corrmin : f64)
    (num_cams all_cam_flag : Z)
    (corrected : list (list coord2d)) (targets : list (list target)) (mc : list Z)
  : result (list ntupel * list Z * list (list target)) :=
  let blank := {| tp := repeat 0 4; tcorr := fzero |} in
  let con0 := repeat blank (Z.to_nat (nmax * num_cams)) in
  let con := repeat blank (Z.to_nat (nmax * num_cams)) in
  let tim := repeat (repeat 0 (Z.to_nat nmax)) (Z.to_nat num_cams) in
  let st := (con0, con, tim, mc) in
  do st <-
    (if num_cams =? 4 then
       let '(con0, con, tim, mc) := st in
       do base <- pyget counts 0;
       do f <- four_camera_matching cl base corrmin con0 (4 * nmax);
       phase 0 num_cams f (con0, con, tim, mc)
     else Ok st);
  do st <-
    (if ((num_cams =? 4) && (all_cam_flag =? 0)) || (num_cams =? 3) then
       let '(con0, con, tim, mc) := st in
       do f <- three_camera_matching cl num_cams counts corrmin con0 (4 * nmax) tim;
       phase 1 num_cams f (con0, con, tim, mc)
     else Ok st);
  do st <-
    (if (1 <? num_cams) && (all_cam_flag =? 0) then
       let '(con0, con, tim, mc) := st in
       do f <- consistent_pair_matching cl num_cams counts corrmin con0 (4 * nmax) tim;
       phase 2 num_cams f (con0, con, tim, mc)
     else Ok st);
  let '(con0, con, tim, mc) := st in
  do total <- pyget mc 3;
  do tg <- assign_tnr num_cams total con corrected targets;
  Ok (con, mc, tg).

(** correspondences.py:562-577: geo_id lookup of one clique type;
    returns ids[cam][pt] and positions *)
Definition py_collect (num_cams : Z) (img_pts : list (list target)) (flat : list (list coord2d))
    (con : list ntupel) (last num_points : Z) : result (list (list (Z * f64 * f64))) :=
  foldM (fun acc cam =>
    do row <- foldM (fun row pt =>
        do c <- pyget con (pt + last);
        do geo <- pyget (tp c) cam;
        if geo <? 0 then Ok (row ++ [(CORRES_NONE, f_of_Z PT_UNUSED, f_of_Z PT_UNUSED)]) else
        do fl <- pyget flat cam;
        do crd <- pyget fl geo;
        let p1 := c_pnr crd in
        if -1 <? p1 then
          do im <- pyget img_pts cam;
          do t <- pyget im p1;
          Ok (row ++ [(p1, t_x t, t_y t)])
        else Ok (row ++ [(p1, f_of_Z PT_UNUSED, f_of_Z PT_UNUSED)]))
      (zrange 0 num_points) [];
    Ok (acc ++ [row])) (zrange 0 num_cams) [].

(** correspondences.py:472-585 for num_cams >= 2 (one camera: see
    [single_cam_correspondences]); [cl] is what match_pairs computes. *)
Definition py_correspondences_multi (cl : adj) (counts : list Z) (corrmin : f64)
    (num_cams all_cam_flag : Z)
    (flat : list (list coord2d)) (img_pts : list (list target))
  : result (list (list (list (Z * f64 * f64))) * Z * list (list target)) :=
  let mc := repeat 0 (Z.to_nat num_cams) in            (* 533 *)
  do r <- correspondences_from NMAX cl counts corrmin num_cams all_cam_flag flat img_pts mc;
  let '(con, mc, tg) := r in
  do out <- foldM (fun '(acc, last) clique_type =>
      do num_points <- pyget mc (4 - num_cams + clique_type);
      do rows <- py_collect num_cams tg flat con last num_points;
      Ok (acc ++ [rows], last + num_points))
    (zrange 0 (num_cams - 1)) ([], 0);
  do num_targs <- pyget mc (num_cams - 1);
  Ok (fst out, num_targs, tg).
End WithSort.

(** correspondences.py:703-760.  Returns the ids with positions in list order
    and the updated targets. *)
Definition single_cam_correspondences (img_pts : list target) (corrected : list coord2d)
  : result (list (Z * f64 * f64) * list target) :=
  foldM (fun '(ids, tg) pt =>
    do c <- pyget corrected pt;
    let p1 := c_pnr c in
    if -1 <? p1 then
      do t <- pyget tg p1;
      do tg' <- pyset tg p1 (set_tnr t pt);
      Ok (ids ++ [(p1, t_x t, t_y t)], tg')
    else Ok (ids ++ [(p1, f_of_Z PT_UNUSED, f_of_Z PT_UNUSED)], tg))
  (zrange 0 (Z.of_nat (length img_pts))) ([], img_pts).

(** correspondences.py:291-389, with epi_mm + find_candidate for target i of
    camera i1 in camera i2 given by the oracle [cands i1 i2 i] (a list of
    (target number, correlation, distance to the line)). *)
Section Pairs.
Variable cands : Z -> Z -> Z -> result (list (Z * f64 * f64)).

Definition setc (cl : adj) (i1 i2 i : Z) (c : correspond) : result adj :=
  do a <- pyget cl i1; do b <- pyget a i2; do b' <- pyset b i c;
  do a' <- pyset a i2 b'; pyset cl i1 a'.

Definition fill_corr (c : correspond) (j : Z) (x : Z * f64 * f64) : result correspond :=
  let '(pnr, corr, tol) := x in
  do q <- pyset (cp2 c) j pnr;
  do r <- pyset (ccorr c) j corr;
  do d <- pyset (cdist c) j tol;
  Ok {| cp1 := cp1 c; cn := cn c; cp2 := q; ccorr := r; cdist := d |}.

Definition match_pairs (num_cams : Z) (counts : list Z) (cl : adj) : result adj :=
  foldM (fun cl i1 =>
    foldM (fun cl i2 =>
      do cnt <- pyget counts i1;
      foldM (fun cl i =>
        do c <- getc cl i1 i2 i;
        let c := {| cp1 := i; cn := cn c; cp2 := cp2 c; ccorr := ccorr c; cdist := cdist c |} in
        do cand <- cands i1 i2 i;
        let count := Z.min (Z.of_nat (length cand)) MAXCAND in
        do c <- foldM (fun c j => do x <- pyget cand j; fill_corr c j x) (zrange 0 count) c;
        setc cl i1 i2 i {| cp1 := cp1 c; cn := count; cp2 := cp2 c; ccorr := ccorr c; cdist := cdist c |})
      (zrange 0 cnt) cl)
    (zrange (i1 + 1) num_cams) cl)
  (zrange 0 (num_cams - 1)) cl.
End Pairs.
