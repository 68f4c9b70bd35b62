(** Parameter sets: reading, writing, comparing, converting (openptv_python/parameters.py)
    and orientation files (openptv_python/calibration.py).
    An exception raised while a file is open leaves what was written so far. *)
From Verif Require Import F64 Model_text Model_corr Model_track Model_io Base.
Local Open Scope Z_scope.

(** ---- lines ---- *)
Definition rstrip (t : text) : text := rev (drop_space (rev t)).
(** file.readline().strip() *)
Definition rd_name (ls : list text) : text * list text := let '(l, r) := readline ls in (strip l, r).
(** int(file.readline().strip()) *)
Definition rd_int (ls : list text) : result (Z * list text) := let '(l, r) := readline ls in do z <- parse_int (strip l); Ok (z, r).
(** float(file.readline().strip()) *)
Definition rd_float (ls : list text) : result (f64 * list text) := let '(l, r) := readline ls in do z <- parse_float (strip l); Ok (z, r).
(** float(file.readline().rstrip()) *)
Definition rd_float_r (ls : list text) : result (f64 * list text) := let '(l, r) := readline ls in do z <- parse_float (rstrip l); Ok (z, r).
Definition rd_int_r (ls : list text) : result (Z * list text) := let '(l, r) := readline ls in do z <- parse_int (rstrip l); Ok (z, r).
(** int(file.readline()), float(file.readline()) *)
Definition rd_int0 (ls : list text) : result (Z * list text) := let '(l, r) := readline ls in do z <- parse_int l; Ok (z, r).
Definition rd_float0 (ls : list text) : result (f64 * list text) := let '(l, r) := readline ls in do z <- parse_float l; Ok (z, r).
(** k names, one per line *)
Fixpoint rd_names (k : nat) (ls : list text) : list text * list text :=
  match k with O => ([], ls) | S k' => let '(a, r) := rd_name ls in let '(l, r') := rd_names k' r in (a :: l, r') end.

(** ---- the parameter sets ---- *)
(** parameters.py:59-72 *)
Record mmpar := mk_mmp { mp_nlay : Z; mp_n1 : f64; mp_n2 : list f64; mp_d : list f64; mp_n3 : f64 }.
Definition mm_default : mmpar := mk_mmp 1 (f_of_Z 1) [f_of_Z 1] [fzero] (f_of_Z 1).
(** MultimediaPar(...): __post_init__, 69-71 *)
Definition mm_new (p : mmpar) : result mmpar :=
  if Nat.eqb (length (mp_n2 p)) (length (mp_d p)) then Ok p else Exn ValueError.
(** parameters.py:125-131 *)
Record seqpar := mk_seqpar { sq_names : list text; sq_first : Z; sq_last : Z }.
(** parameters.py:195-211 *)
Record trackpar := mk_trackpar { tk_dvxmin : f64; tk_dvxmax : f64; tk_dvymin : f64; tk_dvymax : f64; tk_dvzmin : f64; tk_dvzmax : f64;
  tk_dangle : f64; tk_dacc : f64; tk_add : Z; tk_dsumg : f64; tk_dn : f64; tk_dnx : f64; tk_dny : f64 }.
(** parameters.py:336-352 *)
Record volumepar := mk_volumepar { vp_x_lay : list f64; vp_z_min : list f64; vp_z_max : list f64; vp_cn : f64; vp_cnx : f64; vp_cny : f64;
  vp_csumg : f64; vp_eps0 : f64; vp_corrmin : f64 }.
(** parameters.py:440-455 *)
Record ctrlpar := mk_ctrlpar { cp_num : Z; cp_names : list text; cp_cal : list text; cp_hp : Z; cp_all : Z; cp_tiff : Z; cp_imx : Z; cp_imy : Z;
  cp_pix_x : f64; cp_pix_y : f64; cp_chfield : Z; cp_mm : mmpar }.
(** parameters.py:589-602 *)
Record targetpar := mk_targetpar { tg_gv : list Z; tg_discont : Z; tg_nnmin : Z; tg_nnmax : Z; tg_nxmin : Z; tg_nxmax : Z; tg_nymin : Z; tg_nymax : Z;
  tg_sumg : Z; tg_cr : Z }.
Definition target_default : targetpar := mk_targetpar [] 100 1 100 1 100 1 100 10 1.
(** parameters.py:713-728 *)
Record orientpar := mk_orientpar { op_use : Z; op_cc : Z; op_xh : Z; op_yh : Z; op_k1 : Z; op_k2 : Z; op_k3 : Z; op_p1 : Z; op_p2 : Z; op_scx : Z;
  op_she : Z; op_interf : Z }.
Definition orient_default : orientpar := mk_orientpar 0 0 0 0 0 0 0 0 0 0 0 0.
(** parameters.py:763-772 *)
Record calpar := mk_calpar { cl_fixp : text; cl_img : list text; cl_ori : list text; cl_tiff : Z; cl_pair : Z; cl_chfield : Z }.

(** ---- legacy readers ---- *)
(** parameters.py:165-179 *)
Definition read_sequence (fs : files) (name : text) (num_cams : Z) : result seqpar :=
  match fs name with None => Exn IOError | Some t =>
    let '(names, ls) := rd_names (Z.to_nat num_cams) (lines t) in
    do (first, ls) <- rd_int ls; do (last, ls) <- rd_int ls; Ok (mk_seqpar names first last) end.
(** parameters.py:213-236.  `raise (f"...")` raises TypeError: a string is no exception. *)
Definition read_track (fs : files) (name : text) : result trackpar :=
  match fs name with None => Exn TypeError | Some t =>
    do (a, ls) <- rd_float_r (lines t); do (b, ls) <- rd_float_r ls; do (c, ls) <- rd_float_r ls; do (d, ls) <- rd_float_r ls;
    do (e, ls) <- rd_float_r ls; do (f, ls) <- rd_float_r ls; do (g, ls) <- rd_float_r ls; do (h, ls) <- rd_float_r ls;
    do (i, ls) <- rd_int_r ls; Ok (mk_trackpar a b c d e f g h i fzero fzero fzero fzero) end.
(** parameters.py:396-416 *)
Definition read_volume (fs : files) (name : text) : result volumepar :=
  match fs name with None => Exn IOError | Some t =>
    do (xa, ls) <- rd_float0 (lines t); do (za, ls) <- rd_float0 ls; do (wa, ls) <- rd_float0 ls;
    do (xb, ls) <- rd_float0 ls; do (zb, ls) <- rd_float0 ls; do (wb, ls) <- rd_float0 ls;
    do (cnx, ls) <- rd_float0 ls; do (cny, ls) <- rd_float0 ls; do (cn, ls) <- rd_float0 ls; do (csumg, ls) <- rd_float0 ls;
    do (corrmin, ls) <- rd_float0 ls; do (eps0, ls) <- rd_float0 ls;
    Ok (mk_volumepar [xa; xb] [za; zb] [wa; wb] cn cnx cny csumg eps0 corrmin) end.
(** num_cams times: image name, calibration image name *)
Fixpoint rd_pairs (k : nat) (ls : list text) : list text * list text * list text :=
  match k with
  | O => ([], [], ls)
  | S k' => let '(a, r) := rd_name ls in let '(b, r) := rd_name r in let '(la, lb, r) := rd_pairs k' r in (a :: la, b :: lb, r)
  end.
(** parameters.py:514-549 *)
Definition read_control (fs : files) (name : text) : result ctrlpar :=
  match fs name with None => Exn FileNotFoundError | Some t =>
    do (num, ls) <- rd_int (lines t);
    let '(names, cal, ls) := rd_pairs (Z.to_nat num) ls in
    do (hp, ls) <- rd_int ls; do (all, ls) <- rd_int ls; do (tiff, ls) <- rd_int ls; do (imx, ls) <- rd_int ls; do (imy, ls) <- rd_int ls;
    do (pix_x, ls) <- rd_float ls; do (pix_y, ls) <- rd_float ls; do (chfield, ls) <- rd_int ls;
    do (n1, ls) <- rd_float ls; do (n2, ls) <- rd_float ls; do (n3, ls) <- rd_float ls; do (d, ls) <- rd_float ls;
    Ok (mk_ctrlpar num names cal hp all tiff imx imy pix_x pix_y chfield (mk_mmp 1 n1 [n2] [d] n3)) end.
(** parameters.py:624-668: a missing file gives the defaults *)
Definition read_target_par (fs : files) (name : text) : result targetpar :=
  match fs name with None => Ok target_default | Some t =>
    do (g0, ls) <- rd_int0 (lines t); do (g1, ls) <- rd_int0 ls; do (g2, ls) <- rd_int0 ls; do (g3, ls) <- rd_int0 ls;
    do (disc, ls) <- rd_int0 ls; do (nnmin, ls) <- rd_int0 ls; do (nnmax, ls) <- rd_int0 ls; do (nxmin, ls) <- rd_int0 ls; do (nxmax, ls) <- rd_int0 ls;
    do (nymin, ls) <- rd_int0 ls; do (nymax, ls) <- rd_int0 ls; do (sumg, ls) <- rd_int0 ls; do (cr, ls) <- rd_int0 ls;
    Ok (mk_targetpar [g0; g1; g2; g3] disc nnmin nnmax nxmin nxmax nymin nymax sumg cr) end.
(** parameters.py:730-760: a missing file gives the defaults *)
Definition read_orient_par (fs : files) (name : text) : result orientpar :=
  match fs name with None => Ok orient_default | Some t =>
    do (a, ls) <- rd_int (lines t); do (b, ls) <- rd_int ls; do (c, ls) <- rd_int ls; do (d, ls) <- rd_int ls; do (e, ls) <- rd_int ls; do (f, ls) <- rd_int ls;
    do (g, ls) <- rd_int ls; do (h, ls) <- rd_int ls; do (i, ls) <- rd_int ls; do (j, ls) <- rd_int ls; do (k, ls) <- rd_int ls; do (l, ls) <- rd_int ls;
    Ok (mk_orientpar a b c d e f g h i j k l) end.
(** tmp[0::2], tmp[1::2] *)
Fixpoint evens {A} (l : list A) : list A := match l with a :: _ :: r => a :: evens r | [a] => [a] | [] => [] end.
Fixpoint odds {A} (l : list A) : list A := match l with _ :: b :: r => b :: odds r | _ => [] end.
(** parameters.py:785-798 (801-813 is the same) *)
Definition read_cal_par (fs : files) (name : text) (num_cams : Z) : result calpar :=
  match fs name with None => Exn FileNotFoundError | Some t =>
    let '(fixp, ls) := rd_name (lines t) in
    let '(tmp, ls) := rd_names (Z.to_nat (num_cams * 2)) ls in
    do (tiff, ls) <- rd_int ls; do (pairf, ls) <- rd_int ls; do (chfield, ls) <- rd_int ls;
    Ok (mk_calpar fixp (evens tmp) (odds tmp) tiff pairf chfield) end.
(** parameters.py:823-829 *)
Definition read_multi_planes (fs : files) (name : text) : result (Z * list text) :=
  match fs name with None => Exn FileNotFoundError | Some t =>
    do (num, ls) <- rd_int (lines t); let '(names, ls) := rd_names (Z.to_nat num) ls in Ok (num, names) end.
(** parameters.py:839-845 (848-853 is the same) *)
Definition read_examine (fs : files) (name : text) : result (bool * bool) :=
  match fs name with None => Exn FileNotFoundError | Some t =>
    do (a, ls) <- rd_int (lines t); do (b, ls) <- rd_int ls; Ok (negb (a =? 0), negb (b =? 0)) end.
(** parameters.py:862-867 *)
Definition read_pft (fs : files) (name : text) : result bool :=
  match fs name with None => Exn FileNotFoundError | Some t => do (a, ls) <- rd_int (lines t); Ok (negb (a =? 0)) end.

(** ---- writers ---- *)
Section Writers.
Variable can_write : text -> bool.
(** parameters.py:705-710: the file is opened, and so emptied, before the thresholds are looked up *)
Definition write_target_par (fs : files) (p : targetpar) (name : text) : files * result unit :=
  if can_write name then
    match tg_gv p with
    | g0 :: g1 :: g2 :: g3 :: _ =>
        (put fs name (line (print_int g0) ++ line (print_int g1) ++ line (print_int g2) ++ line (print_int g3) ++ line (print_int (tg_discont p)) ++
           line (print_int (tg_nnmin p)) ++ line (print_int (tg_nnmax p)) ++ line (print_int (tg_nxmin p)) ++ line (print_int (tg_nxmax p)) ++
           line (print_int (tg_nymin p)) ++ line (print_int (tg_nymax p)) ++ line (print_int (tg_sumg p)) ++ print_int (tg_cr p)), Ok tt)
    | _ => (put fs name [], Exn IndexError)
    end
  else (fs, Exn IOError).
(** parameters.py:869-873: a class method; it writes the class attribute (False), whatever object it is called on *)
Definition write_pft (fs : files) (existing_target_flag : bool) (name : text) : files * result unit :=
  if can_write name then (put fs name (line (txt "False")), Ok tt) else (fs, Exn IOError).
End Writers.

(** ---- comparison; == on floats, so NaN differs from NaN
    (Python's identity shortcut inside lists and tuples is not modelled) ---- *)
Fixpoint list_eqb {A} (eq : A -> A -> bool) (a b : list A) : bool :=
  match a, b with [], [] => true | x :: a, y :: b => eq x y && list_eqb eq a b | _, _ => false end.
(** parameters.py:114-122 *)
Definition compare_mm_np (a b : mmpar) : result bool :=
  match mp_n2 a, mp_d a, mp_n2 b, mp_d b with
  | x :: _, d :: _, y :: _, e :: _ => Ok ((mp_nlay a =? mp_nlay b) && feq (mp_n1 a) (mp_n1 b) && feq (mp_n3 a) (mp_n3 b) && feq x y && feq d e)
  | _, _, _, _ => Exn IndexError
  end.
(** dataclass ==: all fields *)
Definition mm_eq (a b : mmpar) : bool :=
  (mp_nlay a =? mp_nlay b) && feq (mp_n1 a) (mp_n1 b) && list_eqb feq (mp_n2 a) (mp_n2 b) && list_eqb feq (mp_d a) (mp_d b) && feq (mp_n3 a) (mp_n3 b).
(** parameters.py:187-192 *)
Definition compare_sequence_par (a b : seqpar) : bool :=
  list_eqb teqb (sq_names a) (sq_names b) && (sq_first a =? sq_first b) && (sq_last a =? sq_last b).
(** parameters.py:312-314 *)
Definition compare_track_par (a b : trackpar) : bool :=
  feq (tk_dvxmin a) (tk_dvxmin b) && feq (tk_dvxmax a) (tk_dvxmax b) && feq (tk_dvymin a) (tk_dvymin b) && feq (tk_dvymax a) (tk_dvymax b) &&
  feq (tk_dvzmin a) (tk_dvzmin b) && feq (tk_dvzmax a) (tk_dvzmax b) && feq (tk_dangle a) (tk_dangle b) && feq (tk_dacc a) (tk_dacc b) &&
  (tk_add a =? tk_add b) && feq (tk_dsumg a) (tk_dsumg b) && feq (tk_dn a) (tk_dn b) && feq (tk_dnx a) (tk_dnx b) && feq (tk_dny a) (tk_dny b).
(** parameters.py:433-437 *)
Definition compare_volume_par (a b : volumepar) : bool :=
  list_eqb feq (vp_x_lay a) (vp_x_lay b) && list_eqb feq (vp_z_min a) (vp_z_min b) && list_eqb feq (vp_z_max a) (vp_z_max b) &&
  feq (vp_cn a) (vp_cn b) && feq (vp_cnx a) (vp_cnx b) && feq (vp_cny a) (vp_cny b) && feq (vp_csumg a) (vp_csumg b) &&
  feq (vp_eps0 a) (vp_eps0 b) && feq (vp_corrmin a) (vp_corrmin b).
(** parameters.py:569-586 *)
Definition compare_control_par (a b : ctrlpar) : bool :=
  (cp_num a =? cp_num b) && (list_eqb teqb (cp_names a) (cp_names b) && list_eqb teqb (cp_cal a) (cp_cal b)) &&
  (cp_hp a =? cp_hp b) && (cp_all a =? cp_all b) && (cp_tiff a =? cp_tiff b) && (cp_imx a =? cp_imx b) && (cp_imy a =? cp_imy b) &&
  feq (cp_pix_x a) (cp_pix_x b) && feq (cp_pix_y a) (cp_pix_y b) && (cp_chfield a =? cp_chfield b) && mm_eq (cp_mm a) (cp_mm b).
(** parameters.py:697-702 *)
Definition compare_target_par (a b : targetpar) : bool :=
  list_eqb Z.eqb (tg_gv a) (tg_gv b) && (tg_discont a =? tg_discont b) && (tg_nnmin a =? tg_nnmin b) && (tg_nnmax a =? tg_nnmax b) &&
  (tg_nxmin a =? tg_nxmin b) && (tg_nxmax a =? tg_nxmax b) && (tg_nymin a =? tg_nymin b) && (tg_nymax a =? tg_nymax b) &&
  (tg_sumg a =? tg_sumg b) && (tg_cr a =? tg_cr b).

(** ---- dictionaries and YAML of ControlPar ---- *)
(** the value under the key "mm" *)
Inductive mm_value := MmDict (p : mmpar) | MmObj (p : mmpar).
(** a dictionary with the keys of ControlPar; "mm" may be missing.
    The other fields are taken over unchanged by cls( ** data). *)
Record ctrldict := mk_ctrldict { cd_num : Z; cd_names : list text; cd_cal : list text; cd_hp : Z; cd_all : Z; cd_tiff : Z; cd_imx : Z; cd_imy : Z;
  cd_pix_x : f64; cd_pix_y : f64; cd_chfield : Z; cd_mm : option mm_value }.
(** an object: its mm attribute can be anything *)
Record ctrlobj := mk_ctrlobj { co_num : Z; co_names : list text; co_cal : list text; co_hp : Z; co_all : Z; co_tiff : Z; co_imx : Z; co_imy : Z;
  co_pix_x : f64; co_pix_y : f64; co_chfield : Z; co_mm : mm_value }.
Definition obj_of (c : ctrlpar) : ctrlobj :=
  mk_ctrlobj (cp_num c) (cp_names c) (cp_cal c) (cp_hp c) (cp_all c) (cp_tiff c) (cp_imx c) (cp_imy c) (cp_pix_x c) (cp_pix_y c) (cp_chfield c) (MmObj (cp_mm c)).
Definition dict_with (d : ctrldict) (m : option mm_value) : ctrldict :=
  mk_ctrldict (cd_num d) (cd_names d) (cd_cal d) (cd_hp d) (cd_all d) (cd_tiff d) (cd_imx d) (cd_imy d) (cd_pix_x d) (cd_pix_y d) (cd_chfield d) m.
(** cls( ** data) *)
Definition ctrl_new (d : ctrldict) : ctrlobj :=
  mk_ctrlobj (cd_num d) (cd_names d) (cd_cal d) (cd_hp d) (cd_all d) (cd_tiff d) (cd_imx d) (cd_imy d) (cd_pix_x d) (cd_pix_y d) (cd_chfield d)
    (match cd_mm d with Some m => m | None => MmObj mm_default end).
(** MultimediaPar.from_dict(data) = cls( ** data), 36-39: needs a mapping *)
Definition mm_from_dict (v : mm_value) : result mmpar := match v with MmDict p => mm_new p | MmObj _ => Exn TypeError end.
(** parameters.py:457-462; the second component is the argument dictionary afterwards *)
Definition ctrl_from_dict (d : ctrldict) : result ctrlobj * ctrldict :=
  match (match cd_mm d with Some v => mm_from_dict v | None => mm_new mm_default end) with
  | Exn e => (Exn e, d)
  | Ok m => let d' := dict_with d (Some (MmObj m)) in (Ok (ctrl_new d'), d')
  end.
(** parameters.py:555-561; dataclasses.asdict converts nested dataclasses *)
Definition ctrl_to_dict (c : ctrlpar) : ctrldict :=
  mk_ctrldict (cp_num c) (cp_names c) (cp_cal c) (cp_hp c) (cp_all c) (cp_tiff c) (cp_imx c) (cp_imy c) (cp_pix_x c) (cp_pix_y c) (cp_chfield c) (Some (MmDict (cp_mm c))).
(** parameters.py:46-56 (not overridden in ControlPar); [dump] and [load] stand for yaml.dump and yaml.safe_load *)
Definition ctrl_to_yaml (dump : ctrldict -> text) (c : ctrlpar) : text := dump (ctrl_to_dict c).
Definition ctrl_from_yaml (load : text -> ctrldict) (t : text) : ctrlobj := ctrl_new (load t).
(** compare_control_par on objects: a dict never equals a MultimediaPar *)
Definition mm_value_eq (a b : mm_value) : bool :=
  match a, b with MmObj p, MmObj q | MmDict p, MmDict q => mm_eq p q | _, _ => false end.
Definition compare_control_obj (a b : ctrlobj) : bool :=
  (co_num a =? co_num b) && (list_eqb teqb (co_names a) (co_names b) && list_eqb teqb (co_cal a) (co_cal b)) &&
  (co_hp a =? co_hp b) && (co_all a =? co_all b) && (co_tiff a =? co_tiff b) && (co_imx a =? co_imx b) && (co_imy a =? co_imy b) &&
  feq (co_pix_x a) (co_pix_x b) && feq (co_pix_y a) (co_pix_y b) && (co_chfield a =? co_chfield b) && mm_value_eq (co_mm a) (co_mm b).

(** ---------------- orientation files (calibration.py) ---------------- *)
(** calibration.py:52-63 and 70 *)
Record extf := mk_extf { xf_pos : list f64; xf_ang : list f64; xf_dm : list (list f64) }.
Record calf := mk_calf { cf_ext : extf; cf_int : list f64 (* xh yh cc *); cf_glass : list f64; cf_added : list f64 }.

Section Ori.
Variable can_write : text -> bool.
Variables fsin fcos : f64 -> f64.   (* np.sin, np.cos: arbitrary functions *)
(** calibration.py:12-49 *)
Definition frotation (omega phi kappa : f64) : list (list f64) :=
  let co := fcos omega in let so := fsin omega in let cp := fcos phi in let s_p := fsin phi in let ck := fcos kappa in let sk := fsin kappa in
  [[fmul cp ck; fmul (fneg cp) sk; s_p];
   [fadd (fmul co sk) (fmul (fmul so s_p) ck); fsub (fmul co ck) (fmul (fmul so s_p) sk); fmul (fneg so) cp];
   [fsub (fmul so sk) (fmul (fmul co s_p) ck); fadd (fmul so ck) (fmul (fmul co s_p) sk); fmul co cp]].
Definition added_default : list f64 := [fzero; fzero; fzero; fzero; fzero; f_of_Z 1; fzero].
(** Calibration(), 102-129 *)
Definition cal_default : calf :=
  mk_calf (mk_extf [fzero; fzero; fzero] [fzero; fzero; fzero] (frotation fzero fzero fzero)) [fzero; fzero; fzero] [fzero; fzero; f_of_Z 1] added_default.

(** numbers with k digits separated by single spaces *)
Fixpoint row (k : nat) (xs : list f64) : text :=
  match xs with [] => [] | [x] => print_fixed k x | x :: r => print_fixed k x ++ sp :: row k r end.
(** calibration.py:406-416: everything but the glass vector *)
Definition ori_head (c : calf) (xh yh cc : f64) : text :=
  line (row 8 (xf_pos (cf_ext c))) ++ line (row 8 (xf_ang (cf_ext c))) ++ [nl] ++
  flat_map (fun r => line (row 7 r)) (xf_dm (cf_ext c)) ++ [nl] ++
  line (row 4 [xh; yh]) ++ line (row 4 [cc]).
(** calibration.py:406-417 *)
Definition ori_text (c : calf) (xh yh cc : f64) (g0 g1 g2 : f64) : text :=
  ori_head c xh yh cc ++ [nl] ++ line (row 15 [g0; g1; g2]).
(** calibration.py:397-428 (write_calibration, 507-511, is the same).  Records have the right shapes (pos, ang: 3, dm: 3 x 3, int: 3);
    too few glass or added values raise IndexError while their line is formatted: the file, closed by the with statement, then
    holds what was written before. *)
Definition write_ori (fs : files) (c : calf) (name : text) (add : option text) : files * result bool :=
  if can_write name then
    match cf_int c with
    | [xh; yh; cc] =>
      match cf_glass c with
      | g0 :: g1 :: g2 :: _ =>
        let fs := put fs name (ori_text c xh yh cc g0 g1 g2) in
        match add with
        | None => (fs, Ok false)
        | Some a =>
          if can_write a then
            match cf_added c with
            | a0 :: a1 :: a2 :: a3 :: a4 :: a5 :: a6 :: _ => (put fs a (line (row 8 [a0; a1; a2; a3; a4; a5; a6])), Ok true)
            | _ => (put fs a [], Exn IndexError)
            end
          else (fs, Exn IOError)
        end
      | _ => (put fs name (ori_head c xh yh cc), Exn IndexError)
      end
    | _ => (put fs name [], Exn IndexError)
    end
  else (fs, Exn IOError).
(** calibration.py:189-200 *)
Definition cal_write (fs : files) (c : calf) (name : text) (add : option text) : files * result unit :=
  let '(fs, r) := write_ori fs c name add in
  (fs, match r with Ok true => Ok tt | Ok false => Exn IOError | Exn e => Exn e end).

Fixpoint parse_floats (ws : list text) : result (list f64) :=
  match ws with [] => Ok [] | w :: r => do x <- parse_float w; do xs <- parse_floats r; Ok (x :: xs) end.
(** a slice assigned through a setter that checks its length *)
Definition shaped (n : nat) (l : list f64) : result (list f64) := if Nat.eqb (length l) n then Ok l else Exn ValueError.
(** calibration.py:131-187 (read_calibration, 502-504, is the same) *)
Definition cal_from_file (fs : files) (name : text) (add : option text) : result calf :=
  match fs name with
  | None => Exn IOError
  | Some t =>
    let data := fromstring t in
    do pos <- shaped 3 (firstn 3 data);
    do ang <- shaped 3 (firstn 3 (skipn 3 data));
    match ang with
    | [omega; phi; kappa] =>
      do pp <- shaped 3 (firstn 3 (skipn 15 data));
      let glass := skipn 18 data in
      let e := mk_extf pos ang (frotation omega phi kappa) in
      match add with
      | None => Ok (mk_calf e pp glass added_default)
      | Some a =>
        match fs a with
        | None => Exn FileNotFoundError
        | Some u =>
          do xs <- parse_floats (words (fst (readline (lines u))));
          do rad <- shaped 3 (firstn 3 xs);
          do dec <- shaped 2 (firstn 2 (skipn 3 xs));
          do aff <- shaped 2 (skipn 5 xs);
          Ok (mk_calf e pp glass (rad ++ dec ++ aff))
        end
      end
    | _ => Exn ValueError
    end
  end.
(** calibration.py:431-448: from_file is a class method, its result is dropped *)
Definition read_ori (fs : files) (name : text) (add : option text) : result calf :=
  do _ <- cal_from_file fs name add; Ok cal_default.
(** calibration.py:387-394: the parameter new_copy is rebound to a new object that is dropped; returns None *)
Definition cal_copy (self new_copy : calf) : calf * option calf := (new_copy, None).

(** np.allclose(a, b, atol=1e-6), rtol = 1e-5 *)
Definition close (a b : f64) : bool :=
  (match b with S754_finite _ _ _ | S754_zero _ => true | _ => false end &&
   fle (fabs (fsub a b)) (fadd (f_of_dec false 1 6) (fmul (f_of_dec false 1 5) (fabs b)))) || feq a b.
(** calibration.py:451-461 *)
Definition compare_exterior (a b : extf) : bool :=
  list_eqb (list_eqb close) (xf_dm a) (xf_dm b) && list_eqb feq (xf_pos a) (xf_pos b) && list_eqb feq (xf_ang a) (xf_ang b).
(** calibration.py:464-466 *)
Definition compare_interior (a b : list f64) : bool := list_eqb feq a b.
(** calibration.py:469-485, 497-499: np.array_equal *)
Definition compare_glass (a b : list f64) : bool := list_eqb feq a b.
Definition compare_addpar (a b : list f64) : bool := list_eqb feq a b.
(** calibration.py:488-494 *)
Definition compare_calibration (a b : calf) : bool :=
  compare_exterior (cf_ext a) (cf_ext b) && compare_interior (cf_int a) (cf_int b) && compare_glass (cf_glass a) (cf_glass b).
End Ori.
