(** Writing a calibration as the sequence of operations on its files, for crashes between them (buffers: Spec_crash). *)
From Verif Require Import F64 Model_text Model_corr Model_track Model_io Model_crash Model_par Base.
Local Open Scope Z_scope.

(** calibration.py:408-417: one f.write per line of code; the rotation matrix row by row, the interior orientation in one.
    Records have the right shapes (int: 3); too few values for the glass vector end the call (IndexError) before the last write. *)
Definition ori_ops (c : calf) (name : text) : list file_op :=
  match cf_int c with
  | [xh; yh; cc] =>
    [Open name; Write name (line (row 8 (xf_pos (cf_ext c)))); Write name (line (row 8 (xf_ang (cf_ext c))) ++ [nl])] ++
    map (fun r => Write name (line (row 7 r))) (xf_dm (cf_ext c)) ++
    [Write name ([nl] ++ line (row 4 [xh; yh]) ++ line (row 4 [cc]))] ++
    match cf_glass c with g0 :: g1 :: g2 :: _ => [Write name ([nl] ++ line (row 15 [g0; g1; g2]))] | _ => [] end
  | _ => [Open name]
  end.
(** calibration.py:422-427 *)
Definition add_ops (c : calf) (name : text) : list file_op :=
  Open name ::
  match cf_added c with
  | a0 :: a1 :: a2 :: a3 :: a4 :: a5 :: a6 :: _ => [Write name (line (row 8 [a0; a1; a2; a3; a4; a5; a6]))]
  | _ => []
  end.
(** calibration.py:397-428, 189-200 with a distortion file, both files writable: the first file is closed before the second is opened *)
Definition cal_phases (c : calf) (name add : text) : list (list file_op) :=
  match cf_int c, cf_glass c with [_; _; _], _ :: _ :: _ :: _ => [ori_ops c name; add_ops c add] | _, _ => [ori_ops c name] end.
