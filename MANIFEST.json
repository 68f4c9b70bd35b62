{
 "claims": [
  {
   "property": "C01",
   "status": "proved",
   "theorems": [
    "C01_take_best_disjoint",
    "C01_take_best_total"
   ],
   "note": "take_best_candidates: disjointness, usage marks, and totality under the table sizes correspondences() allocates."
  },
  {
   "property": "C02",
   "status": "proved",
   "theorems": [
    "C02_take_best_greedy"
   ],
   "note": "descending score order, and each candidate left out clashes with a used target or a chosen clique of at least its score."
  },
  {
   "property": "C03",
   "status": "proved",
   "theorems": [
    "C03_one_clique_per_target",
    "C03_two_cameras",
    "C03_three_cameras"
   ],
   "note": "Cameras with at least one target each. Four cameras: C03_one_clique_per_target. Two: exactly the pairs plus possibly the blank pair. Three: ValueError as soon as there is a triplet, otherwise exactly the blank triplet and the pairs avoiding target 0 (correspondences called with a 4-slot count list; the wrapper py_correspondences passes a shorter one, see C08)."
  },
  {
   "property": "C04",
   "status": "proved",
   "theorems": [
    "C04_clique_support",
    "C04_spurious_quadruplet",
    "C04_refuted",
    "C04_empty_camera_fails"
   ],
   "note": "Natural expectation: Every returned clique is supported by candidate edges, also when there are none, and an empty camera is no error (violated). The code violates the property: the zero-initialised scratch array contributes a blank clique (0,0,0,0), C04_refuted; with an empty camera the same entry makes every call raise IndexError. Proved: every other clique is supported."
  },
  {
   "property": "C05",
   "status": "proved",
   "theorems": [
    "C05_four_camera_exact"
   ],
   "note": "exact set of quadruplets, capacity, no duplicates."
  },
  {
   "property": "C06",
   "status": "proved",
   "theorems": [
    "C06_three_camera_exact",
    "C06_genuine_triplets",
    "C06_refuted",
    "C06_three_cameras_raise"
   ],
   "note": "Natural expectation: Only triangles of candidate edges are reported, and three cameras work (violated). The code violates the property: the third edge is searched in all MAXCAND slots, also the unused ones holding 0 (C06_refuted). Proved: exact characterisation with padding, all genuine triplets are found, those not involving target 0 are genuine; with three cameras every triplet raises ValueError."
  },
  {
   "property": "C07",
   "status": "proved",
   "theorems": [
    "C07_pair_exact"
   ],
   "note": "exact set of pairs for up to 4 cameras."
  },
  {
   "property": "C08",
   "status": "proved",
   "theorems": [
    "C08_four_cameras",
    "C08_two_three_cameras_refuted"
   ],
   "note": "Natural expectation: It works for every supported camera count (violated for two and three). Proved for four cameras; for two and three cameras the call fails on every input (C08_two_three_cameras_refuted)."
  },
  {
   "property": "C09",
   "status": "proved",
   "theorems": [
    "C09_single_camera"
   ],
   "note": ""
  },
  {
   "property": "C10",
   "status": "proved",
   "theorems": [
    "C10_find_candidate_exact",
    "C10_matching_complete",
    "C10_matching_order",
    "C10_find_candidate_sound",
    "C10_window_reading",
    "C10_cands_ok",
    "C10_large_input_refuted",
    "C10_match_pairs_exact"
   ],
   "note": "Natural expectation: Completeness for every number of targets (violated from 8190 on). Exact (first 40 qualifying targets in x order) for all sizes with at most 11 one bits in num/2, i.e. all sizes below 8190; soundness for every size; for every size with 12 or more one bits an input is exhibited on which a qualifying target is missed (C10_large_input_refuted)."
  },
  {
   "property": "C11",
   "status": "proved",
   "theorems": [
    "C11_in_bounds",
    "C11_starts_in_time",
    "C11_too_late_refuted",
    "C11_range"
   ],
   "note": "Natural expectation: The search starts in time for every array (violated from 8190 on). In bounds for every size; starts in time exactly when num/2 has at most 11 one bits (all sizes below 8190); refuted otherwise."
  },
  {
   "property": "C12",
   "status": "proved",
   "theorems": [
    "C12_ratio",
    "C12_score"
   ],
   "note": "For integer shape values up to 2^53 (exact in binary64), through the real-number semantics of binary64 (Flocq)."
  },
  {
   "property": "C13",
   "status": "proved",
   "theorems": [
    "C13_forward_run",
    "C13_backward_run",
    "C13_linking_mutual",
    "C13_injective",
    "C13_forward_step",
    "C13_backward_step"
   ],
   "note": "Linking phase for arbitrary decision values; whole forward and backward steps for arbitrary geometry; whole forward and backward runs over sequences of any length (C13_forward_run, C13_backward_run)."
  },
  {
   "property": "C14",
   "status": "proved",
   "theorems": [
    "C14_winner",
    "C14_losers",
    "C14_best_candidate",
    "C14_step"
   ],
   "note": "For decision values that are numbers (not NaN); C13 covers NaN."
  },
  {
   "property": "C15",
   "status": "proved",
   "theorems": [
    "C15_count_exact",
    "C15_count_refuted",
    "C15_step"
   ],
   "note": "Natural expectation: The reported number of links equals the number of links made (violated: links taken away stay counted). The code violates the property (C15_count_refuted): stolen links stay counted. Proved: the exact set that is counted, which contains all linked particles."
  },
  {
   "property": "C16",
   "status": "proved",
   "theorems": [
    "C16_nearest",
    "C16_ties_refuted"
   ],
   "note": "Natural expectation: All of the four nearest targets are returned, also at equal distances (violated for ties). Proved for pairwise different distances in the sense of the theorem: hits at the four smallest different distances. Targets at exactly equal distances are dropped (C16_ties_refuted). List sizes with at most 11 one bits in num/2 (all below 8190); distances below 1e20."
  },
  {
   "property": "C17",
   "status": "proved",
   "theorems": [
    "C17_nearest_unused"
   ],
   "note": "List sizes with at most 11 one bits in num/2 (all below 8190); distances below 1e20."
  },
  {
   "property": "C18",
   "status": "proved",
   "theorems": [
    "C18_register_exact",
    "C18_found_slots",
    "C18_unfilled_refuted",
    "C18_no_targets_refuted"
   ],
   "note": "Natural expectation: Unfilled slots stay empty (violated). The code violates the property: unfilled slots take the last target of the list (C18_unfilled_refuted), a camera without targets raises IndexError (C18_no_targets_refuted). Proved: exact contents of the slots."
  },
  {
   "property": "C19",
   "status": "proved",
   "theorems": [
    "C19_sort_exact",
    "C19_volume",
    "C19_lost_refuted",
    "C19_duplicates_refuted",
    "C19_no_end_marker_refuted"
   ],
   "note": "Natural expectation: The distinct ids seen by at least two cameras, each once, with an end marker (violated). The code violates the property: candidates are lost, duplicated, and a full ranking has no end marker (the step then raises IndexError). Proved: exact characterisation of what is returned."
  },
  {
   "property": "C20",
   "status": "proved",
   "theorems": [
    "C20_capacity",
    "C20_overflow_refuted"
   ],
   "note": "Natural expectation: The fixed candidate buffer never overflows (violated for four cameras). The code violates the property with four cameras (C20_overflow_refuted). Proved: 4n(4n+1) slots suffice for n cameras, so 80 suffice for one and two cameras."
  },
  {
   "property": "C21",
   "status": "proved",
   "theorems": [
    "C21_sort",
    "C21_empty"
   ],
   "note": "sorted() is an arbitrary function that permutes and orders; n = 0 raises ValueError."
  },
  {
   "property": "C22",
   "status": "proved",
   "theorems": [
    "C22_possible",
    "C22_raises",
    "C22_few_particles_refuted",
    "C22_path",
    "C22_tags",
    "C22_unseen_camera_refuted",
    "C22_rows_refuted",
    "C22_refuted"
   ],
   "note": "Natural expectation: Adding a particle does not disturb the others (violated for rows and for unseen cameras). Refuted in part: the appended path entry and the tags of cameras that saw the particle are right; a camera that saw nothing has its last target retagged, and correspondence rows 0..ncam-1 are overwritten. When adding succeeds at all is exact (C22_possible, C22_raises); that it works in every frame is refuted (C22_few_particles_refuted; C93_empty_frame_case is a whole run ended by it)."
  },
  {
   "property": "C23",
   "status": "proved",
   "theorems": [
    "C23_forward_frames",
    "C23_last_step_refuted",
    "C23_single_frame_refuted",
    "C23_reads_beyond_refuted"
   ],
   "note": "Natural expectation: Slot 3 is right in every step, and one- and two-frame sequences work (violated). Proved: slots and files for all sequences of at least two frames, except slot 3 in step last-1, which holds frame last-3 (C23_last_step_refuted). Sequences of one frame always fail; frame first+2 is read even beyond the end."
  },
  {
   "property": "C24",
   "status": "proved",
   "theorems": [
    "C24_backward_frames",
    "C24_own_number_refuted",
    "C24_last_step_refuted",
    "C24_two_frames_refuted"
   ],
   "note": "Natural expectation: Every frame is written under its own number (violated for the first two). Proved: slots except slot 3 of the last step, files first+2..last-1. False: file first+1 gets frame first, file first is never written (C24_own_number_refuted)."
  },
  {
   "property": "C25",
   "status": "proved",
   "theorems": [
    "C25_angle",
    "C25_stationary_refuted"
   ],
   "note": "Natural expectation: Identical velocities give angle 0, also if they are zero (violated). Over the reals. Proved for moving particles. False for a particle that stays: angle 200 (C25_stationary_refuted)."
  },
  {
   "property": "C26",
   "status": "proved",
   "theorems": [
    "C26_window"
   ],
   "note": "For an arbitrary projection to pixels, non-negative image size; over the reals."
  },
  {
   "property": "C27",
   "status": "proved",
   "theorems": [
    "C27_rotations_inverse",
    "C27_next_shifts",
    "C27_bounded_fifo",
    "C27_keeps_recent_refuted",
    "C27_rotation_breaks_fifo_refuted"
   ],
   "note": "Natural expectation: A full buffer keeps the most recent frames (violated). Proved: rotations are inverse, and push/pop on a new buffer of any length is a bounded FIFO that refuses new items when full. False: it does not keep the most recent items, and rotating breaks the queue order."
  },
  {
   "property": "C28",
   "status": "proved",
   "theorems": [
    "C28_round_trip",
    "C28_empty_refuted",
    "C28_names_refuted",
    "C28_other_names",
    "C28_big_integer_refuted",
    "C28_numbered_name",
    "C28_distinct_names",
    "C28_accepted"
   ],
   "note": "Natural expectation: The round trip holds for all target lists, numbers and names (violated). Proved for non-empty lists, positive frame numbers, names with %, integers below 2^53. False for an empty list (ValueError, file emptied), frame number 0, old-style # names, larger integers (three refutations)."
  },
  {
   "property": "C29",
   "status": "proved",
   "theorems": [
    "C29_round_trip",
    "C29_read_fresh",
    "C29_no_prio_refuted",
    "C29_none_refuted",
    "C29_truncated_refuted",
    "C29_unwritable",
    "C29_names",
    "C29_other_frames",
    "C29_malformed_refuted"
   ],
   "note": "Natural expectation: The priority file is optional (violated). Proved with a priority file name, also second-generation stability. Without one write_path_frame fails after emptying the other files (C29_no_prio_refuted)."
  },
  {
   "property": "C30",
   "status": "proved",
   "theorems": [
    "C30_refuted",
    "C30_linkage_refuted",
    "C30_never_false",
    "C30_targets"
   ],
   "note": "Natural expectation: Frame.read returns True only if the correspondence file was readable (violated). Refuted: Frame.read never returns False; missing correspondence/linkage files look like an empty frame. A missing target file raises."
  },
  {
   "property": "C31",
   "status": "proved",
   "theorems": [
    "C31_match_coords",
    "C31_names_its_target",
    "C31_usable",
    "C31_stale_numbers_refuted",
    "C31_get_by_pnrs",
    "C31_repeated_request_refuted"
   ],
   "note": "Natural expectation: Every request is answered, also a repeated one (violated). Proved for all target lists and sort routines: one entry per target, x order, with reset_numbers the entry names its target; get_by_pnrs exact. False: stale numbers without reset_numbers, and a number requested twice is answered once."
  },
  {
   "property": "C32",
   "status": "proved",
   "theorems": [
    "C32_segmentation",
    "C32_numbers",
    "C32_reported_iff",
    "C32_kernel"
   ],
   "note": "For all images, non-negative thresholds and limits, provided no growable region exceeds the wait list (20480 pixels), which holds for every range below 20480 pixels (C34_small_range)."
  },
  {
   "property": "C33",
   "status": "proved",
   "theorems": [
    "C33_limits",
    "C33_sumg_refuted"
   ],
   "note": "Natural expectation: The returned sumg satisfies sumg_min (violated). Proved: all limits hold, with sumg_min compared with the sum of full grey values, and the centroid is in the bounding box. False as a claim on the returned sumg (C33_sumg_refuted)."
  },
  {
   "property": "C34",
   "status": "proved",
   "theorems": [
    "C34_no_error",
    "C34_small_range",
    "C34_any_image",
    "C34_overflow_refuted",
    "C34_too_large_refuted",
    "C34_wrap_refuted",
    "C34_negative_threshold_refuted"
   ],
   "note": "Natural expectation: It succeeds on every image (violated). Proved under the exact condition on region sizes; refuted otherwise: C34_overflow_refuted (wait list of 20480 entries), C34_too_large_refuted, C34_negative_threshold_refuted."
  },
  {
   "property": "C35",
   "status": "proved",
   "theorems": [
    "C35_new_refuted",
    "C35_refuted",
    "C35_no_peak",
    "C35_touch",
    "C35_touch_refuted"
   ],
   "note": "Natural expectation: peak_fit returns targets (violated): C35_refuted, C35_touch_refuted"
  },
  {
   "property": "C36",
   "status": "proved",
   "theorems": [
    "C36_rotation",
    "C36_identity",
    "C36_set_pos",
    "C36_binary64"
   ],
   "note": "Over the reals (exact arithmetic reading of sin and cos), and in binary64 for any sin and cos with values in [-1,1] and error at most d <= 1/100."
  },
  {
   "property": "C37",
   "status": "proved",
   "theorems": [
    "C37_round_trip",
    "C37_rotation",
    "C37_small_coefficient_refuted",
    "C37_no_added_refuted",
    "C37_short",
    "C37_read_ori_refuted",
    "C37_copy_refuted",
    "C37_missing",
    "C37_read",
    "C37_unwritable"
   ],
   "note": "Natural expectation: All ways of writing, reading and copying restore the calibration (violated for the last three). Proved with a distortion file name, for arbitrary sin/cos: all numbers to the written digits, matrix recomputed, second generation identical. False: coefficients below 0.5e-8 are lost, write without distortion file reports failure, read_ori discards what it read, Calibration.copy copies nothing (four refutations)."
  },
  {
   "property": "C38",
   "status": "proved",
   "theorems": [
    "C38_target_par",
    "C38_few_thresholds_refuted",
    "C38_pft_refuted",
    "C38_dict",
    "C38_media_lengths",
    "C38_dict_twice_refuted",
    "C38_default_medium",
    "C38_yaml_refuted"
   ],
   "note": "Natural expectation: All parameter classes round-trip (violated). Proved for TargetPar with four thresholds and one ControlPar dictionary round trip. False for fewer thresholds, PftVersionPar, a second from_dict, YAML (four refutations)."
  },
  {
   "property": "C39",
   "status": "proved",
   "theorems": [
    "C39_sequence",
    "C39_track",
    "C39_volume",
    "C39_control",
    "C39_target",
    "C39_media",
    "C39_media_layers_refuted",
    "C39_calibration",
    "C39_close",
    "C39_added_ignored_refuted",
    "C39_addpar"
   ],
   "note": "Natural expectation: All comparisons are equality of all fields (violated for layers and calibration). Proved as exact field-wise equality for sequence, track, volume, control, target parameters, single-layer media, added parameters. compare_mm_np ignores further layers, compare_calibration ignores the distortion (two refutations) and compares the matrix with a tolerance."
  },
  {
   "property": "C40",
   "status": "proved",
   "theorems": [
    "C40_inverse",
    "C40_anchor"
   ],
   "note": "Over the reals."
  },
  {
   "property": "C41",
   "status": "proved",
   "theorems": [
    "C41_no_distortion",
    "C41_affine",
    "C41_flat_dist_affine",
    "C41_radial",
    "C41_decentering_refuted",
    "C41_shear_refuted"
   ],
   "note": "Natural expectation: Correcting a distorted point returns the original for all parameters (violated). Over the reals. Exact for no distortion and for scale/shear; radial distortion of moderate size within tol/8. False with decentering p1 or with shear plus radial distortion: for every tolerance the inverse is missed by more than it (C41_decentering_refuted, C41_shear_refuted)."
  },
  {
   "property": "C42",
   "status": "proved",
   "theorems": [
    "C42_cmp",
    "C42_cmp_close",
    "C42_cmp_tolerance_refuted",
    "C42_cmp_symmetry_refuted",
    "C42_norm3",
    "C42_init",
    "C42_space",
    "C42_norm",
    "C42_distance",
    "C42_unit",
    "C42_cross"
   ],
   "note": "Over the reals."
  },
  {
   "property": "C43",
   "status": "proved",
   "theorems": [
    "C43_snell",
    "C43_straight",
    "C43_away_refuted"
   ],
   "note": "Natural expectation: Equal indices leave every ray unchanged (violated for rays along the glass vector). Over the reals. Proved for rays that cross the glass and are not totally reflected. False for rays running along the glass vector (C43_away_refuted): they are reflected."
  },
  {
   "property": "C44",
   "status": "proved",
   "theorems": [
    "C44_round_trip",
    "C44_meaning"
   ],
   "note": "Over the reals, non-zero glass vector."
  },
  {
   "property": "C45",
   "status": "proved",
   "theorems": [
    "C45_interpolates",
    "C45_bounded",
    "C45_border_refuted",
    "C45_below_refuted",
    "C45_above_refuted"
   ],
   "note": "Natural expectation: Look-up uses only neighbouring entries everywhere (violated at and beyond the border). Over the reals. Proved inside the table. False at its border, below and above (three refutations)."
  },
  {
   "property": "C46",
   "status": "proved",
   "theorems": [
    "C46_pinhole",
    "C46_equal_indices",
    "C46_total_without_table",
    "C46_collinear",
    "C46_back"
   ],
   "note": "Over the reals."
  },
  {
   "property": "C47",
   "status": "proved",
   "theorems": [
    "C47_midpoint",
    "C47_symmetric"
   ],
   "note": "Over the reals, for non-parallel lines."
  },
  {
   "property": "C48",
   "status": "proved",
   "theorems": [
    "C48_meeting_rays",
    "C48_average",
    "C48_symmetric",
    "C48_too_few_refuted"
   ],
   "note": "Natural expectation: It returns a value for any number of cameras (violated for fewer than two). Over the reals. Proved for two or more cameras that see the point; with fewer the code raises ZeroDivisionError (C48_too_few_refuted)."
  },
  {
   "property": "C49",
   "status": "proved",
   "theorems": [
    "C49_ends",
    "C49_segment",
    "C49_midpoint_2D"
   ],
   "note": "Over the reals. C49_ends for any media; segment and midpoint in one medium (all three refractive indices 1, the short cut of the code)."
  },
  {
   "property": "C50",
   "status": "proved",
   "theorems": [
    "C50_sortgrid",
    "C50_row_numbers",
    "C50_nearest_unique",
    "C50_shared_refuted"
   ],
   "note": "Natural expectation: No detection is given to two points (violated). Proved: each point gets the nearest detection in its box, row numbers if no detection is shared. False: a shared detection is given to both points and carries the later row number (C50_shared_refuted)."
  },
  {
   "property": "C51",
   "status": "proved",
   "theorems": [
    "C51_refuted"
   ],
   "note": "Natural expectation: prepare_image returns the image minus its low-pass clipped at zero (violated: a bitwise or is used). Refuted for all images and filters: prepare_image uses bitwise or, pixels never get darker, and the result is the clipped difference only where the low-pass is zero."
  },
  {
   "property": "C52",
   "status": "proved",
   "theorems": [
    "C52_frozen",
    "C52_success",
    "C52_failure_refuted",
    "C52_touched_refuted",
    "C52_interface_refuted",
    "C52_directions_refuted",
    "C52_systems"
   ],
   "note": "Natural expectation: On failure the calibration is unchanged, and the interface flag estimates the glass (violated). Over the reals, for every solver. Proved: frozen parameters, table and (without interface flag) glass are kept; on success consistent matrix and small last correction. False: on failure all 80 corrections stay (C52_failure_refuted, C52_touched_refuted); the interface estimate is lost (C52_interface_refuted); the glass is moved along directions that are not perpendicular to it."
  },
  {
   "property": "C53",
   "status": "proved",
   "theorems": [
    "C53_differences",
    "C53_restored",
    "C53_limit",
    "C53_float_refuted",
    "C53_raise_refuted"
   ],
   "note": "Natural expectation: The calibration is restored exactly, also when it raises (violated). Over the reals: exact forward differences, limit, calibration restored. False: in binary64 the steps do not cancel (C53_float_refuted); an exception leaves the camera displaced (C53_raise_refuted)."
  },
  {
   "property": "C54",
   "status": "proved",
   "theorems": [
    "C54_refuted"
   ],
   "note": "Natural expectation: It returns one 3D position per target row (violated). Refuted for every non-empty table."
  },
  {
   "property": "C55",
   "status": "proved",
   "theorems": [
    "C55_dumbbell"
   ],
   "note": "Over the reals; also characterises when the value is zero."
  },
  {
   "property": "C56",
   "status": "proved",
   "theorems": [
    "C56_volume",
    "C56_lower_refuted",
    "C56_principal_point_refuted"
   ],
   "note": "Natural expectation: The box contains the view of every camera at both limits (violated). Over the reals. Proved at the upper limit, without distortion or with principal point 0. False at the lower limit (C56_lower_refuted) and for distortion with a principal point (C56_principal_point_refuted: subtracted before the distortion is removed)."
  },
  {
   "property": "C57",
   "status": "proved",
   "theorems": [
    "C57_frame_round_trip",
    "C57_empty_camera_refuted",
    "C57_other_files"
   ],
   "note": "Natural expectation: Empty cameras can be written (violated). Proved when every camera has a target. False with an empty camera (C57_empty_camera_refuted)."
  },
  {
   "property": "C58",
   "status": "proved",
   "theorems": [
    "C58_positions",
    "C58_target_positions"
   ],
   "note": ""
  },
  {
   "property": "C59",
   "status": "proved",
   "theorems": [
    "C59_sequence",
    "C59_track",
    "C59_volume",
    "C59_control",
    "C59_target_par",
    "C59_orient_par",
    "C59_calibration_par",
    "C59_multi_planes",
    "C59_examine",
    "C59_pft"
   ],
   "note": "If and only if, for every file content."
  },
  {
   "property": "C60",
   "status": "proved",
   "theorems": [
    "C60_missing",
    "C60_refuted"
   ],
   "note": "Natural expectation: Every reader reports a missing file as an I/O error (violated for three). Proved for seven readers. False for TargetPar, OrientPar (defaults) and TrackPar (TypeError)."
  },
  {
   "property": "C61",
   "status": "proved",
   "theorems": [
    "C61_rows",
    "C61_unused_refuted",
    "C61_many_targets_refuted"
   ],
   "note": "Natural expectation: Each row belongs to its target also when points do not take part (violated). Proved: row k is the residual of the k-th point that took part; so rows are right if all points take part. False otherwise (C61_unused_refuted), and IndexError with more than n+5 targets."
  },
  {
   "property": "C62",
   "status": "proved",
   "theorems": [
    "C62_unchanged",
    "C62_distortion_refuted",
    "C62_result",
    "C62_touched_refuted"
   ],
   "note": "Natural expectation: The distortion is kept and on False the camera is unchanged (violated). Proved for every outcome: interior, glass, table kept; meaning of True. False: the distortion is erased, and on False the corrections stay."
  },
  {
   "property": "C63",
   "status": "proved",
   "theorems": [
    "C63_single",
    "C63_total",
    "C63_select"
   ],
   "note": "Over the reals."
  },
  {
   "property": "C64",
   "status": "proved",
   "theorems": [
    "C64_block",
    "C64_long_refuted",
    "C64_blank_refuted",
    "C64_manual",
    "C64_few_points"
   ],
   "note": "Natural expectation: Missing lines are reported, a blank last line is accepted (violated). read_man_ori_fix proved if and only if. read_calblock: listed points proved; missing lines give (0,0,0) silently, a blank or surplus line raises IndexError."
  },
  {
   "property": "C65",
   "status": "proved",
   "theorems": [
    "C65_links_justified",
    "C65_displacement_refuted"
   ],
   "note": "Natural expectation: The displacement of every link lies within the velocity limits (violated). Every link is justified (C65_links_justified). Refuted part: the displacement of the link itself may exceed the limits (C65_displacement_refuted)."
  },
  {
   "property": "C66",
   "status": "proved",
   "theorems": [
    "C66_added_particles"
   ],
   "note": ""
  },
  {
   "property": "C67",
   "status": "proved",
   "theorems": [
    "C67_backward_limits",
    "C67_never_adds",
    "C67_joined",
    "C67_kept"
   ],
   "note": "Natural expectation: With adding enabled it fills gaps (violated). Limits proved. Refuted part: the volume test is 0 < y < 0, so a backward step never adds a particle (C67_never_adds)."
  },
  {
   "property": "C68",
   "status": "proved",
   "theorems": [
    "C68_round_trip"
   ],
   "note": "one plate; exact error bound of the iteration, over R"
  },
  {
   "property": "C69",
   "status": "proved",
   "theorems": [
    "C69_end_to_end"
   ],
   "note": "four cameras; the epipolar geometry and the tie order of the sorts are arbitrary; the known exceptions (blank quadruplet of leftmost targets, padded third edge) are part of the statement"
  },
  {
   "property": "C70",
   "status": "proved",
   "theorems": [
    "C70_nearby_rays",
    "C70_pixels_exact",
    "C70_refracted",
    "C70_measured",
    "C70_radial"
   ],
   "note": "over R; affine or radial lens; the refracted case inherits the error bound of C68, the radial case that of C41"
  },
  {
   "property": "C71",
   "status": "proved",
   "theorems": [
    "C71_points",
    "C71_ends",
    "C71_match",
    "C71_refracted",
    "C71_total",
    "C71_one_point",
    "C71_layers_refuted"
   ],
   "note": "over R. Natural expectation: The curve covers the whole volume (violated): C71_layers_refuted"
  },
  {
   "property": "C72",
   "status": "proved",
   "theorems": [
    "C72_only_table",
    "C72_entries",
    "C72_covers",
    "C72_lookup",
    "C72_node",
    "C72_stale_refuted",
    "C72_bottom_refuted",
    "C72_unused_refuted"
   ],
   "note": "over R. Natural expectation: a second call recomputes the table, negative limits are covered, projection uses the table (violated): C72_stale_refuted, C72_bottom_refuted, C72_unused_refuted"
  },
  {
   "property": "C73",
   "status": "proved",
   "theorems": [
    "C73_lmax",
    "C73_box",
    "C73_again",
    "C73_level",
    "C73_slanted_refuted"
   ],
   "note": "over R. Natural expectation: the caller's volume keeps its points (violated for slanted limits): C73_slanted_refuted"
  },
  {
   "property": "C74",
   "status": "proved",
   "theorems": [
    "C74_rejects",
    "C74_found",
    "C74_determined",
    "C74_local",
    "C74_crop",
    "C74_size_refuted",
    "C74_cut_refuted"
   ],
   "note": "Natural expectation: requests passing the check succeed, cut targets are not reported (violated): C74_size_refuted, C74_cut_refuted"
  },
  {
   "property": "C75",
   "status": "proved",
   "theorems": [
    "C75_set",
    "C75_get",
    "C75_rotation",
    "C75_independent",
    "C75_independent_history",
    "C75_snapshot",
    "C75_attached",
    "C75_detached",
    "C75_written",
    "C75_live_refuted",
    "C75_set_rotation_refuted"
   ],
   "note": "Natural expectation: getters return copies, set_rotation_matrix works (violated): C75_live_refuted, C75_set_rotation_refuted"
  },
  {
   "property": "C76",
   "status": "proved",
   "theorems": [
    "C76_set",
    "C76_lengths",
    "C76_indices",
    "C76_refused",
    "C76_inner_index_refuted",
    "C76_ray_layers_refuted",
    "C76_air_refuted",
    "C76_count_refuted",
    "C76_right_count",
    "C76_negative_refuted"
   ],
   "note": "over R. Natural expectation: every layer counts with its own index, set_layers sets the number of layers (violated): C76_inner_index_refuted, C76_ray_layers_refuted, C76_air_refuted, C76_count_refuted"
  },
  {
   "property": "C77",
   "status": "proved",
   "theorems": [
    "C77_followed",
    "C77_linked",
    "C77_two_cameras_refuted"
   ],
   "note": "steps without adding particles (do_add off); C77_followed, C77_linked; C77_two_cameras_refuted: with fewer cameras a fitting particle can be lost"
  },
  {
   "property": "C78",
   "status": "proved",
   "theorems": [
    "C78_unbroken",
    "C78_wrong_frame_refuted"
   ],
   "note": "Unbroken links over whole runs for clear trajectories; in the last step the frame three before the last is used as the frame after it (C78_wrong_frame_refuted shows a link made only because of that)."
  },
  {
   "property": "C79",
   "status": "proved",
   "theorems": [
    "C79_links_ignored",
    "C79_repeat",
    "C79_buffer",
    "C79_stale_refuted"
   ],
   "note": "relational proofs over pairs of runs; the two-step case is refuted by two runs over the same files"
  },
  {
   "property": "C80",
   "status": "proved",
   "theorems": [
    "C80_orient",
    "C80_raw",
    "C80_table",
    "C80_distortion_refuted",
    "C80_moved_refuted"
   ],
   "note": "fixed point for cameras without distortion; C80_distortion_refuted and C80_moved_refuted show that it fails with distortion"
  },
  {
   "property": "C81",
   "status": "proved",
   "theorems": [
    "C81_closed",
    "C81_first_come_refuted"
   ],
   "note": "completeness of the backward step; C81_first_come_refuted: conflicts are not won by the better candidate"
  },
  {
   "property": "C82",
   "status": "proved",
   "theorems": [
    "C82_forward",
    "C82_backward"
   ],
   "note": "forward (do_add off) and backward; C14 says how the values decide"
  },
  {
   "property": "C83",
   "status": "proved",
   "theorems": [
    "C83_targets",
    "C83_targets_equivalence",
    "C83_nan_refuted",
    "C83_paths",
    "C83_unused_candidates_refuted",
    "C83_corres",
    "C83_reset_links",
    "C83_fields",
    "C83_sort_y",
    "C83_found_reset",
    "C83_found_copy",
    "C83_arrays"
   ],
   "note": "comparisons, resets, setters, sorting by y, found-pixel arrays"
  },
  {
   "property": "C84",
   "status": "proved",
   "theorems": [
    "C84_image_coordinates",
    "C84_flat_image_coordinates",
    "C84_pixel_metric",
    "C84_matmul",
    "C84_matmul_schedule"
   ],
   "note": "array forms over the reals, the product over binary64 in any row order"
  },
  {
   "property": "C85",
   "status": "proved",
   "theorems": [
    "C85_new",
    "C85_only",
    "C85_missing",
    "C85_too_many_names",
    "C85_sequence",
    "C85_sequence_name",
    "C85_track",
    "C85_volume",
    "C85_control",
    "C85_control_read",
    "C85_target_read",
    "C85_eps",
    "C85_block",
    "C85_block_silent_refuted",
    "C85_block_blank_refuted"
   ],
   "note": "the constructor is an arbitrary function"
  },
  {
   "property": "C86",
   "status": "proved",
   "theorems": [
    "C86_estimates",
    "C86_same",
    "C86_raise",
    "C86_memory_refuted",
    "C86_few_refuted",
    "C86_diagonal",
    "C86_frozen_refuted",
    "C86_exact"
   ],
   "note": "np.linalg.matrix_rank, inv, pinv and lstsq are arbitrary functions; real arithmetic, inf and nan as None"
  },
  {
   "property": "C87",
   "status": "proved",
   "theorems": [
    "C87_pixel",
    "C87_metric",
    "C87_roundtrip",
    "C87_integer",
    "C87_difference",
    "C87_products",
    "C87_length",
    "C87_distance",
    "C87_unit",
    "C87_short_refuted",
    "C87_moving",
    "C87_uniform",
    "C87_extrapolation",
    "C87_limits",
    "C87_limits_converse",
    "C87_cosine",
    "C87_acceleration",
    "C87_angle_cases",
    "C87_angle_refuted"
   ],
   "note": "operation order of the source; fastmath regrouping is not modelled, np.linalg.norm is the root of the sum of squares, np.arccos an arbitrary function"
  },
  {
   "property": "C88",
   "status": "proved",
   "theorems": [
    "C88_matched",
    "C88_once",
    "C88_calibrated",
    "C88_complete",
    "C88_nothing_refuted",
    "C88_array",
    "C88_external",
    "C88_unmatched_refuted"
   ],
   "note": "positions are doubles in the matching and their exact real values in the calibration; the projection used by the matching and the solver are arbitrary functions"
  },
  {
   "property": "C89",
   "status": "proved",
   "theorems": [
    "C89_links",
    "C89_straight_refuted"
   ],
   "note": "C89_links for every link of the step; C89_straight_refuted for the lost one. Projection, search quader and point positions stay arbitrary functions, as in C65"
  },
  {
   "property": "C90",
   "status": "proved",
   "theorems": [
    "C90_operations",
    "C90_rows",
    "C90_other_frames",
    "C90_lost_refuted",
    "C90_digit_refuted",
    "C90_targets",
    "C90_targets_refuted",
    "C90_frame_operations",
    "C90_frame",
    "C90_frame_read",
    "C90_mixed_refuted"
   ],
   "note": "a crash of the process: an opened file is empty at once and holds a beginning of what was written; failures of the disk or of the operating system (reordered writes) are not modelled"
  },
  {
   "property": "C91",
   "status": "proved",
   "theorems": [
    "C91_int",
    "C91_int_refuses",
    "C91_float",
    "C91_float_refuses",
    "C91_special",
    "C91_notation",
    "C91_lines",
    "C91_track_file"
   ],
   "note": "int() and float() of Python are modelled for ASCII text without underscores; float(\"infinity\") and capitalised nan and inf are not modelled and excluded in the refusal theorem"
  },
  {
   "property": "C92",
   "status": "proved",
   "theorems": [
    "C92_value",
    "C92_smoothed",
    "C92_local",
    "C92_background_refuted",
    "C92_copy",
    "C92_refused",
    "C92_white_refuted",
    "C92_border_refuted"
   ],
   "note": "scipy.ndimage.uniform_filter is modelled from its documentation (separable running mean, axis 0 first, bytes after each pass); the convolution with a filter file is not. Natural expectation: the background is removed (violated): C92_background_refuted, C92_white_refuted, C92_border_refuted"
  },
  {
   "property": "C93",
   "status": "proved",
   "theorems": [
    "C93_refines",
    "C93_forward",
    "C93_repeat",
    "C93_settles",
    "C93_forward_adding",
    "C93_backward",
    "C93_overwritten_refuted",
    "C93_adding_settles",
    "C93_adding_again_refuted"
   ],
   "note": "The runs of C13/C23/C24/C78/C79 put on the file format of C57/C29/C28. A row of the correspondence array that was never written and a position without three numbers are refused on reading, a frame without one target list per camera before writing (the code fails later). C93_forward_adding covers do_add (point reconstruction any function into float64); C93_repeat and C93_settles are without do_add, C93_adding_settles is with it; that an adding run repeats at once is refuted by C93_adding_again_refuted (3 links, then 5). Natural expectation on frame first+1 refuted: C93_overwritten_refuted."
  },
  {
   "property": "C94",
   "status": "proved",
   "theorems": [
    "C94_copies",
    "C94_blur_refuted",
    "C94_mask"
   ],
   "note": "fast_box_blur_numba takes a dict, which numba refuses, so its Python meaning is modelled. Natural expectation refuted: C94_blur_refuted."
  },
  {
   "property": "C95",
   "status": "proved",
   "theorems": [
    "C95_operations",
    "C95_read",
    "C95_lost_refuted",
    "C95_no_glass_refuted",
    "C95_mixed_refuted",
    "C95_digit_refuted"
   ],
   "note": "Crash model of C90 (Spec_crash): each file is closed before the next is opened; of an open file any beginning may have reached the disk. Natural expectations refuted: C95_lost_refuted, C95_no_glass_refuted, C95_mixed_refuted, C95_digit_refuted. from_file's word-wise number reading as in C37."
  },
  {
   "property": "C96",
   "status": "proved",
   "theorems": [
    "C96_refraction",
    "C96_symmetry",
    "C96_axis"
   ],
   "note": "Real arithmetic instead of floats; refraction and symmetry without look-up table (the table's accuracy is the subject of the other look-up table properties)."
  }
 ]
}