# Formal model of OpenPTV/openptv-python in Rocq (Coq 8.16.1)

The code is read as text from `/repo/openptv_python`; nothing is run. Every
definition in a `Model_*.v` file carries a comment with file and lines.

## How to read

* `properties.jsonl` – the properties. `statement` is what is proved, in full.
  Where the code violates what a user would naturally expect, the field
  `expectation` says what that is; the statement then says what holds instead,
  and a theorem with suffix `_refuted` shows that the expectation fails (a
  counterexample, or a proof that it fails on every input of a class).
* `MANIFEST.json` – theorem names per property.
* `rocq/theories/Prop_*.v` – the theorems, each followed by `Print Assumptions`,
  and beside them `Example`s of non-trivial cases that meet the hypotheses.
* `rocq/theories/Spec_*.v` – the vocabulary of the statements.
* `seeded/LOG.jsonl` – edits of the model made to test the theorems.

## Layers (all in `rocq/theories`)

* `Base.v`   exceptions as values (`result`), Python indexing (a negative index
  wraps, out of range raises), list update, `range` loops.
* `F64.v`    IEEE-754 binary64 as the standard library's `spec_float` (53, 1024);
  comparisons with NaN semantics. No axioms, executable by `vm_compute`.
* `F64R.v`   the link from binary64 to real numbers, through Flocq.
* `Lib.v`    lists and loops.
* `Model_*.v` shallow models, branch by branch, no proofs.
* `Spec_*.v` small independent specifications, in terms of inputs and outputs.
* `Proof_*.v` lemmas.
* `Prop_*.v` the theorems, `Print Assumptions`, and the non-vacuity `Example`s.

Arithmetic policy: combinatorial code (matching, selection, candidate search,
link decisions, segmentation, sortgrid, files) is modelled over binary64 and Z
exactly as executed, rounding and NaN included. Geometry and calibration
(projection, rays, distortion, rotation, orient) are modelled over the real
numbers `R` ("exact arithmetic reading"); each such file says so. Where rounding
decides a claim, a binary64 model is used (C12, C33, C53_float_refuted).

Things outside the package are universally quantified functions with only the
properties stated in the theorem: numpy's sort (`sorts`, `sorts_by_x`: some
permutation in ascending order, ties open), the sort of link decisions, scipy's
`lstsq` (any function that may also fail), `sin`/`cos` in file round trips, the
low-pass filter of `prepare_image`, YAML dump/load (inverse of each other), and,
for the tracking loop, the geometry (projection, search box, angle and
acceleration, point position): theorems about tracking hold for every geometry.
The file system is a function from names to contents plus a predicate "can be
written".

## Plan per property
(status and theorem names are in MANIFEST.json)

| id | what is modelled | how it is proved |
|---|---|---|
| C01, C02 | `take_best_candidates`: sort, usage table, copying | induction over the sorted list, for every admissible sort |
| C03, C04 | `correspondences`: three phases over one scratch array and one usage table; edge lists arbitrary | phase invariant: every scratch entry is blocked after its phase; the blank clique is followed through |
| C05-C07 | nested loops with early exit | loop = prefix of a list comprehension; membership = specification |
| C08 | `py_correspondences` | composition with C04; case split for 2 and 3 cameras |
| C09 | `single_cam_correspondences` | induction |
| C10, C11 | `find_candidate`, binary search, `match_pairs` | invariant on the distance between probe and boundary (number of one bits); family of counterexamples |
| C12 | `quality_ratio`, score over binary64 | rounding is monotone (Flocq) |
| C13-C15, C21 | candidate registration, ranking of decisions, linking pass | loop invariants over the particle array |
| C16, C17 | `candsearch_in_pix(_rest)` | invariant "the four smallest of the prefix" |
| C18, C19 | `register_closest_neighbs`, `sort_candidates_by_freq` | invariants; numpy view semantics of tuple swap |
| C20 | bound of registrations through the nested loops | simulation between buffers of different size |
| C22, C66 | `add_particle`, resize semantics, aliasing | invariants |
| C23, C24, C27 | frame buffer, schedule of forward and backward tracking | induction over steps |
| C25, C26 | `angle_acc`, `searchquader` over R | algebra |
| C28-C30, C57 | files as texts; decimal printing and parsing | digit induction, half-unit rounding lemma |
| C31 | `match_coords`, `get_by_pnrs` | permutation and sortedness |
| C32-C35 | flood fill with wait list on an image grid, `peak_fit` | invariants over scan and wait list; termination by number of marked pixels |
| C36, C40-C49, C54-C56 | rotation, pixel/metric, distortion, rays, look-up, epipolar line, intersection, volume over R | algebra; contraction argument for C41; Snell's law in vector form |
| C37-C39, C58-C60 | parameter and calibration files, comparisons, dictionary | token level induction |
| C50 | `sortgrid` with object aliasing | loop invariants |
| C51 | bitwise or on bytes | `Z.lor` lemmas |
| C52, C53, C61, C62 | `orient`, `raw_orient`, `full_calibration`, numerical derivatives, with an arbitrary solver | induction over iterations in a state monad that keeps the state on exceptions |
| C63, C64 | single camera positions, calibration block files | algebra; text lemmas |
| C65, C67 | whole forward/backward step for arbitrary geometry | every stored candidate carries its justification (invariant) |
| C68 | iteration of `multimed_r_nlay` against `ray_tracing` | the iterate stays between the true radius and the straight line; the defect shrinks by a fixed factor |
| C69 | `match_coords`, `match_pairs` with `epi_mm` as an arbitrary function and `find_candidate`, clique searches, `py_correspondences` joined into one function | composition of C01-C10, C31; positions in x order are translated to target numbers |
| C70 | `img_coord`, pixel and flat coordinates, `point_position` composed | C40, C41, C46, C48; feet of skew lines near a common point, mean of points in a ball; C68 for refraction; displaced image points as points of the same depth on another line of sight, C41 for radial lenses |
| C71 | `epipolar_curve` (numpy linspace, ray, projection) | induction over the points, C40, C46, C68; counterexample with slanted limits |
| C72 | `init_mmlut` (corner rays, extent, rounding, entries), look-up | fold invariants for the extent, convexity along a ray, C45; counterexamples |
| C73 | `TrackingRun.__init__`: lmax, volume box | monotone folds (C56), idempotence by separating x and y; counterexample |
| C74 | `target_recognition`; scan order of the regions | restriction of the scan to an isolated set, transfer between images/ranges, determinism of the scan, uniqueness of sorted lists; counterexamples |
| C75 | accessors of `Calibration` as histories of calls over a heap of arrays | invariant over all histories: views of distinct objects and of copies do not overlap; counterexamples |
| C76 | `MultimediaPar` constructor and setters, projection and ray tracing with several layers | congruence of the loop in the unused parameters, invariant interval of the iteration with a wrong layer count, C46 |
| C77 | the forward step of Model_track | a target alone at its distance and among the four nearest is in the slots (C16); a particle in all cameras' slots has the most votes, so it survives the ranking (C19); the candidate loop reaches its row; registration and linking keep it; the exact form from C65 |
| C78 | Model_fb.full_forward with Model_track.trackcorr_step | `clear_trail` (Spec_trail) is a condition on the frames on disk only; induction over the steps with the invariant that the slots of the buffer are the frames on disk up to links, and C77 in every step; example run over five frames; a run whose last link rests on frame last-3 |
| C79 | Model_fb full_forward, Model_track trackcorr_step | relational Hoare reasoning: two disks/buffers, related after every read, write, rotation and step (Proof_rerun) |
| C80 | Model_orient orient, raw_orient, full_calibration | from C52/C62's description of the linear systems: right-hand side zero, hence no correction; refutation from the normal equations and by a run with one point |
| C81 | Model_track trackback_step | C19's ranking shows that the candidate is visited (while_reach), hence registered; with the uniqueness hypotheses it comes first after sorting; induction over the linking loop; refutation by evaluation |
| C82 | Model_track trackcorr_step, trackback_step | invariant over the candidate loops: every (value, candidate) pair has an entry of the inductive specification [scored]; sorting permutes pairs |
| C83 | Model_rec (records, comparisons, resets) | case analysis on binary64 equality; insertion sort invariant (sorted, permutation, levels); loop invariants for the arrays |
| C84 | Model_arr | fold over rows; loop invariants for the matrix entries, any permutation of the rows |
| C85 | Model_setup | the readers of C59 in sequence, for every constructor; record laws; induction over the lines |
| C86 | Model_est | the last pass of C52/C61 keeps its rows, so that the sums of orient are those of the linear system; positivity of the diagonal by W = W N W^T; examples with four points |
| C87 | Model_f64 | Flocq's error bounds per operation (F64E), sums of errors by linear arithmetic over the reals, monotonicity of rounding for the limits; the refutations by computation |
| C88 | Model_wrap | composition of C50 (matching, binary64) with C61/C62 (systems solved, reals) through the exact value of the stored doubles; the empty case by computing the single pass |
| C89 | Model_track with the binary64 kinematics of Model_f64 | C65 (reasons for a link) instantiated with the rounded operations and carried over to real numbers with the error bounds of C87; the converse by evaluating the step |
| C90 | Model_crash (open and write operations in order), Model_io | the operations run to the end equal the function of C29; after any beginning of them each opened file holds a beginning of its final text (the other operations only append); lines of a beginning of a text; induction over the rows read; a whole frame write (path files, then the targets of each camera): each phase is complete, in progress or not begun (Prop_crash2) |
| C91 | Model_text (parse_int, parse_float, f_of_dec), Model_par | grammar of numbers in Spec_num by induction on digits; the parser is inverse to it; the quotient of two integers is correctly rounded by Flocq's theorem on binary division (SFdiv), powers of ten multiplied out |
| C92 | Model_img (prepare_image2, uniform_filter) | sums over windows by induction on the radius; cutting loses at most n-1 per pass; locality by extensionality of the sums |
| C93 | tracking runs over real files | Model_files composes Model_fb's run with Model_io's reading and writing (a world W with rd/wr); Spec_files gives file names, contents and what reads back; a simulation between runs over two worlds (Proof_files), file contents as a function of the frame (Proof_files2,3), then C79/C24/C78/C91 carried over and the round trip of C57 applied to each written frame (Proof_files4-7); with particles added, the growth invariant of Proof_grow (targets only retagged, never more new particles than unused targets) in place of the unchanged frames; repeated adding runs (Proof_grow3, Prop_grow): the sum of unused detections falls until a run adds nothing, and a run over files in the program's own form that adds nothing repeats |
| C94 | box blur in loops, masking | Model_blur: the three row loops and three column loops over flat arrays with Python indexing and numpy slices; for half-width 0 an invariant (rows, then columns, agree with the image so far), for others the last row reads past the end and nothing before raises anything else |
| C95 | a crash while a calibration is written | Model_calcrash: write_ori as the operations on its two files; a beginning of a text of numbers has the words of the text but for the last (induction over the characters), so the numbers read agree but for the last |
| C96 | the apparent point behind a glass plate | multimed_nlay of Model_geo; the factor depends only on the distance from the axis and the heights, so the one-dimensional convergence result (Proof_geo11) applies to every camera and point; angles and Snell's law stated with sin and tan |

## Trusted base

* The kernel of Coq 8.16.1, including its virtual machine (`vm_compute` is used
  to evaluate closed binary64 and Z terms).
* The reading of the Python source into the model; it is not machine checked.
* Axioms: only those of the standard library's real numbers and classical logic:
  `ClassicalDedekindReals.sig_not_dec`, `ClassicalDedekindReals.sig_forall_dec`,
  `FunctionalExtensionality.functional_extensionality_dep` and, where Flocq or
  trigonometric lemmas are used, `Classical_Prop.classic`. The list per theorem
  is at the end. (Tools that list every module parameter also show the fields of
  `Rdefinitions.RbaseSymbolsImpl`, `RinvImpl` and `ssrunder.Under_rel`; these
  are opaque definitions of the standard library, not axioms.)
* No axiom, `Admitted`, functor or module type of our own; no kernel check is
  switched off.

## What is modelled

* correspondences.py: everything except allocation helpers; the whole chain from
  target lists to reported matches is joined in Model_chain.v.
* find_candidate.py, epi.py: `find_candidate`, the binary search, `epi_mm`,
  `epi_mm_2D`, `epipolar_curve`. The corners of the sensor enter `find_candidate` as values.
* track.py: all functions on the way of `trackcorr_c_loop` and `trackback_c`;
  tracking_frame_buf.py: frame, target and path files, buffer, `match_coords`.
* segmentation.py: `targ_rec`, `fast_targ_rec`, `target_recognition`, `check_touch`,
  `peak_fit` up to the point where it raises. image_processing.py: `prepare_image`, `copy_images`.
* sortgrid.py, orientation.py: `sortgrid`, `skew_midpoint`, `point_position(s)`,
  `weighted_dumbbell_precision`, `num_deriv_exterior`, `orient` (error estimates in Model_est.v), `raw_orient`,
  `full_calibration`, `external_calibration`, block and manual orientation files.
* calibration.py, parameters.py: files, comparisons, dictionary and YAML; the
  accessors of `Calibration` as histories of calls over shared arrays, those of the parameter
  sets as record laws.
* trafo.py, vec_utils.py, ray_tracing.py, imgcoord.py, multimed.py: scalar
  versions of all functions, including `init_mmlut`; tracking_run.py: the
  computed fields of a run, `tr_new`.
* in double precision as well (Model_f64): the coordinate conversions of trafo.py, the
  vector helpers, the prediction, the limits, angle and acceleration of track.py.

## What is not modelled

* all printing and warnings.
* numba compilation: compiled functions are read as the Python they are written
  in, with integers unbounded and out-of-range indices raising (the binary may
  read outside an array without raising).
* numpy broadcasting and dtype casts, except where a comment says so (view
  aliasing, `np.resize` repetition and integer truncation are modelled).
* text files: ASCII only, no `\r\n` translation, no digit groups with `_`.
* concurrent modification of files, partial writes by the operating system.

## Findings (each is a theorem with suffix `_refuted`, or part of a statement)

* correspondences: the zeroed scratch array yields a clique (0,0,0,0); an empty
  camera makes every call fail (C04); padding slots count as edges (C06); two and
  three cameras never work (C06, C08).
* candidate search misses targets for lists of 8190 targets or more (C10, C11).
* tracking: links taken away stay counted (C15); ties are dropped (C16); unfilled
  slots name the last target, cameras without targets raise (C18); candidates are
  lost or duplicated, a full ranking raises (C19); 80 link candidates overflow
  with four cameras (C20); `add_particle` overwrites rows of other particles, and
  because it tests for -999 instead of -1 retags the last target of cameras that
  saw nothing (C22); the last forward step uses frame last-3, short sequences fail
  (C23); backward tracking writes frame first into file first+1 (C24) and never
  adds particles (C67); a particle that stays has angle 200 (C25); the
  displacement of a link itself is not tested (C65); in double precision the cosine of exactly straight
  motion can exceed 1, the angle is then nan and the candidate refused (C87); in the last step of a run the frame two
  back, in a two-step run whatever the buffer held, serves as the next frame (C78, C79); backward
  conflicts go to the lowest-numbered particle, not to the better one (C81).
* frame files: no empty target list, no frame number 0, no `#` names (C28, C57);
  the priority file is not optional, a truncated correspondence file yields phantom particles at the
  origin without an error (C29); missing files look like empty frames
  (C30).
* parameter files: PftVersionPar cannot be read back, a second `from_dict` raises,
  YAML loses the media object, fewer than four thresholds destroy the file (C38);
  comparisons ignore layers and distortion (C39); three readers do not report a
  missing file (C60). Calibration files: `read_ori` returns defaults, `copy`
  copies nothing, small coefficients are lost (C37). `set_rotation_matrix` always
  raises, four getters hand out the object's own array (C75). One word that is no number
  makes sortgrid's `read_calblock` return an empty block without an exception (C85).
* geometry: `vec_cmp` accepts any difference for large enough vectors and is not symmetric (C42); the distortion correction does not converge to the inverse with
  decentering or shear (C41); rays along the glass vector are reflected (C43); the
  look-up fails at its border (C45), and `flat_image_coord` looks into a table of
  zeros, so the table built by `init_mmlut` is never used for projection and can
  only raise (C46, C53); `volumedimension` misses the view at the lower limit and
  for distorted cameras (C56); epipolar curves stop at the limits of the first layer
  (C71); `init_mmlut` keeps old entries under a new description and rounds negative
  limits the wrong way (C72); a tracking run changes the caller's volume (C73); indices of
  inner layers are ignored and `set_layers` leaves the number of layers wrong (C76).
* calibration: on failure all corrections stay (C52, C62); the interface estimate
  is lost (C52); distortion is erased by `external_calibration` (C62); residual rows
  are shifted if a point does not take part (C61); with lens distortion the true camera is
  not kept, because measured coordinates are corrected and projected ones are not (C80);
  error estimates ignore the weights, so that fixed parameters get an error, entries above the number
  of unknowns are uninitialised memory, three points give none (C86).
* segmentation: the returned sum of grey values is not the one tested (C33);
  negative thresholds loop for ever, the wait list of 20480 entries can overflow (C34); `peak_fit` always raises, and so does
  `check_touch` for a new peak (C35); the size check covers the subrange only (C74).
  `prepare_image` uses a bitwise or (C51).

## Assumptions per theorem (output of `Print Assumptions`)

* Closed under the global context (no axiom): C01_take_best_disjoint, C01_take_best_total, C02_take_best_greedy, C03_one_clique_per_target, C03_three_cameras, C03_two_cameras, C04_clique_support, C04_empty_camera_fails, C04_refuted, C04_spurious_quadruplet, C05_four_camera_exact, C06_genuine_triplets, C06_refuted, C06_three_camera_exact, C06_three_cameras_raise, C07_pair_exact, C08_four_cameras, C08_two_three_cameras_refuted, C09_single_camera, C10_match_pairs_exact, C10_matching_complete, C10_matching_order, C10_window_reading, C11_in_bounds, C11_range, C11_starts_in_time, C11_too_late_refuted, C13_backward_run, C13_backward_step, C13_forward_run, C13_forward_step, C13_injective, C13_linking_mutual, C14_best_candidate, C14_losers, C14_step, C14_winner, C15_count_exact, C15_count_refuted, C15_step, C16_nearest, C16_ties_refuted, C17_nearest_unused, C18_found_slots, C18_no_targets_refuted, C18_register_exact, C18_unfilled_refuted, C19_duplicates_refuted, C19_lost_refuted, C19_no_end_marker_refuted, C19_sort_exact, C19_volume, C20_capacity, C20_overflow_refuted, C21_empty, C21_sort, C22_few_particles_refuted, C22_path, C22_possible, C22_raises, C22_refuted, C22_rows_refuted, C22_tags, C22_unseen_camera_refuted, C23_forward_frames, C23_last_step_refuted, C23_reads_beyond_refuted, C23_single_frame_refuted, C24_backward_frames, C24_last_step_refuted, C24_own_number_refuted, C24_two_frames_refuted, C27_bounded_fifo, C27_keeps_recent_refuted, C27_next_shifts, C27_rotation_breaks_fifo_refuted, C27_rotations_inverse, C28_accepted, C28_distinct_names, C28_empty_refuted, C28_names_refuted, C28_numbered_name, C28_other_names, C29_malformed_refuted, C29_names, C29_no_prio_refuted, C29_none_refuted, C29_other_frames, C29_unwritable, C30_linkage_refuted, C30_never_false, C30_refuted, C30_targets, C31_get_by_pnrs, C31_match_coords, C31_names_its_target, C31_repeated_request_refuted, C31_stale_numbers_refuted, C31_usable, C32_kernel, C32_numbers, C32_reported_iff, C32_segmentation, C33_sumg_refuted, C34_any_image, C34_negative_threshold_refuted, C34_no_error, C34_overflow_refuted, C34_small_range, C34_too_large_refuted, C34_wrap_refuted, C35_new_refuted, C35_no_peak, C35_refuted, C35_touch, C35_touch_refuted, C37_copy_refuted, C37_missing, C37_no_added_refuted, C37_read, C37_read_ori_refuted, C37_short, C37_unwritable, C38_default_medium, C38_dict, C38_dict_twice_refuted, C38_few_thresholds_refuted, C38_media_lengths, C38_pft_refuted, C38_target_par, C38_yaml_refuted, C39_added_ignored_refuted, C39_addpar, C39_calibration, C39_control, C39_media, C39_media_layers_refuted, C39_sequence, C39_target, C39_track, C39_volume, C50_nearest_unique, C50_row_numbers, C50_shared_refuted, C50_sortgrid, C51_refuted, C53_float_refuted, C57_empty_camera_refuted, C57_other_files, C58_positions, C58_target_positions, C59_calibration_par, C59_control, C59_examine, C59_multi_planes, C59_orient_par, C59_pft, C59_sequence, C59_target_par, C59_track, C59_volume, C60_missing, C60_refuted, C64_blank_refuted, C64_block, C64_few_points, C64_long_refuted, C64_manual, C65_displacement_refuted, C65_links_justified, C66_added_particles, C67_backward_limits, C67_joined, C67_kept, C67_never_adds, C74_crop, C74_cut_refuted, C74_determined, C74_found, C74_local, C74_rejects, C74_size_refuted, C75_attached, C75_detached, C75_get, C75_independent, C75_independent_history, C75_live_refuted, C75_rotation, C75_set, C75_set_rotation_refuted, C75_snapshot, C75_written, C76_indices, C76_lengths, C76_refused, C76_set, C77_followed, C77_linked, C77_two_cameras_refuted, C78_unbroken, C78_wrong_frame_refuted, C79_buffer, C79_links_ignored, C79_repeat, C79_stale_refuted, C81_closed, C81_first_come_refuted, C82_backward, C82_forward, C83_arrays, C83_corres, C83_fields, C83_found_copy, C83_found_reset, C83_nan_refuted, C83_paths, C83_reset_links, C83_sort_y, C83_targets, C83_targets_equivalence, C83_unused_candidates_refuted, C84_matmul, C84_matmul_schedule, C85_block, C85_block_blank_refuted, C85_block_silent_refuted, C85_control, C85_control_read, C85_eps, C85_missing, C85_new, C85_only, C85_sequence, C85_sequence_name, C85_target_read, C85_too_many_names, C85_track, C85_volume, C88_once, C90_frame, C90_frame_operations, C90_lost_refuted, C90_operations, C90_other_frames, C91_float_refuses, C91_int, C91_int_refuses, C91_special, C92_background_refuted, C92_border_refuted, C92_copy, C92_local, C92_refused, C92_smoothed, C92_value, C92_white_refuted, C93_adding_again_refuted, C93_refines, C93_repeat, C94_blur_refuted, C94_copies, C94_mask, C95_digit_refuted, C95_lost_refuted, C95_operations.
* sig_forall_dec: C42_init.
* sig_forall_dec, functional_extensionality_dep: C26_window, C40_anchor, C40_inverse, C42_cmp, C42_cmp_close, C42_cmp_symmetry_refuted, C42_cmp_tolerance_refuted, C42_space, C84_pixel_metric, C86_diagonal, C88_matched.
* sig_forall_dec, sig_not_dec, functional_extensionality_dep: C36_identity, C36_rotation, C36_set_pos, C41_affine, C41_decentering_refuted, C41_flat_dist_affine, C41_no_distortion, C41_radial, C41_shear_refuted, C42_cross, C42_distance, C42_norm, C42_norm3, C42_unit, C43_away_refuted, C43_snell, C43_straight, C44_meaning, C44_round_trip, C45_above_refuted, C45_below_refuted, C45_border_refuted, C45_bounded, C45_interpolates, C46_collinear, C47_midpoint, C47_symmetric, C48_average, C48_meeting_rays, C48_symmetric, C48_too_few_refuted, C49_midpoint_2D, C52_directions_refuted, C54_refuted, C55_dumbbell, C56_lower_refuted, C56_principal_point_refuted, C56_volume, C63_select, C63_single, C63_total, C70_measured, C70_nearby_rays, C73_again, C73_box, C73_level, C73_lmax, C73_slanted_refuted, C76_ray_layers_refuted, C87_short_refuted.
* sig_forall_dec, sig_not_dec, classic, functional_extensionality_dep: C10_cands_ok, C10_find_candidate_exact, C10_find_candidate_sound, C10_large_input_refuted, C12_ratio, C12_score, C25_angle, C25_stationary_refuted, C28_big_integer_refuted, C28_round_trip, C29_read_fresh, C29_round_trip, C29_truncated_refuted, C33_limits, C36_binary64, C37_rotation, C37_round_trip, C37_small_coefficient_refuted, C39_close, C46_back, C46_equal_indices, C46_pinhole, C46_total_without_table, C49_ends, C49_segment, C52_failure_refuted, C52_frozen, C52_interface_refuted, C52_success, C52_systems, C52_touched_refuted, C53_differences, C53_limit, C53_raise_refuted, C53_restored, C57_frame_round_trip, C61_many_targets_refuted, C61_rows, C61_unused_refuted, C62_distortion_refuted, C62_result, C62_touched_refuted, C62_unchanged, C68_round_trip, C69_end_to_end, C70_pixels_exact, C70_radial, C70_refracted, C71_ends, C71_layers_refuted, C71_match, C71_one_point, C71_points, C71_refracted, C71_total, C72_bottom_refuted, C72_covers, C72_entries, C72_lookup, C72_node, C72_only_table, C72_stale_refuted, C72_unused_refuted, C76_air_refuted, C76_count_refuted, C76_inner_index_refuted, C76_negative_refuted, C76_right_count, C80_distortion_refuted, C80_moved_refuted, C80_orient, C80_raw, C80_table, C84_flat_image_coordinates, C84_image_coordinates, C86_estimates, C86_exact, C86_few_refuted, C86_frozen_refuted, C86_memory_refuted, C86_raise, C86_same, C87_acceleration, C87_angle_cases, C87_angle_refuted, C87_cosine, C87_difference, C87_distance, C87_extrapolation, C87_integer, C87_length, C87_limits, C87_limits_converse, C87_metric, C87_moving, C87_pixel, C87_products, C87_roundtrip, C87_uniform, C87_unit, C88_array, C88_calibrated, C88_complete, C88_external, C88_nothing_refuted, C88_unmatched_refuted, C89_links, C89_straight_refuted, C90_digit_refuted, C90_frame_read, C90_mixed_refuted, C90_rows, C90_targets, C90_targets_refuted, C91_float, C91_lines, C91_notation, C91_track_file, C93_adding_settles, C93_backward, C93_forward, C93_forward_adding, C93_overwritten_refuted, C93_settles, C95_mixed_refuted, C95_no_glass_refuted, C95_read, C96_axis, C96_refraction, C96_symmetry.
