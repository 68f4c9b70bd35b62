status.update({
'C01':('proved','take_best_candidates: disjointness, usage marks, and totality under the table sizes correspondences() allocates.'),
'C02':('proved','descending score order, and each candidate left out clashes with a used target or a chosen clique of at least its score.'),
'C03':('proved','Cameras with at least one target each. Four cameras: C03_one_clique_per_target. Two: exactly the pairs plus possibly the blank pair. Three: ValueError as soon as there is a triplet, otherwise exactly the blank triplet and the pairs avoiding target 0 (correspondences called with a 4-slot count list; the wrapper py_correspondences passes a shorter one, see C08).'),
'C04':('partial','The code violates the property: the zero-initialised scratch array contributes a blank clique (0,0,0,0), C04_refuted; with an empty camera the same entry makes every call raise IndexError. Proved: every other clique is supported.'),
'C05':('proved','exact set of quadruplets, capacity, no duplicates.'),
'C06':('partial','The code violates the property: the third edge is searched in all MAXCAND slots, also the unused ones holding 0 (C06_refuted). Proved: exact characterisation with padding, all genuine triplets are found, those not involving target 0 are genuine; with three cameras every triplet raises ValueError.'),
'C07':('proved','exact set of pairs for up to 4 cameras.'),
'C08':('partial','Proved for four cameras; for two and three cameras the call fails on every input (C08_two_three_cameras_refuted).'),
'C09':('proved',''),
})
status.update({
'C10':('partial','Exact (first 40 qualifying targets in x order) for all sizes with at most 11 one bits in num/2, i.e. all sizes below 8190; soundness for every size; for every size with 12 or more one bits an input is exhibited on which a qualifying target is missed (C10_large_input_refuted).'),
'C11':('partial','In bounds for every size; starts in time exactly when num/2 has at most 11 one bits (all sizes below 8190); refuted otherwise.'),
'C12':('proved','For integer shape values up to 2^53 (exact in binary64), through the real-number semantics of binary64 (Flocq).'),
})
status.update({
'C13':('proved','Linking phase for arbitrary decision values; whole forward and backward steps for arbitrary geometry. For a whole run see C23/C24.'),
'C14':('proved','For decision values that are numbers (not NaN); C13 covers NaN.'),
'C15':('partial','The code violates the property (C15_count_refuted): stolen links stay counted. Proved: the exact set that is counted, which contains all linked particles.'),
'C16':('partial','Proved for pairwise different distances in the sense of the theorem: hits at the four smallest different distances. Targets at exactly equal distances are dropped (C16_ties_refuted). List sizes with at most 11 one bits in num/2 (all below 8190); distances below 1e20.'),
'C17':('proved','List sizes with at most 11 one bits in num/2 (all below 8190); distances below 1e20.'),
'C18':('partial','The code violates the property: unfilled slots take the last target of the list (C18_unfilled_refuted), a camera without targets raises IndexError (C18_no_targets_refuted). Proved: exact contents of the slots.'),
'C19':('partial','The code violates the property: candidates are lost, duplicated, and a full ranking has no end marker (the step then raises IndexError). Proved: exact characterisation of what is returned.'),
'C20':('partial','The code violates the property with four cameras (C20_overflow_refuted). Proved: 4n(4n+1) slots suffice for n cameras, so 80 suffice for one and two cameras.'),
'C21':('proved','sorted() is an arbitrary function that permutes and orders; n = 0 raises ValueError.'),
'C22':('partial','Refuted in part: the appended path entry and the tags of cameras that saw the particle are right; a camera that saw nothing has its last target retagged, and correspondence rows 0..ncam-1 are overwritten.'),
})
status.update({
'C13':('proved','Linking phase for arbitrary decision values; whole forward and backward steps for arbitrary geometry; whole forward and backward runs over sequences of any length (C13_forward_run, C13_backward_run).'),
'C23':('partial','Proved: slots and files for all sequences of at least two frames, except slot 3 in step last-1, which holds frame last-3 (C23_last_step_refuted). Sequences of one frame always fail; frame first+2 is read even beyond the end.'),
'C24':('partial','Proved: slots except slot 3 of the last step, files first+2..last-1. False: file first+1 gets frame first, file first is never written (C24_own_number_refuted).'),
'C27':('partial','Proved: rotations are inverse, and push/pop on a new buffer of any length is a bounded FIFO that refuses new items when full. False: it does not keep the most recent items, and rotating breaks the queue order.'),
})
status.update({
'C32':('proved','For all images, non-negative thresholds and limits, provided no growable region exceeds the wait list (20480 pixels), which holds for every range below 20480 pixels (C34_small_range).'),
'C33':('partial','Proved: all limits hold, with sumg_min compared with the sum of full grey values, and the centroid is in the bounding box. False as a claim on the returned sumg (C33_sumg_refuted).'),
'C34':('partial','Proved for non-negative thresholds and regions within the 20480-entry wait list, and for all images if the wait list is as large as the image. Whether the queue of a larger region can overflow is not settled. Negative thresholds loop for ever; imx larger than the image fails.'),
'C35':('partial','Refuted: peak_fit raises IndexError on every image with a local maximum above the threshold in the scanned range. peak_fit_new raises ValueError on every image (C35_new_refuted; filter and labelling are parameters).'),
})
status.update({
'C31':('partial','Proved for all target lists and sort routines: one entry per target, x order, with reset_numbers the entry names its target; get_by_pnrs exact. False: stale numbers without reset_numbers, and a number requested twice is answered once.'),
'C50':('partial','Proved: each point gets the nearest detection in its box, row numbers if no detection is shared. False: a shared detection is given to both points and carries the later row number (C50_shared_refuted).'),
'C51':('partial','Refuted for all images and filters: prepare_image uses bitwise or, pixels never get darker, and the result is the clipped difference only where the low-pass is zero.'),
})
status.update({
'C25':('partial','Over the reals. Proved for moving particles. False for a particle that stays: angle 200 (C25_stationary_refuted).'),
'C26':('proved','For an arbitrary projection to pixels, non-negative image size; over the reals.'),
'C36':('proved','Over the reals (exact arithmetic reading of sin and cos), and in binary64 for any sin and cos with values in [-1,1] and error at most d <= 1/100.'),
'C40':('proved','Over the reals.'),
'C41':('partial','Over the reals. Exact for no distortion and for scale/shear; radial distortion of moderate size within tol/8. False with decentering p1 or with shear plus radial distortion (not even a fixed point).'),
'C42':('proved','Over the reals.'),
'C43':('partial','Over the reals. Proved for rays that cross the glass and are not totally reflected. False for rays running along the glass vector (C43_away_refuted): they are reflected.'),
'C44':('proved','Over the reals, non-zero glass vector.'),
'C45':('partial','Over the reals. Proved inside the table. False at its border, below and above (three refutations).'),
'C46':('proved','Over the reals.'),
'C47':('proved','Over the reals, for non-parallel lines.'),
'C48':('partial','Over the reals. Proved for two or more cameras that see the point; with fewer the code raises ZeroDivisionError (C48_too_few_refuted).'),
'C49':('proved','Over the reals, in one medium (all three refractive indices 1, the short cut of the code).'),
'C54':('partial','Refuted for every non-empty table.'),
'C55':('proved','Over the reals; also characterises when the value is zero.'),
'C56':('partial','Over the reals. Proved at the upper limit. False at the lower limit (C56_lower_refuted): the rays are shifted by the wrong amount unless they start at z = 0.'),
})
status.update({
'C28':('partial','Proved for non-empty lists, positive frame numbers, names with %, integers below 2^53. False for an empty list (ValueError, file emptied), frame number 0, old-style # names, larger integers (three refutations).'),
'C29':('partial','Proved with a priority file name, also second-generation stability. Without one write_path_frame fails after emptying the other files (C29_no_prio_refuted).'),
'C30':('partial','Refuted: Frame.read never returns False; missing correspondence/linkage files look like an empty frame. A missing target file raises.'),
'C57':('partial','Proved when every camera has a target. False with an empty camera (C57_empty_camera_refuted).'),
'C58':('proved',''),
})
status.update({
'C37':('partial','Proved with a distortion file name, for arbitrary sin/cos: all numbers to the written digits, matrix recomputed, second generation identical. False: coefficients below 0.5e-8 are lost, write without distortion file reports failure, read_ori discards what it read, Calibration.copy copies nothing (four refutations).'),
'C38':('partial','Proved for TargetPar with four thresholds and one ControlPar dictionary round trip. False for fewer thresholds, PftVersionPar, a second from_dict, YAML (four refutations).'),
'C39':('partial','Proved as exact field-wise equality for sequence, track, volume, control, target parameters, single-layer media, added parameters. compare_mm_np ignores further layers, compare_calibration ignores the distortion (two refutations) and compares the matrix with a tolerance.'),
'C59':('proved','If and only if, for every file content.'),
'C60':('partial','Proved for seven readers. False for TargetPar, OrientPar (defaults) and TrackPar (TypeError).'),
})
status.update({
'C52':('partial','Over the reals, for every solver. Proved: frozen parameters, table and (without interface flag) glass are kept; on success consistent matrix and small last correction. False: on failure all 80 corrections stay (C52_failure_refuted, C52_touched_refuted); the interface estimate is lost (C52_interface_refuted); the glass is moved along directions that are not perpendicular to it.'),
'C53':('partial','Over the reals: exact forward differences, limit, calibration restored. False: in binary64 the steps do not cancel (C53_float_refuted); an exception leaves the camera displaced (C53_raise_refuted).'),
'C61':('partial','Proved: row k is the residual of the k-th point that took part; so rows are right if all points take part. False otherwise (C61_unused_refuted), and IndexError with more than n+5 targets.'),
'C62':('partial','Proved for every outcome: interior, glass, table kept; meaning of True. False: the distortion is erased, and on False the corrections stay.'),
'C63':('proved','Over the reals.'),
'C64':('partial','read_man_ori_fix proved if and only if. read_calblock: listed points proved; missing lines give (0,0,0) silently, a blank or surplus line raises IndexError.'),
})
status.update({
'C65':('partial','Every link is justified (C65_links_justified). Refuted part: the displacement of the link itself may exceed the limits (C65_displacement_refuted).'),
'C66':('proved',''),
'C67':('partial','Limits proved. Refuted part: the volume test is 0 < y < 0, so a backward step never adds a particle (C67_never_adds).'),
})
status.update({
'C41':('partial','Over the reals. Exact for no distortion and for scale/shear; radial distortion of moderate size within tol/8. False with decentering p1 or with shear plus radial distortion: for every tolerance the inverse is missed by more than it (C41_decentering_refuted, C41_shear_refuted).'),
'C49':('proved','Over the reals. C49_ends for any media; segment and midpoint in one medium (all three refractive indices 1, the short cut of the code).'),
'C56':('partial','Over the reals. Proved at the upper limit, without distortion or with principal point 0. False at the lower limit (C56_lower_refuted) and for distortion with a principal point (C56_principal_point_refuted: subtracted before the distortion is removed).'),
})

status.update({"C68":("proved","one plate; exact error bound of the iteration, over R")})

status.update({'C04': ('proved', 'Natural expectation: Every returned clique is supported by candidate edges, also when there are none, and an empty camera is no error (violated). The code violates the property: the zero-initialised scratch array contributes a blank clique (0,0,0,0), C04_refuted; with an empty camera the same entry makes every call raise IndexError. Proved: every other clique is supported.'), 'C06': ('proved', 'Natural expectation: Only triangles of candidate edges are reported, and three cameras work (violated). The code violates the property: the third edge is searched in all MAXCAND slots, also the unused ones holding 0 (C06_refuted). Proved: exact characterisation with padding, all genuine triplets are found, those not involving target 0 are genuine; with three cameras every triplet raises ValueError.'), 'C08': ('proved', 'Natural expectation: It works for every supported camera count (violated for two and three). Proved for four cameras; for two and three cameras the call fails on every input (C08_two_three_cameras_refuted).'), 'C10': ('proved', 'Natural expectation: Completeness for every number of targets (violated from 8190 on). Exact (first 40 qualifying targets in x order) for all sizes with at most 11 one bits in num/2, i.e. all sizes below 8190; soundness for every size; for every size with 12 or more one bits an input is exhibited on which a qualifying target is missed (C10_large_input_refuted).'), 'C11': ('proved', 'Natural expectation: The search starts in time for every array (violated from 8190 on). In bounds for every size; starts in time exactly when num/2 has at most 11 one bits (all sizes below 8190); refuted otherwise.'), 'C15': ('proved', 'Natural expectation: The reported number of links equals the number of links made (violated: links taken away stay counted). The code violates the property (C15_count_refuted): stolen links stay counted. Proved: the exact set that is counted, which contains all linked particles.'), 'C16': ('proved', 'Natural expectation: All of the four nearest targets are returned, also at equal distances (violated for ties). Proved for pairwise different distances in the sense of the theorem: hits at the four smallest different distances. Targets at exactly equal distances are dropped (C16_ties_refuted). List sizes with at most 11 one bits in num/2 (all below 8190); distances below 1e20.'), 'C18': ('proved', 'Natural expectation: Unfilled slots stay empty (violated). The code violates the property: unfilled slots take the last target of the list (C18_unfilled_refuted), a camera without targets raises IndexError (C18_no_targets_refuted). Proved: exact contents of the slots.'), 'C19': ('proved', 'Natural expectation: The distinct ids seen by at least two cameras, each once, with an end marker (violated). The code violates the property: candidates are lost, duplicated, and a full ranking has no end marker (the step then raises IndexError). Proved: exact characterisation of what is returned.'), 'C20': ('proved', 'Natural expectation: The fixed candidate buffer never overflows (violated for four cameras). The code violates the property with four cameras (C20_overflow_refuted). Proved: 4n(4n+1) slots suffice for n cameras, so 80 suffice for one and two cameras.'), 'C22': ('proved', 'Natural expectation: Adding a particle does not disturb the others (violated for rows and for unseen cameras). Refuted in part: the appended path entry and the tags of cameras that saw the particle are right; a camera that saw nothing has its last target retagged, and correspondence rows 0..ncam-1 are overwritten. When adding succeeds at all is exact (C22_possible, C22_raises); that it works in every frame is refuted (C22_few_particles_refuted; C93_empty_frame_case is a whole run ended by it).'), 'C23': ('proved', 'Natural expectation: Slot 3 is right in every step, and one- and two-frame sequences work (violated). Proved: slots and files for all sequences of at least two frames, except slot 3 in step last-1, which holds frame last-3 (C23_last_step_refuted). Sequences of one frame always fail; frame first+2 is read even beyond the end.'), 'C24': ('proved', 'Natural expectation: Every frame is written under its own number (violated for the first two). Proved: slots except slot 3 of the last step, files first+2..last-1. False: file first+1 gets frame first, file first is never written (C24_own_number_refuted).'), 'C25': ('proved', 'Natural expectation: Identical velocities give angle 0, also if they are zero (violated). Over the reals. Proved for moving particles. False for a particle that stays: angle 200 (C25_stationary_refuted).'), 'C27': ('proved', 'Natural expectation: A full buffer keeps the most recent frames (violated). Proved: rotations are inverse, and push/pop on a new buffer of any length is a bounded FIFO that refuses new items when full. False: it does not keep the most recent items, and rotating breaks the queue order.'), 'C28': ('proved', 'Natural expectation: The round trip holds for all target lists, numbers and names (violated). Proved for non-empty lists, positive frame numbers, names with %, integers below 2^53. False for an empty list (ValueError, file emptied), frame number 0, old-style # names, larger integers (three refutations).'), 'C29': ('proved', 'Natural expectation: The priority file is optional (violated). Proved with a priority file name, also second-generation stability. Without one write_path_frame fails after emptying the other files (C29_no_prio_refuted).'), 'C30': ('proved', 'Natural expectation: Frame.read returns True only if the correspondence file was readable (violated). Refuted: Frame.read never returns False; missing correspondence/linkage files look like an empty frame. A missing target file raises.'), 'C31': ('proved', 'Natural expectation: Every request is answered, also a repeated one (violated). Proved for all target lists and sort routines: one entry per target, x order, with reset_numbers the entry names its target; get_by_pnrs exact. False: stale numbers without reset_numbers, and a number requested twice is answered once.'), 'C33': ('proved', 'Natural expectation: The returned sumg satisfies sumg_min (violated). Proved: all limits hold, with sumg_min compared with the sum of full grey values, and the centroid is in the bounding box. False as a claim on the returned sumg (C33_sumg_refuted).'), 'C35': ('proved', 'Natural expectation: peak_fit returns the list of targets for every image (violated). Refuted: peak_fit raises IndexError on every image with a local maximum above the threshold in the scanned range. peak_fit_new raises ValueError on every image (C35_new_refuted; filter and labelling are parameters).'), 'C37': ('proved', 'Natural expectation: All ways of writing, reading and copying restore the calibration (violated for the last three). Proved with a distortion file name, for arbitrary sin/cos: all numbers to the written digits, matrix recomputed, second generation identical. False: coefficients below 0.5e-8 are lost, write without distortion file reports failure, read_ori discards what it read, Calibration.copy copies nothing (four refutations).'), 'C38': ('proved', 'Natural expectation: All parameter classes round-trip (violated). Proved for TargetPar with four thresholds and one ControlPar dictionary round trip. False for fewer thresholds, PftVersionPar, a second from_dict, YAML (four refutations).'), 'C39': ('proved', 'Natural expectation: All comparisons are equality of all fields (violated for layers and calibration). Proved as exact field-wise equality for sequence, track, volume, control, target parameters, single-layer media, added parameters. compare_mm_np ignores further layers, compare_calibration ignores the distortion (two refutations) and compares the matrix with a tolerance.'), 'C41': ('proved', 'Natural expectation: Correcting a distorted point returns the original for all parameters (violated). Over the reals. Exact for no distortion and for scale/shear; radial distortion of moderate size within tol/8. False with decentering p1 or with shear plus radial distortion: for every tolerance the inverse is missed by more than it (C41_decentering_refuted, C41_shear_refuted).'), 'C43': ('proved', 'Natural expectation: Equal indices leave every ray unchanged (violated for rays along the glass vector). Over the reals. Proved for rays that cross the glass and are not totally reflected. False for rays running along the glass vector (C43_away_refuted): they are reflected.'), 'C45': ('proved', 'Natural expectation: Look-up uses only neighbouring entries everywhere (violated at and beyond the border). Over the reals. Proved inside the table. False at its border, below and above (three refutations).'), 'C48': ('proved', 'Natural expectation: It returns a value for any number of cameras (violated for fewer than two). Over the reals. Proved for two or more cameras that see the point; with fewer the code raises ZeroDivisionError (C48_too_few_refuted).'), 'C50': ('proved', 'Natural expectation: No detection is given to two points (violated). Proved: each point gets the nearest detection in its box, row numbers if no detection is shared. False: a shared detection is given to both points and carries the later row number (C50_shared_refuted).'), 'C51': ('proved', 'Natural expectation: prepare_image returns the image minus its low-pass clipped at zero (violated: a bitwise or is used). Refuted for all images and filters: prepare_image uses bitwise or, pixels never get darker, and the result is the clipped difference only where the low-pass is zero.'), 'C52': ('proved', 'Natural expectation: On failure the calibration is unchanged, and the interface flag estimates the glass (violated). Over the reals, for every solver. Proved: frozen parameters, table and (without interface flag) glass are kept; on success consistent matrix and small last correction. False: on failure all 80 corrections stay (C52_failure_refuted, C52_touched_refuted); the interface estimate is lost (C52_interface_refuted); the glass is moved along directions that are not perpendicular to it.'), 'C53': ('proved', 'Natural expectation: The calibration is restored exactly, also when it raises (violated). Over the reals: exact forward differences, limit, calibration restored. False: in binary64 the steps do not cancel (C53_float_refuted); an exception leaves the camera displaced (C53_raise_refuted).'), 'C54': ('proved', 'Natural expectation: It returns one 3D position per target row (violated). Refuted for every non-empty table.'), 'C56': ('proved', 'Natural expectation: The box contains the view of every camera at both limits (violated). Over the reals. Proved at the upper limit, without distortion or with principal point 0. False at the lower limit (C56_lower_refuted) and for distortion with a principal point (C56_principal_point_refuted: subtracted before the distortion is removed).'), 'C57': ('proved', 'Natural expectation: Empty cameras can be written (violated). Proved when every camera has a target. False with an empty camera (C57_empty_camera_refuted).'), 'C60': ('proved', 'Natural expectation: Every reader reports a missing file as an I/O error (violated for three). Proved for seven readers. False for TargetPar, OrientPar (defaults) and TrackPar (TypeError).'), 'C61': ('proved', 'Natural expectation: Each row belongs to its target also when points do not take part (violated). Proved: row k is the residual of the k-th point that took part; so rows are right if all points take part. False otherwise (C61_unused_refuted), and IndexError with more than n+5 targets.'), 'C62': ('proved', 'Natural expectation: The distortion is kept and on False the camera is unchanged (violated). Proved for every outcome: interior, glass, table kept; meaning of True. False: the distortion is erased, and on False the corrections stay.'), 'C64': ('proved', 'Natural expectation: Missing lines are reported, a blank last line is accepted (violated). read_man_ori_fix proved if and only if. read_calblock: listed points proved; missing lines give (0,0,0) silently, a blank or surplus line raises IndexError.'), 'C65': ('proved', 'Natural expectation: The displacement of every link lies within the velocity limits (violated). Every link is justified (C65_links_justified). Refuted part: the displacement of the link itself may exceed the limits (C65_displacement_refuted).'), 'C67': ('proved', 'Natural expectation: With adding enabled it fills gaps (violated). Limits proved. Refuted part: the volume test is 0 < y < 0, so a backward step never adds a particle (C67_never_adds).')})

status.update({"C69":("proved","four cameras; the epipolar geometry and the tie order of the sorts are arbitrary; the known exceptions (blank quadruplet of leftmost targets, padded third edge) are part of the statement")})

status.update({"C70":("proved","over R; affine or radial lens; the refracted case inherits the error bound of C68, the radial case that of C41")})

status.update({"C34":("proved","Natural expectation: It succeeds on every image (violated). Proved under the exact condition on region sizes; refuted otherwise: C34_overflow_refuted (wait list of 20480 entries), C34_too_large_refuted, C34_negative_threshold_refuted.")})

status.update({"C71":("proved","over R. Natural expectation: The curve covers the whole volume (violated): C71_layers_refuted")})

status.update({"C72":("proved","over R. Natural expectation: a second call recomputes the table, negative limits are covered, projection uses the table (violated): C72_stale_refuted, C72_bottom_refuted, C72_unused_refuted"),
 "C73":("proved","over R. Natural expectation: the caller's volume keeps its points (violated for slanted limits): C73_slanted_refuted")})

status.update({"C74":("proved","Natural expectation: requests passing the check succeed, cut targets are not reported (violated): C74_size_refuted, C74_cut_refuted"),"C35":("proved","Natural expectation: peak_fit returns targets (violated): C35_refuted, C35_touch_refuted")})

status.update({"C75":("proved","Natural expectation: getters return copies, set_rotation_matrix works (violated): C75_live_refuted, C75_set_rotation_refuted")})

status.update({"C76":("proved","over R. Natural expectation: every layer counts with its own index, set_layers sets the number of layers (violated): C76_inner_index_refuted, C76_ray_layers_refuted, C76_air_refuted, C76_count_refuted")})

status.update({"C77":("proved","steps without adding particles (do_add off); C77_followed, C77_linked; C77_two_cameras_refuted: with fewer cameras a fitting particle can be lost")})

status.update({"C78":("proved","Unbroken links over whole runs for clear trajectories; in the last step the frame three before the last is used as the frame after it (C78_wrong_frame_refuted shows a link made only because of that).")})
status.update({"C79":("proved","relational proofs over pairs of runs; the two-step case is refuted by two runs over the same files")})
status.update({"C80":('proved','fixed point for cameras without distortion; C80_distortion_refuted and C80_moved_refuted show that it fails with distortion')})
status.update({"C81":('proved','completeness of the backward step; C81_first_come_refuted: conflicts are not won by the better candidate')})
status.update({"C82":('proved','forward (do_add off) and backward; C14 says how the values decide')})
status.update({"C83":('proved','comparisons, resets, setters, sorting by y, found-pixel arrays')})
status.update({"C84":('proved','array forms over the reals, the product over binary64 in any row order')})
status.update({"C85":('proved','the constructor is an arbitrary function')})
status.update({"C86":('proved','np.linalg.matrix_rank, inv, pinv and lstsq are arbitrary functions; real arithmetic, inf and nan as None')})
status.update({"C87":('proved','operation order of the source; fastmath regrouping is not modelled, np.linalg.norm is the root of the sum of squares, np.arccos an arbitrary function')})
status.update({"C88":('proved','positions are doubles in the matching and their exact real values in the calibration; the projection used by the matching and the solver are arbitrary functions')})
status.update({"C89":('proved','C89_links for every link of the step; C89_straight_refuted for the lost one. Projection, search quader and point positions stay arbitrary functions, as in C65')})
status.update({"C90":('proved','a crash of the process: an opened file is empty at once and holds a beginning of what was written; failures of the disk or of the operating system (reordered writes) are not modelled')})
status.update({"C91":('proved','int() and float() of Python are modelled for ASCII text without underscores; float("infinity") and capitalised nan and inf are not modelled and excluded in the refusal theorem')})
status.update({"C92":('proved','scipy.ndimage.uniform_filter is modelled from its documentation (separable running mean, axis 0 first, bytes after each pass); the convolution with a filter file is not. Natural expectation: the background is removed (violated): C92_background_refuted, C92_white_refuted, C92_border_refuted')})
status.update({"C93":('proved','The runs of C13/C23/C24/C78/C79 put on the file format of C57/C29/C28. A row of the correspondence array that was never written and a position without three numbers are refused on reading, a frame without one target list per camera before writing (the code fails later). C93_forward_adding covers do_add (point reconstruction any function into float64); C93_repeat and C93_settles are without do_add, C93_adding_settles is with it; that an adding run repeats at once is refuted by C93_adding_again_refuted (3 links, then 5). Natural expectation on frame first+1 refuted: C93_overwritten_refuted.')})
status.update({"C94":('proved','fast_box_blur_numba takes a dict, which numba refuses, so its Python meaning is modelled. Natural expectation refuted: C94_blur_refuted.')})
status.update({"C95":('proved',"Crash model of C90 (Spec_crash): each file is closed before the next is opened; of an open file any beginning may have reached the disk. Natural expectations refuted: C95_lost_refuted, C95_no_glass_refuted, C95_mixed_refuted, C95_digit_refuted. from_file's word-wise number reading as in C37.")})
status.update({"C96":('proved',"Real arithmetic instead of floats; refraction and symmetry without look-up table (the table's accuracy is the subject of the other look-up table properties).")})
