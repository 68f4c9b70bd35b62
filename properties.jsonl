{"id": "C01", "title": "Clique selection never uses a target twice", "statement": "take_best_candidates returns cliques that are pairwise disjoint (no target of any camera appears in two of them) and none of which contains a target that was already marked used; afterwards a target is marked used exactly when it was used before or belongs to a returned clique.", "quantifier": "every candidate array, every usage table, every camera count, every way the sort breaks ties", "why_tests_cant": "The conflict graph of the candidates is arbitrary; a test fixes one graph and one tie order.", "anchors": ["openptv_python/correspondences.py:take_best_candidates"]}
{"id": "C02", "title": "Clique selection is greedy-maximal and best-first", "statement": "take_best_candidates returns cliques in descending score order, each one of the candidates given, and every candidate left out contains a target that was used beforehand or that belongs to a returned clique of at least the same score.", "quantifier": "every candidate array, usage table, camera count and tie-breaking of the sort", "why_tests_cant": "Maximality is a statement about all rejected candidates of all inputs.", "anchors": ["openptv_python/correspondences.py:take_best_candidates"]}
{"id": "C03", "title": "A target belongs to at most one clique over all clique sizes, and its tnr names it", "statement": "After correspondences every target occurs in at most one of the returned cliques (quadruplets, triplets, pairs together); match_counts[3] is the sum of the per-size counts; a target that is in clique i has tnr = i, all other targets keep their tnr; nothing else of the targets changes. With two cameras the cliques are the pairs of C07 (plus possibly the blank pair of targets 0, stored in the zeroed array); with three cameras the call raises ValueError as soon as there is a triplet, and otherwise reports exactly one triplet, the blank one, and the pairs that avoid target 0.", "quantifier": "all edge lists that pair matching may produce, all target counts, every sort tie order, four cameras (and 2..4 cameras with a 4-slot count list)", "why_tests_cant": "Interaction of three phases through the shared scratch array and the usage table; only an invariant over all phases covers every history.", "anchors": ["openptv_python/correspondences.py:correspondences", "openptv_python/correspondences.py:take_best_candidates"]}
{"id": "C04", "title": "Every returned clique except the blank one is supported by candidate edges above the score threshold", "statement": "With four cameras, each having between 1 and 10000 targets, correspondences succeeds and every quadruplet it returns either consists of targets that are pairwise epipolar candidates with a score above corrmin, or is the blank quadruplet (0,0,0,0) with score 0; every genuine quadruplet is returned or clashes with an equally good returned one; triplets and pairs are built from candidate edges (in the sense of C06) between targets not used by larger cliques, and (unless all_cam_flag is set) each such triplet or pair is returned or clashes with an equally good returned one of its size, as long as there are no more of them than the scratch capacity. The blank quadruplet is really returned (for instance when there are no candidates at all), and with an empty camera every call raises IndexError.", "quantifier": "all edge lists, counts and score thresholds", "why_tests_cant": "A spurious clique appears only for particular occupancy patterns of the scratch buffer.", "anchors": ["openptv_python/correspondences.py:correspondences", "openptv_python/correspondences.py:take_best_candidates"], "expectation": "Every returned clique is supported by candidate edges, also when there are none, and an empty camera is no error (violated)."}
{"id": "C05", "title": "Quadruplet search finds exactly the complete 4-cliques", "statement": "four_camera_matching writes exactly the quadruplets whose six candidate edges all exist and whose score exceeds accept_corr, none twice, up to the scratch capacity.", "quantifier": "all adjacency lists, thresholds, capacities", "why_tests_cant": "Completeness of a six-deep nested loop with early exit needs all inputs.", "anchors": ["openptv_python/correspondences.py:four_camera_matching"]}
{"id": "C06", "title": "Triplet search finds exactly the triangles of candidate edges, and spurious ones through target 0", "statement": "With four cameras three_camera_matching reports, up to capacity and none twice, exactly the triplets of unused targets with a score above accept_corr whose first two edges are candidate edges and whose third edge is a candidate edge or an empty candidate slot (which the code reads as an edge to target 0); so it finds every genuine triplet and reports a non-genuine one only if it contains target 0. With three cameras it raises ValueError as soon as there is a triplet.", "quantifier": "all adjacency lists, usage tables, thresholds, capacities", "why_tests_cant": "The failing case needs a target number that coincides with the padding value of another list.", "anchors": ["openptv_python/correspondences.py:three_camera_matching"], "expectation": "Only triangles of candidate edges are reported, and three cameras work (violated)."}
{"id": "C07", "title": "Pair search reports exactly the unambiguous pairs", "statement": "consistent_pair_matching writes exactly the pairs of unused targets where the first has a single candidate and the score exceeds accept_corr, none twice.", "quantifier": "all adjacency lists, usage tables, thresholds, capacities", "why_tests_cant": "Exactness over all inputs.", "anchors": ["openptv_python/correspondences.py:consistent_pair_matching"]}
{"id": "C08", "title": "py_correspondences reports all cliques for four cameras and never works for two or three", "statement": "With four non-empty cameras py_correspondences returns, per clique size, the target ids and pixel positions of exactly the cliques found by correspondences, and their total number; with two or three cameras it raises on every input.", "quantifier": "all inputs with 2, 3 and 4 cameras", "why_tests_cant": "Whether an error happens for all inputs of a camera count is a universal claim.", "anchors": ["openptv_python/correspondences.py:py_correspondences", "openptv_python/correspondences.py:correspondences"], "expectation": "It works for every supported camera count (violated for two and three)."}
{"id": "C09", "title": "Single camera correspondences are the identity in x order", "statement": "single_cam_correspondences returns for position pt the id and pixel position of the target whose pnr is at position pt of the x-sorted list, and sets that target's tnr to pt.", "quantifier": "all target lists and all orders", "why_tests_cant": "Permutations are unbounded.", "anchors": ["openptv_python/correspondences.py:single_cam_correspondences"]}
{"id": "C10", "title": "Candidate search is sound and complete in the epipolar window", "statement": "For an x-sorted list of corrected coordinates whose length n has at most 11 one bits in n//2 (all lengths below 8190), find_candidate returns, in x order, exactly the first 40 targets whose corrected position is inside the epipolar window, closer than eps0 to the line and whose shape ratios pass the limits; for every length all returned targets qualify; for every length with 12 or more one bits some input makes it miss a qualifying target.", "quantifier": "all x-sorted coordinate lists, all epipolar segments and quality limits", "why_tests_cant": "Completeness depends on the approximate binary search start for every list length.", "anchors": ["openptv_python/find_candidate.py:find_candidate", "openptv_python/find_candidate.py:find_start_point_binary"], "expectation": "Completeness for every number of targets (violated from 8190 on)."}
{"id": "C11", "title": "The approximate binary search starts before the window and stays inside the array", "statement": "For an x-sorted array of any length every probe of the start search is inside the array; if n//2 has at most 11 one bits (all n below 8190) the start index never exceeds the first index whose x reaches xa-eps0; with 12 or more one bits it does exceed it when all targets are in the window.", "quantifier": "all lengths, all sorted arrays, all thresholds", "why_tests_cant": "Whether twelve slots are enough slack depends on the length in a non-obvious way.", "anchors": ["openptv_python/find_candidate.py:find_start_point_binary", "openptv_python/track.py:candsearch_in_pix", "openptv_python/track.py:candsearch_in_pix_rest"], "expectation": "The search starts in time for every array (violated from 8190 on)."}
{"id": "C12", "title": "Shape quality ratio is symmetric and within [0,1]", "statement": "quality_ratio(a,b) for non-negative a,b is symmetric, lies in [0,1], is 1 exactly when a=b>0, and the combined score is between 0 and 8 times the summed brightness.", "quantifier": "all non-negative arguments", "why_tests_cant": "Real-valued domain.", "anchors": ["openptv_python/find_candidate.py:quality_ratio", "openptv_python/find_candidate.py:find_candidate"]}
{"id": "C13", "title": "Links made by a tracking step are mutual and injective", "statement": "After a forward (or backward) tracking step's linking, for particles h of the current and k of the next frame, next(h)=k iff prev(k)=h, no matter the order of decisions.", "quantifier": "all candidate lists with any decision values, all particle counts", "why_tests_cant": "Link stealing makes the result depend on whole history.", "anchors": ["openptv_python/track.py:trackcorr_c_loop"]}
{"id": "C14", "title": "Link conflicts are won by the lowest decision value", "statement": "If a particle of the next frame is linked, its partner's final decision value is not larger than that of any other particle whose best choice it was; a particle remains unlinked only if it had no candidate or its best candidate was taken by a particle whose decision value is not larger.", "quantifier": "all candidate lists, decision values and particle counts; whole forward steps with any geometry", "why_tests_cant": "Quantifies over all competing particles in all orders.", "anchors": ["openptv_python/track.py:trackcorr_c_loop"]}
{"id": "C15", "title": "The reported number of links counts every link at the moment it is made", "statement": "A forward step adds to the number of links exactly the number of particles that, when their turn comes in particle order, find their best candidate free or held by an earlier particle with a larger decision value; every particle that has a successor after the step is among them. A particle whose candidate is taken away by a later one stays counted, one that finds its best candidate already held by an at least equally good one is not counted.", "quantifier": "all candidate lists and decisions", "why_tests_cant": "Only wrong when a link is stolen after being counted.", "anchors": ["openptv_python/track.py:trackcorr_c_loop"], "expectation": "The reported number of links equals the number of links made (violated: links taken away stay counted)."}
{"id": "C16", "title": "Pixel candidate search returns the nearest targets", "statement": "candsearch_in_pix returns the indices of the targets of the search window that belong to a correspondence at the (up to) four smallest different distances, in order of increasing distance, none nearer left out, for lists sorted by y of every length below 8190 and distances below 1e20; of several targets at exactly the same distance one is returned.", "quantifier": "all y-sorted target lists, centres and windows", "why_tests_cant": "Insertion cascade and early break over arbitrary lists.", "anchors": ["openptv_python/track.py:candsearch_in_pix"], "expectation": "All of the four nearest targets are returned, also at equal distances (violated for ties)."}
{"id": "C17", "title": "Pixel candidate search for unused targets returns the nearest", "statement": "candsearch_in_pix_rest returns the nearest target of the window that has no correspondence, and reports whether there is one.", "quantifier": "all y-sorted target lists, centres and windows", "why_tests_cant": "Arbitrary lists.", "anchors": ["openptv_python/track.py:candsearch_in_pix_rest"]}
{"id": "C18", "title": "Exactly the found pixel candidates are registered, unfilled slots name the last target", "statement": "After register_closest_neighbs the four slots of the camera hold the correspondence numbers of the found candidates, all other slots are unchanged; a slot for which nothing was found gets the number of the last target of the list, as if it had been found; a camera without targets raises IndexError.", "quantifier": "all target lists and windows", "why_tests_cant": "Failing case depends on an unfilled slot and on the last target of the list.", "anchors": ["openptv_python/track.py:register_closest_neighbs", "openptv_python/track.py:candsearch_in_pix"], "expectation": "Unfilled slots stay empty (violated)."}
{"id": "C19", "title": "Candidate ranking is exactly characterised", "statement": "sort_candidates_by_freq returns rows in descending order of the number of cameras that see them: the candidate ids that survive the comparison of overlapping slots, each row with the number of cameras that really list it; every surviving id seen by two cameras is present, ids that do not survive are lost, an id can appear in several rows, and a full ranking has no end marker (the tracking step then raises IndexError).", "quantifier": "all candidate arrays and camera counts", "why_tests_cant": "Bubble sort with aliasing swap fails only for particular orders.", "anchors": ["openptv_python/track.py:sort_candidates_by_freq"], "expectation": "The distinct ids seen by at least two cameras, each once, with an end marker (violated)."}
{"id": "C20", "title": "Number of link candidates is bounded by the number of cameras", "statement": "In one tracking step with n cameras a particle registers at most 4n(4n+1) link candidates and a buffer of that size behaves like any larger one; so the fixed buffer of 80 never overflows for one or two cameras. With four cameras it can overflow (IndexError where a larger buffer holds 225 candidates).", "quantifier": "all images, all candidate sets", "why_tests_cant": "Needs a bound over all executions.", "anchors": ["openptv_python/track.py:trackcorr_c_loop", "openptv_python/tracking_frame_buf.py:Pathinfo.register_link_candidate"], "expectation": "The fixed candidate buffer never overflows (violated for four cameras)."}
{"id": "C21", "title": "sort orders decisions with their links", "statement": "sort(n,a,b) leaves (a,b) sorted ascending as pairs, being a permutation of the input pairs in the first n slots.", "quantifier": "all arrays and prefix lengths", "why_tests_cant": "All permutations.", "anchors": ["openptv_python/track.py:sort"]}
{"id": "C22", "title": "Effect of adding a particle", "statement": "add_particle appends exactly one path entry with the given position and no links, increments the count, and sets the correspondence number of the chosen targets, changing nothing else in these targets. In a camera that did not see the particle the last target is retagged, the correspondence rows 0..ncam-1 are overwritten, and the appended row is not that of the new particle. Adding succeeds exactly when every camera's chosen target exists (or none is chosen), the count of particles is not beyond the list, and the frame has at least as many particles as there are cameras, less one; otherwise it raises IndexError. Refuted expectation: a particle can be added to any frame (never with fewer particles than cameras less one, e.g. to an empty frame: the whole run then ends with IndexError).", "quantifier": "all frames and candidate index tables", "why_tests_cant": "Needs all frames; corrupted rows appear only with enough particles.", "anchors": ["openptv_python/track.py:add_particle"], "expectation": "Adding a particle does not disturb the others (violated for rows and for unseen cameras)."}
{"id": "C23", "title": "Forward tracking sees the right frames at every step", "statement": "For every sequence of at least two frames: while forward tracking step s the buffer slots hold frames s-1, s, s+1, s+2 in the state left by the previous steps, except slot 0 in the first step and slot 3 in step last-1 (which holds frame last-3); every frame is written under its own number as the steps left it, no other file is touched, and the number of links is the sum over the steps. A sequence of one frame always fails; frame first+2 is read even beyond the end.", "quantifier": "all sequences first..last", "why_tests_cant": "Schedules of any length.", "anchors": ["openptv_python/track.py:track_forward_start", "openptv_python/track.py:trackcorr_c_loop", "openptv_python/track.py:trackcorr_c_finish", "openptv_python/tracking_run.py:TrackingRun"], "expectation": "Slot 3 is right in every step, and one- and two-frame sequences work (violated)."}
{"id": "C24", "title": "Backward tracking sees the right frames", "statement": "For every sequence of at least three frames: while trackback handles step s the buffer holds s+1, s, s-1, s-2 in the state left by the previous steps, except slot 3 in the last step; frames first+2..last-1 are written under their own numbers; file first+1 gets frame first, file first is never written, no other file is touched. A sequence of two frames always fails.", "quantifier": "all sequences first..last", "why_tests_cant": "Schedules of any length.", "anchors": ["openptv_python/track.py:trackback_c"], "expectation": "Every frame is written under its own number (violated for the first two)."}
{"id": "C25", "title": "Acceleration and angle of a candidate are in range", "statement": "For a particle that moves, angle_acc returns the angle between the two velocities in gon, within [0,200] (0 for identical velocities), and the distance between predicted and candidate position. For a particle that stays at its place it returns angle 200.", "quantifier": "all points", "why_tests_cant": "Real-valued domain.", "anchors": ["openptv_python/track.py:angle_acc"], "expectation": "Identical velocities give angle 0, also if they are zero (violated)."}
{"id": "C26", "title": "Search window covers all extreme motions", "statement": "searchquader returns for each camera distances that, added to the projected centre, cover the projection of every corner of the displacement cuboid, clipped to the image.", "quantifier": "all points, velocity limits, camera counts, projections", "why_tests_cant": "Real-valued domain.", "anchors": ["openptv_python/track.py:searchquader"]}
{"id": "C27", "title": "Frame buffer rotations are inverse, push and pop are a bounded FIFO", "statement": "fb_next and fb_prev are inverse, next shifts every slot by one; push and pop on a new buffer of any length behave for every sequence of operations like a queue of bounded length that refuses new items when full. Rotating between push and pop breaks the queue order.", "quantifier": "every operation sequence, every buffer length", "why_tests_cant": "Histories of any length.", "anchors": ["openptv_python/tracking_frame_buf.py:FrameBufBase"], "expectation": "A full buffer keeps the most recent frames (violated)."}
{"id": "C28", "title": "Target files round-trip", "statement": "For a non-empty list of targets with integers below 2^53, a positive frame number and a name with %: reading back what write_targets wrote returns the same number of targets, identical integers and coordinates within half a unit of the last written digit, in the same order, no other file is touched, and writing again yields the same file. Outside: an empty list raises and leaves an empty file; frame number 0 is written under the number 123456789, and frame number 0 and # names cannot be read; larger integers change. The file name is the base name with the frame number in place of the conversion %d, %5d or %05d (any width), padded with blanks before or zeros after the sign, followed by _targets; different frames have different files. Of any file, whoever wrote it, read_targets accepts exactly those whose first line is a whole number and in which at least that many lines follow, each of eight numbers (the second and third decimal, the others whole), and returns them in order; any other existing file raises ValueError.", "quantifier": "all target lists, numbers and names; all file contents", "why_tests_cant": "All lists and all numbers.", "anchors": ["openptv_python/tracking_frame_buf.py:read_targets", "openptv_python/tracking_frame_buf.py:write_targets"], "expectation": "The round trip holds for all target lists, numbers and names (violated)."}
{"id": "C29", "title": "Particle path files round-trip", "statement": "With a priority file name, reading back what write_path_frame wrote gives the same links, priorities and correspondences and positions to 3 digits, no other file is touched, and writing again yields identical files; reading only the correspondence file gives unlinked particles. Without a priority file name the writer raises after emptying the other two files. If one of the files cannot be opened the writer returns False, and the files opened before it are left with only their first line. Refuted expectations: with priority name None the frame is written but read back as a frame without particles; a correspondence file cut short after any of its rows is read without an error, with particles at the origin for the missing rows and correspondences that were never written.", "quantifier": "all frames", "why_tests_cant": "All frames and numbers.", "anchors": ["openptv_python/tracking_frame_buf.py:read_path_frame", "openptv_python/tracking_frame_buf.py:write_path_frame"], "expectation": "The priority file is optional (violated)."}
{"id": "C30", "title": "A missing target file is reported, a missing correspondence file looks like an empty frame", "statement": "A missing target file raises. Frame.read never returns False: when the correspondence file or the linkage file is missing it returns True with an empty frame.", "quantifier": "all file-system states", "why_tests_cant": "File-system states are unbounded.", "anchors": ["openptv_python/tracking_frame_buf.py:Frame.read", "openptv_python/tracking_frame_buf.py:read_path_frame"], "expectation": "Frame.read returns True only if the correspondence file was readable (violated)."}
{"id": "C31", "title": "match_coords keeps every target exactly once in x order", "statement": "match_coords returns one entry per target, sorted by x; with reset_numbers the pnr of each entry names the target it was computed from and the block meets the conditions of the candidate search; without it old numbers are kept. get_by_pnrs answers for each requested number, the first time it is requested, with the last entry of that number, and with 'unused' if there is none or it was requested before.", "quantifier": "all target lists, all calibrations", "why_tests_cant": "Arbitrary orderings.", "anchors": ["openptv_python/tracking_frame_buf.py:match_coords", "openptv_python/tracking_frame_buf.py:get_by_pnrs"], "expectation": "Every request is answered, also a repeated one (violated)."}
{"id": "C32", "title": "Segmentation assigns each pixel to at most one target with exact statistics", "statement": "targ_rec's targets are disjoint sets of pixels; n is the number of pixels, sumg the sum of grey value minus threshold (over the set), nx, ny the extents; pnr counts 0,1,2,... The regions are those of a raster scan: row by row from left to right, each pixel above threshold that is not darker than any surrounding pixel of no earlier region starts a region, no other pixel does.", "quantifier": "all images, thresholds and limits", "why_tests_cant": "All images.", "anchors": ["openptv_python/segmentation.py:targ_rec", "openptv_python/segmentation.py:fast_targ_rec"]}
{"id": "C33", "title": "Detected targets satisfy the configured limits and lie in their bounding box", "statement": "For images of the configured size and non-negative thresholds every returned target satisfies all size limits, its sum of full grey values is above sumg_min, and its centroid lies in the bounding box of its pixels. The returned sumg is the sum above threshold and can be below sumg_min.", "quantifier": "all images, all limits", "why_tests_cant": "All images.", "anchors": ["openptv_python/segmentation.py:targ_rec", "openptv_python/segmentation.py:fast_targ_rec"], "expectation": "The returned sumg satisfies sumg_min (violated)."}
{"id": "C34", "title": "Segmentation never reads outside the image and terminates", "statement": "For a configured size not larger than the image, a non-negative threshold and every scan range: targ_rec accesses only pixels of the image, terminates and returns a list, provided no more than 20480 pixels can be reached from a single one (in particular for every range of fewer than 20480 pixels); with a wait list as long as the image there is no condition. Outside: a size larger than the image raises IndexError, a negative threshold can loop for ever, and on a uniform bright image of 20483 x 20483 pixels the wait list overflows (IndexError).", "quantifier": "all images and sub-ranges", "why_tests_cant": "Memory safety of compiled (numba) code over all inputs.", "anchors": ["openptv_python/segmentation.py:fast_targ_rec"], "expectation": "It succeeds on every image (violated: wait list of 20480 entries, negative thresholds, configured size not checked)."}
{"id": "C35", "title": "peak_fit fails on every image with a peak", "statement": "peak_fit raises IndexError on every image that has a local maximum above the threshold in the scanned range, and returns no targets on every other image whose scanned range leaves a border. check_touch raises IndexError for the first foreign label of every new Peak; with a preallocated list it keeps the first three distinct labels. The function peak_fit_new, too, raises ValueError for every image, whatever the smoothing and labelling give (refuted expectation: it returns peaks).", "quantifier": "all images containing a local maximum above threshold", "why_tests_cant": "Claim about all images.", "anchors": ["openptv_python/segmentation.py:peak_fit", "openptv_python/segmentation.py:check_touch", "openptv_python/segmentation.py: peak_fit_new"], "expectation": "peak_fit returns the list of targets for every image (violated)."}
{"id": "C36", "title": "Rotation matrices are proper rotations", "statement": "The exterior rotation matrix computed from any three angles is orthonormal with determinant 1, the identity at zero; setting angles recomputes it consistently. In double precision, for sine and cosine with error at most d, the dot products of the rows are those of an orthonormal matrix up to 4(5d + 2^-50), and the determinant is 1 up to 12(5d + 2^-50).", "quantifier": "all angles", "why_tests_cant": "Real-valued domain.", "anchors": ["openptv_python/calibration.py:rotation_matrix", "openptv_python/calibration.py:Calibration.set_rotation_matrix"]}
{"id": "C37", "title": "Orientation files round-trip", "statement": "With a distortion file name, reading a calibration written by Calibration.write restores all parameters to the written digits with the rotation matrix recomputed, for every sin and cos, touches no other file, and a second write and read returns the same; a missing file is reported. Distortion coefficients below 0.5e-8 become 0, writing without a distortion file name raises, too few glass or distortion values raise IndexError after files were overwritten, read_ori returns the default calibration whatever the files say, and Calibration.copy copies nothing. The recomputed matrix equals Rx(omega) Ry(phi) Rz(kappa) of the angles up to five times the error of sine and cosine plus 2^-50 in every entry.", "quantifier": "all calibrations", "why_tests_cant": "All numbers.", "anchors": ["openptv_python/calibration.py:Calibration.write", "openptv_python/calibration.py:write_ori", "openptv_python/calibration.py:read_ori"], "expectation": "All ways of writing, reading and copying restore the calibration (violated for the last three)."}
{"id": "C38", "title": "Parameter files round-trip", "statement": "A TargetPar with four thresholds is restored exactly from its file, a ControlPar exactly by one dictionary round trip. With fewer thresholds the file is destroyed; PftVersionPar files cannot be read back; a second from_dict on the same dictionary raises TypeError; after a YAML round trip the media are a plain dictionary and the comparison with the original is false. Media with different numbers of refractive indices and thicknesses are rejected with ValueError.", "quantifier": "all parameter values", "why_tests_cant": "All values.", "anchors": ["openptv_python/parameters.py:TargetPar", "openptv_python/parameters.py:write_target_par", "openptv_python/parameters.py:PftVersionPar", "openptv_python/parameters.py:ControlPar"], "expectation": "All parameter classes round-trip (violated)."}
{"id": "C39", "title": "Parameter comparison functions are equality", "statement": "The comparison of sequence, tracking, volume, control, target and distortion parameters and of single-layer media is true exactly when all fields agree. compare_mm_np ignores further layers; compare_calibration compares everything but the distortion, the rotation matrix with a tolerance. Matrix entries of size at most 2 count as equal exactly when they differ by at most 1e-6 + 1e-5 |y| (up to 1e-14).", "quantifier": "all pairs of parameters", "why_tests_cant": "All pairs.", "anchors": ["openptv_python/parameters.py:compare_control_par", "openptv_python/parameters.py:compare_mm_np", "openptv_python/parameters.py:compare_calib"], "expectation": "All comparisons are equality of all fields (violated for layers and calibration)."}
{"id": "C40", "title": "Pixel and metric coordinates are inverse", "statement": "pixel_to_metric and metric_to_pixel invert each other for non-zero pixel size.", "quantifier": "all coordinates and image sizes", "why_tests_cant": "Real-valued domain.", "anchors": ["openptv_python/trafo.py:pixel_to_metric", "openptv_python/trafo.py:metric_to_pixel"]}
{"id": "C41", "title": "Lens distortion correction inverts distortion", "statement": "With no distortion parameters distorting and correcting are the identity; with scale and shear only they are inverse at every tolerance; with radial distortion of moderate size correcting a distorted point returns it within tol/8 of its radius. With decentering, or shear and radial distortion, there are cameras and points which the correction misses at every tolerance.", "quantifier": "all points and distortion parameters", "why_tests_cant": "Real-valued domain, iterative loop.", "anchors": ["openptv_python/trafo.py:correct_brown_affine", "openptv_python/trafo.py:distort_brown_affine"], "expectation": "Correcting a distorted point returns the original for all parameters (violated)."}
{"id": "C42", "title": "Vector helpers obey the laws of Euclidean space", "statement": "unit_vector has norm one (or returns 0 for 0), cross products are orthogonal to both factors, norms are non-negative and satisfy the triangle inequality; vec_cmp accepts vectors that differ by at most the tolerance (but, with the relative tolerance of numpy, also others, and not symmetrically).", "quantifier": "all vectors and tolerances", "why_tests_cant": "Real-valued domain.", "anchors": ["openptv_python/vec_utils.py"]}
{"id": "C43", "title": "Ray tracing obeys Snell's law", "statement": "For every orientation and every ray that crosses the glass and is not totally reflected, ray_tracing returns a unit direction in the plane of incidence that satisfies Snell's law at both glass faces, and the refraction points lie on the two faces; with equal indices a ray running against the glass vector goes straight on. A ray along the glass vector is reflected.", "quantifier": "all rays, glass planes and refractive indices without total reflection", "why_tests_cant": "Real-valued domain.", "anchors": ["openptv_python/ray_tracing.py:fast_ray_tracing"], "expectation": "Equal indices leave every ray unchanged (violated for rays along the glass vector)."}
{"id": "C44", "title": "Camera-glass coordinate transformation round-trips", "statement": "back_trans_point undoes trans_cam_point for all points and glass vectors.", "quantifier": "all points, cameras and glass vectors", "why_tests_cant": "Real-valued domain.", "anchors": ["openptv_python/multimed.py:fast_trans_cam_point", "openptv_python/multimed.py:back_trans_point"]}
{"id": "C45", "title": "Multimedia look-up stays in the table and interpolates", "statement": "Inside the table the look-up of the radial shift is the bilinear interpolation of the four neighbouring entries, so between the smallest and largest entry. At the border it raises IndexError, below the table it extrapolates, above it mixes entries of the next radius.", "quantifier": "all tables and points", "why_tests_cant": "All table sizes and boundary points.", "anchors": ["openptv_python/multimed.py:fast_get_mmf_from_mmlut"], "expectation": "Look-up uses only neighbouring entries everywhere (violated at and beyond the border)."}
{"id": "C46", "title": "Projection is collinear in a single medium", "statement": "With equal refractive indices flat_image_coord is the pinhole projection: camera centre, projected point and object point are collinear, so that a pixel's ray traced back passes through the point.", "quantifier": "all points in front of/behind the camera, all calibrations", "why_tests_cant": "Real-valued domain.", "anchors": ["openptv_python/imgcoord.py:flat_image_coord", "openptv_python/ray_tracing.py:fast_ray_tracing"]}
{"id": "C47", "title": "Skew midpoint is the centre of the common perpendicular", "statement": "skew_midpoint returns the distance between the lines and the midpoint of their common perpendicular, symmetric in the two lines.", "quantifier": "all pairs of non-parallel lines", "why_tests_cant": "Real-valued domain.", "anchors": ["openptv_python/orientation.py:skew_midpoint"]}
{"id": "C48", "title": "Point position is exact for meeting rays and symmetric", "statement": "For two or more cameras that see the point, point_position is the average over all pairs of rays of midpoint and distance, hence exactly the meeting point with error 0 if the rays meet; the order of the cameras does not matter. With fewer than two cameras it raises ZeroDivisionError.", "quantifier": "all cameras and rays", "why_tests_cant": "Real-valued domain.", "anchors": ["openptv_python/orientation.py:point_position"], "expectation": "It returns a value for any number of cameras (violated for fewer than two)."}
{"id": "C49", "title": "Epipolar segment contains the image of the ray", "statement": "In one medium the end points returned by epi_mm are images of points of the ray on the volume's limiting planes, and every point of the ray in the volume projects on the segment's line.", "quantifier": "all calibrations and volumes", "why_tests_cant": "Real-valued domain.", "anchors": ["openptv_python/epi.py:epi_mm", "openptv_python/epi.py:epi_mm_2D"]}
{"id": "C50", "title": "Calibration targets are assigned to the nearest detection", "statement": "sortgrid gives each calibration point that projects onto the sensor the nearest detection within the box around it (unique), or 'unused' if there is none; a detection carries the row number of the last point it was given to, so if no detection is shared every entry carries its row number and all other detections are unchanged. A detection nearest to two points is given to both.", "quantifier": "all detections, calibration points and radii", "why_tests_cant": "Sharing happens only for particular geometry.", "anchors": ["openptv_python/sortgrid.py:sortgrid", "openptv_python/sortgrid.py:nearest_neighbour_pix"], "expectation": "No detection is given to two points (violated)."}
{"id": "C51", "title": "High-pass preparation never darkens", "statement": "For all images and low-pass filters on bytes prepare_image returns an image of the same size in which no pixel is darker than in the original or in the low-pass; a pixel is the clipped difference only where the low-pass is 0.", "quantifier": "all images", "why_tests_cant": "All images.", "anchors": ["openptv_python/image_processing.py:prepare_image"], "expectation": "prepare_image returns the image minus its low-pass clipped at zero (violated: a bitwise or is used)."}
{"id": "C52", "title": "Calibration changes only what the flags release", "statement": "Whatever the measured data and whatever the least squares solver returns, orient keeps interior and distortion parameters whose flags are not set, the look-up table and, without interface flag, the glass; on success the rotation matrix belongs to the angles and the last correction is below the convergence limit. If it does not converge it returns None and the exterior parameters are the original ones plus the sum of all 80 corrections. On success with the interface flag each component of the glass vector differs from the original by at most 0.0002 of its length. In every pass the linear system given to the solver is the one of the current camera (the original with all corrections applied so far): two rows per participating point with forward difference quotients of its image coordinates and distortion derivatives, right-hand side measured minus projected, and ten rows that hold the interior parameters, with weight 1e10 where a parameter is to be kept.", "quantifier": "all flags, points, calibrations, step sizes and solver results", "why_tests_cant": "All flag combinations and iteration histories.", "anchors": ["openptv_python/orientation.py:orient"], "expectation": "On failure the calibration is unchanged, and the interface flag estimates the glass (violated)."}
{"id": "C53", "title": "Numerical differentiation restores the calibration", "statement": "Over the reals num_deriv_exterior returns, for each of the six exterior parameters, the forward difference of the image coordinates with only that parameter changed (which tends to the partial derivative as the step goes to zero), and leaves a consistent calibration as it was. In binary64 the steps need not cancel; an exception leaves the camera displaced.", "quantifier": "all calibrations, steps and points", "why_tests_cant": "Floating-point rounding.", "anchors": ["openptv_python/orientation.py:num_deriv_exterior"], "expectation": "The calibration is restored exactly, also when it raises (violated)."}
{"id": "C54", "title": "Multi-camera positions: only the last one is returned", "statement": "multi_cam_point_positions returns the ray distances of all target rows but only the position of the last row.", "quantifier": "all target tables", "why_tests_cant": "All sizes.", "anchors": ["openptv_python/orientation.py:multi_cam_point_positions"], "expectation": "It returns one 3D position per target row (violated)."}
{"id": "C55", "title": "Dumbbell precision is non-negative and zero only for exact data", "statement": "weighted_dumbbell_precision is non-negative for a positive length and non-negative weight; it is zero exactly if the rays of every point meet and, unless the weight is zero, every pair of points has exactly the dumbbell length.", "quantifier": "all target tables and calibrations", "why_tests_cant": "Real-valued domain.", "anchors": ["openptv_python/orientation.py:weighted_dumbbell_precision"]}
{"id": "C56", "title": "Volume dimensions contain the view of every camera", "statement": "The box of volumedimension contains the given limits and, for cameras without distortion or with principal point 0, the image corner rays of every camera at the highest z, and at the lowest z those whose refraction point has z = 0. There are cameras whose view at the lowest z, or with distortion and principal point at the highest z, is outside the box.", "quantifier": "all cameras, image sizes and volumes", "why_tests_cant": "All camera arrangements; real-valued domain.", "anchors": ["openptv_python/multimed.py:volumedimension"], "expectation": "The box contains the view of every camera at both limits (violated)."}
{"id": "C57", "title": "Whole frames round-trip through files", "statement": "A frame in which every camera has a target, written with Frame.write and read with Frame.read, has the same particles, correspondences, links, priorities and targets, up to the written digits. Whatever the outcome, no file but the three path files and the target files of this frame is touched. With an empty camera writing raises ValueError: the target files before it are written, its own file is emptied, those after it are not touched.", "quantifier": "all frames with at least one target per camera, all base names giving distinct files", "why_tests_cant": "All frame sizes, numbers and camera counts.", "anchors": ["openptv_python/tracking_frame_buf.py:Frame.write", "openptv_python/tracking_frame_buf.py:Frame.read"], "expectation": "Empty cameras can be written (violated)."}
{"id": "C58", "title": "Exported positions keep particle order", "statement": "Frame.positions returns exactly the coordinates of the frame's particles in their order. Frame.target_positions_for_camera returns one row per particle, in particle order, with the image coordinates of its target in that camera, and NaN exactly for the particles that camera does not see.", "quantifier": "all frames and cameras", "why_tests_cant": "All frame sizes and match patterns.", "anchors": ["openptv_python/tracking_frame_buf.py:Frame.target_positions_for_camera", "openptv_python/tracking_frame_buf.py:Frame.positions"]}
{"id": "C59", "title": "Legacy parameter files are read in the documented line order", "statement": "Every from_file reader (SequencePar, TrackPar, VolumePar, ControlPar, TargetPar, OrientPar, CalibrationPar, MultiPlanesPar, ExaminePar, PftVersionPar) succeeds exactly when the documented lines hold numbers, and assigns each line to the documented field.", "quantifier": "all file contents and camera counts", "why_tests_cant": "All files.", "anchors": ["openptv_python/parameters.py:SequencePar.from_file", "openptv_python/parameters.py:TrackPar.from_file", "openptv_python/parameters.py:VolumePar.from_file", "openptv_python/parameters.py:ControlPar.from_file", "openptv_python/parameters.py:TargetPar.from_file", "openptv_python/parameters.py:OrientPar.from_file", "openptv_python/parameters.py:CalibrationPar.from_file"]}
{"id": "C60", "title": "A missing parameter file is reported as an I/O error", "statement": "Reading a sequence, volume, control, calibration, multi-plane, examine or pft-version parameter file that does not exist raises an I/O error (OSError or its subclass FileNotFoundError). For TargetPar and OrientPar defaults are returned, for TrackPar TypeError is raised.", "quantifier": "all readers and file-system states", "why_tests_cant": "File-system states are unbounded.", "anchors": ["openptv_python/parameters.py"], "expectation": "Every reader reports a missing file as an I/O error (violated for three)."}
{"id": "C61", "title": "Residuals of full_calibration belong to their targets", "statement": "Row k of full_calibration is the residual of the k-th reference point that took part (its two rows of the last linear system times the applied correction minus the right-hand side), labelled with the number of the k-th target; so rows belong to their targets if all points take part. Rows after the last participating point are 0; more than n+5 targets raise IndexError.", "quantifier": "all calibrations, target lists (matched or not), flags and solver results", "why_tests_cant": "Target lists with unmatched points are unbounded; wrong rows look plausible.", "anchors": ["openptv_python/orientation.py:full_calibration", "openptv_python/orientation.py:orient"], "expectation": "Each row belongs to its target also when points do not take part (violated)."}
{"id": "C62", "title": "External calibration changes only the exterior orientation", "statement": "For every outcome external_calibration keeps interior parameters, glass and look-up table, sets the distortion to none, and changes position and angles by the sum of the corrections; True means that the last correction was at most 0.1 in every parameter, and then the rotation matrix belongs to the angles; False means 20 corrections, all of which stay. In every pass the solver gets the forward difference quotients of the image coordinates of every reference point with respect to the six exterior parameters and measured minus projected coordinates, for the undistorted camera with all corrections so far.", "quantifier": "all calibrations, points and solver results, including exceptions", "why_tests_cant": "All iteration histories.", "anchors": ["openptv_python/orientation.py:external_calibration", "openptv_python/orientation.py:raw_orient"], "expectation": "The distortion is kept and on False the camera is unchanged (violated)."}
{"id": "C63", "title": "Single-camera positions", "statement": "point_positions with one camera returns one position per row, on that camera's ray at the middle height of the measuring volume, with zero convergence measure, provided every row has an entry for the camera; otherwise it raises IndexError. With no camera it raises ValueError.", "quantifier": "all targets, calibrations, media and volumes", "why_tests_cant": "All rays.", "anchors": ["openptv_python/orientation.py:point_positions", "openptv_python/orientation.py:single_cam_point_positions"]}
{"id": "C64", "title": "Calibration block and manual orientation files", "statement": "If read_calblock returns, the first line is the number of points and every further line k is point k; missing lines give (0,0,0); a blank or surplus line raises IndexError. read_man_ori_fix returns the four points with the numbers listed for the camera, in that order, if and only if these are different and in the block, otherwise None.", "quantifier": "all file contents and cameras", "why_tests_cant": "All files.", "anchors": ["openptv_python/orientation.py:read_calblock", "openptv_python/orientation.py:read_man_ori_fix"], "expectation": "Missing lines are reported, a blank last line is accepted (violated)."}
{"id": "C65", "title": "Links respect the configured motion limits", "statement": "Every link made by a forward tracking step is supported by a motion within the configured velocity, acceleration and angle limits: by a particle or a pair of targets found in the frame after next, by the step itself, or by a particle newly measured at the expected place. The displacement of the linked particle itself is tested only in the last of these cases and may otherwise exceed the velocity limits.", "quantifier": "all frames, camera geometries, search volumes, parameters and sort implementations", "why_tests_cant": "Every combination of candidates and geometry.", "anchors": ["openptv_python/track.py:trackcorr_c_loop", "openptv_python/track.py:pos3d_in_bounds"], "expectation": "The displacement of every link lies within the velocity limits (violated)."}
{"id": "C66", "title": "Added particles were really seen", "statement": "Every particle a forward tracking step adds lies strictly inside the measuring volume and is the intersection of the rays of targets that were unused and that at least two cameras see within three pixels of the expected place; existing positions never change.", "quantifier": "all frames, geometries and parameters", "why_tests_cant": "Every combination of unused targets.", "anchors": ["openptv_python/track.py:assess_new_position", "openptv_python/track.py:trackcorr_c_loop"]}
{"id": "C67", "title": "Backward tracking respects the limits", "statement": "A backward step only links particles that have a successor and no predecessor, by motions within the velocity, angle and acceleration limits. It never adds a particle: for that its volume test (0 < y < 0) would have to succeed.", "quantifier": "all frames, geometries and parameters", "why_tests_cant": "Every combination of candidates and geometry.", "anchors": ["openptv_python/track.py:trackback_c"], "expectation": "With adding enabled it fills gaps (violated)."}
{"id": "C68", "title": "Projecting into a refracting volume and tracing back meet again", "statement": "For a camera outside a single plane glass plate (air index <= glass index, air index <= water index) and a point behind the plate and in front of the camera, the ray traced back from flat_image_coord of the point arrives at the depth of the point, travelling forwards from the inner glass face, at a distance of at most max(0.001, q^41 * r) from it, where r is the point's distance from the camera's glass normal and q = 1 - (camera to glass)/(camera to point depth).", "quantifier": "every orientation, glass vector, refractive indices 0 < n1 <= n2, n1 <= n3, thickness d >= 0, and every object point on the far side", "why_tests_cant": "the projection is the result of an unbounded-looking fixed point iteration; tests sample a few points of one set-up, the agreement is for every geometry", "anchors": ["openptv_python/imgcoord.py:flat_image_coord", "openptv_python/multimed.py:multimed_nlay", "openptv_python/multimed.py:multimed_r_nlay", "openptv_python/multimed.py:trans_Cam_Point", "openptv_python/multimed.py:back_trans_Point", "openptv_python/ray_tracing.py:ray_tracing"]}
{"id": "C69", "title": "From detected targets to reported matches (four cameras)", "statement": "Running match_coords (with renumbering) on every camera and then py_correspondences with four cameras of 1 to 10000 targets each succeeds. Every reported quadruplet has all six pairs of its targets compatible (the epipolar segment, band, size and brightness tests of find_candidate hold) with a score above corrmin, or is the blank entry of the leftmost targets with score 0; every triplet and pair likewise, where the third pair of a triplet may instead be the leftmost target of the last camera; with the all-cameras flag only quadruplets are reported. No target is part of two reported matches, each target carries its own number, and its tnr is the number of its match, unchanged if unmatched. When no camera exceeds the documented search limits (target counts searchable in the 12 bisection steps, at most 40 compatible partners per target, at most 40000 scoring quadruplets), every compatible quadruplet above corrmin is reported, or one with at least its score shares a target with it.", "quantifier": "every projection to flat coordinates, every epipolar segment function, every order of ties in the two numpy sorts, all target lists of four cameras (1..10000 targets), all volume parameters and score thresholds", "why_tests_cant": "tests run a handful of recorded images; the guarantee concerns the composition of five functions on every set of detections and every tie order", "anchors": ["openptv_python/correspondences.py:py_correspondences", "openptv_python/correspondences.py:correspondences", "openptv_python/correspondences.py:match_pairs", "openptv_python/find_candidate.py:find_candidate", "openptv_python/tracking_frame_buf.py:match_coords"]}
{"id": "C70", "title": "A point is reconstructed from the pixels at which it is seen", "statement": "If a point in front of two or more cameras (lens without non-linear distortion) is projected to pixels with img_coord and metric_to_pixel, and the pixels are turned back with pixel_to_metric and dist_to_flat, then point_position on these coordinates returns exactly the point with convergence measure 0 in a single medium, provided no two cameras see it in the same direction; cameras that do not see the point are ignored. Through a plane glass plate it returns a position within e*(1+2/s) of the point and a convergence measure of at most 2e, where e bounds the error of each camera's projection (C68) and s is the smallest sine of the angles between the rays. In general, if every ray passes within eps of a point, the returned position is within eps*(1+2/s) of it. If the image points handed to point_position are off the true ones by at most delta (single medium), the position is within e*(1+2/s) of the point, where e is delta times the depth over the focal distance; in particular this holds with the residual of dist_to_flat for a lens with slowly growing radial distortion, where the image points come from the pixels at which the point is seen.", "quantifier": "every number of cameras, every orientation, glass vector, pixel size, image size, affine or slowly growing radial lens, object point, every displacement of the image points; every set of rays for the general sentence", "why_tests_cant": "tests reconstruct a few points of one calibrated set-up within a tolerance; the identity and the error bound hold for every geometry", "anchors": ["openptv_python/orientation.py:point_position", "openptv_python/orientation.py:skew_midpoint", "openptv_python/imgcoord.py:img_coord", "openptv_python/trafo.py:metric_to_pixel", "openptv_python/trafo.py:pixel_to_metric", "openptv_python/trafo.py:dist_to_flat", "openptv_python/ray_tracing.py:ray_tracing", "openptv_python/multimed.py:multimed_nlay", "openptv_python/trafo.py:correct_brown_affine"]}
{"id": "C71", "title": "Epipolar curves", "statement": "epipolar_curve(image_point, origin_cam, project_cam, n) returns, in order, the n pixels at which project_cam sees the points of the ray of image_point at equally spaced heights from the lower to the upper height limit of the first layer of the volume. So if a point at one of these heights is seen by origin_cam at image_point, the pixel at which project_cam sees it is that point of the curve (single medium); through a plane glass plate it is the pixel of a point at the same height within the accuracy of the projection (C68). The first and last pixels are those of the two limits; one requested point gives the lower end. For a camera without look-up table the curve always exists; a negative number of points raises ValueError. Only the limits of the first layer are used, so in a volume with slanted limits the match of a point of the volume may lie beyond the end of the curve.", "quantifier": "all cameras, glass planes, image points, volumes and numbers of points", "why_tests_cant": "tests compare the two ends of one curve with stored numbers", "anchors": ["openptv_python/epi.py:epipolar_curve", "openptv_python/epi.py:epi_mm", "openptv_python/multimed.py:move_along_ray", "openptv_python/imgcoord.py:img_coord"], "expectation": "The curve covers the whole volume (violated for slanted limits)."}
{"id": "C72", "title": "The multimedia look-up table", "statement": "init_mmlut(vpar, cpar, cal) changes nothing of the calibration but the table. For a calibration without table it succeeds; entry (i, j) is the shift factor (multimed_r_nlay without table) of the point at distance 2i from the axis of the camera and height 2j above the origin of the table, for every i < nr and j < nz, and there are nr*nz entries. The table reaches far enough: every point of the rays of the four image corners between the height limits of the volume (lower limit not negative, lens without decentred principal point or without distortion) is inside the radius covered, not below the first row and less than one step above the last row, and below the last row if the glass is parallel to the z planes. Inside the table the look-up is the bilinear interpolation of the true factors of the four surrounding nodes, and exact at a node.", "quantifier": "all cameras, glass planes, media, volumes, image sizes and points", "why_tests_cant": "tests compare nr, nz, rw and two entries for one camera", "anchors": ["openptv_python/multimed.py:init_mmlut", "openptv_python/multimed.py:get_mmf_from_mmlut", "openptv_python/multimed.py:multimed_r_nlay", "openptv_python/multimed.py:trans_cam_point"], "expectation": "Calling it again for another volume recomputes the table; negative limits are covered; projection uses the table (all violated)."}
{"id": "C73", "title": "Set-up of a tracking run", "statement": "TrackingRun(...).lmax is the largest distance between two displacements within the displacement limits. The box in which it searches has the z range of both layers, an x range that contains the given one and a y range that contains 0, and it contains the points at the upper limit that the cameras see in the corners of their images. Setting up a second run with the (changed) volume parameters gives the same box. The volume parameters of the caller are changed: a volume with level limits keeps its limits at every x; one with slanted limits does not, and points of the volume may be outside afterwards.", "quantifier": "all displacement limits, volumes, camera sets", "why_tests_cant": "tests check one run's lmax and box", "anchors": ["openptv_python/tracking_run.py:TrackingRun", "openptv_python/multimed.py:volumedimension", "openptv_python/epi.py:epi_mm"], "expectation": "The caller's volume keeps its points (violated for slanted limits)."}
{"id": "C74", "title": "Detection on a subrange is local", "statement": "target_recognition raises ValueError whenever the requested region ends outside the image; otherwise it returns the regions of the requested range (one pixel away from the image border) in raster order. A set of bright pixels that no other bright pixel of the range touches yields the same regions in the same order and the same targets (but for their number) whatever the rest of the image and whatever subrange contains it; a subrange holding all bright pixels gives exactly the targets of the whole image. A configured size larger than the image is not detected (IndexError), and a target cut by the subrange is reported with its visible part.", "quantifier": "all images, thresholds, limits, subranges, isolated pixel sets", "why_tests_cant": "Ranges over all images, all pixel sets and all pairs of subranges.", "anchors": ["openptv_python/segmentation.py:target_recognition", "openptv_python/segmentation.py:targ_rec", "openptv_python/segmentation.py:fast_targ_rec"], "expectation": "Every request that passes the size check succeeds (violated if the configured size exceeds the image)."}
{"id": "C75", "title": "Calibration setters, getters and shared arrays", "statement": "After every history of calls on calibration objects: a setter given an array of the right shape sets exactly its own part of its object; any other argument is refused with ValueError and changes nothing; a getter shows the current values and changes nothing; the rotation matrix is always the one of the current angles. No call on one object, and no write into an array it returned, changes another object. get_pos, get_angles, get_rotation_matrix and get_primary_point return copies that later calls never change. get_radial_distortion, get_decentering, get_affine and get_glass_vec return the object's own array: writing into it changes the calibration until that array is replaced. set_rotation_matrix raises for every argument.", "quantifier": "all histories of setter and getter calls and writes into returned arrays, any number of objects, all values", "why_tests_cant": "Aliasing shows only in particular interleavings; ranges over all call histories.", "anchors": ["openptv_python/calibration.py:Calibration.set_pos", "openptv_python/calibration.py:Calibration.set_angles", "openptv_python/calibration.py:Calibration.set_rotation_matrix", "openptv_python/calibration.py:Calibration.set_radial_distortion", "openptv_python/calibration.py:Calibration.get_radial_distortion", "openptv_python/calibration.py:Calibration.set_glass_vec", "openptv_python/calibration.py:Calibration.get_glass_vec", "openptv_python/calibration.py:Calibration.set_added_par"], "expectation": "Arrays returned by getters are independent of the object; set_rotation_matrix sets the matrix (both violated)."}
{"id": "C76", "title": "Layers of a medium", "statement": "MultimediaPar refuses lists of refractive indices and thicknesses of different lengths (ValueError, in the constructor and in set_layers, nothing changed), so after any history of calls the lists have equal lengths. A medium of one index throughout, built with the right number of layers, does not bend rays. set_layers does not change the number of layers: a homogeneous medium of two layers set this way displaces every point towards the axis, and the default medium stays air to the projection whatever layers are added. The indices of inner layers never enter the projection, and inner layers never enter the ray tracing.", "quantifier": "all media, histories of set_layers, set_n1 and set_n3, cameras and points", "why_tests_cant": "Ranges over all media, cameras and points; independence of a parameter is a statement about all its values.", "anchors": ["openptv_python/parameters.py:MultimediaPar.set_layers", "openptv_python/parameters.py:MultimediaPar.__post_init__", "openptv_python/multimed.py:multimed_r_nlay", "openptv_python/multimed.py:fast_multimed_r_nlay", "openptv_python/ray_tracing.py:ray_tracing"], "expectation": "Every layer refracts by its own index, and set_layers sets the number of layers (violated)."}
{"id": "C77", "title": "A particle that every camera shows is followed", "statement": "In a forward tracking step (without adding particles), consider a particle of the current frame and a particle of the next frame such that every camera shows the latter among the four nearest tracked targets of the search window, alone at its distance, around the place where the former is expected, and the move fits: displacement and smoothness with the past, or smoothly onwards to a particle of the frame after next that every camera shows too. Then the particle is linked, or the particle it chose (to which the link is justified) was given to another particle. If no other link from the one or to the other is justified, exactly these two are linked. If only some of the cameras (two of three) show it, the particle can be lost though nothing else fits.", "quantifier": "all geometries, parameters, camera counts 2 to 4, frames and steps that end without an error", "why_tests_cant": "Completeness: tests show that some particles are followed; that no such particle is ever missed ranges over all frames and geometries.", "anchors": ["openptv_python/track.py:trackcorr_c_loop", "openptv_python/track.py:sorted_candidates_in_volume", "openptv_python/track.py:sort_candidates_by_freq", "openptv_python/track.py:candsearch_in_pix"], "expectation": "A particle shown by two cameras suffices to be a candidate (violated: C77_two_cameras_refuted)."}
{"id": "C78", "title": "A clear trajectory is reported unbroken over a whole run", "statement": "After a forward tracking run over frames first..last with adding particles switched off, every trajectory that is clear in the input frames (in each step the next particle is shown by all cameras where they look for it and fits the motion limits, no other continuation is justified for it and it is not a justified continuation of any other particle) is linked in both directions through all written frames; positions, numbering and targets are those of the input. The last step takes the frame three before the last for the frame after the last, so its links may rest on the evidence of a wrong frame.", "quantifier": "all sequence lengths, all numbers of particles, two to four cameras, all geometry and file format functions, all motion limits and all trajectories", "why_tests_cant": "the claim combines the schedule of frames, candidate search, ranking, decisions and conflict resolution over an arbitrary number of steps and arbitrary neighbouring particles; a test follows a few particles through a few frames", "anchors": ["openptv_python/track.py:track_forward_start", "openptv_python/track.py:trackcorr_c_loop", "openptv_python/track.py:trackcorr_c_finish", "openptv_python/tracking_frame_buf.py:FrameBuf"]}
{"id": "C79", "title": "Forward tracking depends only on the frames it reads, and can be repeated", "statement": "A forward tracking run over frames first..last reads particles and targets, never the links found earlier: two result directories that give the same frames when read without links give the same exception or the same number of links and the same written files for first..last. Hence, without adding particles, running the tracking again over its own output changes nothing and reports the same number of links. What the frame buffer held before the run has no influence either, provided the run has one step or at least three. In a run of exactly two steps it has: the last step takes the third frame of the initial buffer for the frame after the last one, and the same files can give different links.", "quantifier": "all frame sequences, lengths, geometries, file formats, one to four cameras, all pairs of directories and initial buffers", "why_tests_cant": "tests compare a run with one expected result; that old links, repetition and left-over buffer content never matter is a statement about pairs of runs", "anchors": ["openptv_python/track.py: track_forward_start, trackcorr_c_loop, trackcorr_c_finish", "openptv_python/tracking_frame_buf.py: FrameBuf.read_frame_at_end, FrameBuf.write_frame_from_start, FrameBuf.fb_next, FrameBuf.fb_prev"]}
{"id": "C80", "title": "A calibration that already fits exactly is kept", "statement": "If the pixel positions of the calibration targets are exactly the images of the reference points in a camera without lens distortion, then coarse and full calibration, when they return, both report success and return that camera unchanged, with all residuals zero (for any least-squares solver that proposes no correction for a zero right-hand side). With lens distortion this fails: the measured coordinates are freed of the distortion but the projected ones are not, so the correct camera gets a non-zero correction from any least-squares solver; with scale factor 2 and one reference point a correct camera at x0 = 0 is moved to x0 = 1/2 and success is reported.", "quantifier": "all cameras, media, reference points, pixel sizes, flags and solvers", "why_tests_cant": "tests start from perturbed cameras and compare with tolerances; that the true camera is a fixed point must hold for every camera and point set", "anchors": ["openptv_python/orientation.py: orient, raw_orient, full_calibration, external_calibration", "openptv_python/imgcoord.py: img_coord", "openptv_python/trafo.py: correct_brown_affine"]}
{"id": "C81", "title": "A broken track is closed by backward tracking", "statement": "In a backward tracking step, let a particle of the current frame begin a track (it has a successor and no predecessor) and a particle of the frame before end one. If every camera shows the latter near the place where the former is expected to have been, the move respects the limits (and fits the earlier part of the track, if there is one), no other particle of the frame before fits, and no particle handled earlier fits the same particle, then the two are linked in both directions. When several open tracks want the same particle it goes to the one with the lowest number, not, as in forward tracking, to the one with the best decision value.", "quantifier": "all frames, camera geometries, parameters (2 to 4 cameras), and all sorting functions that permute", "why_tests_cant": "the tests run one scene with known trajectories; that no closable gap is left open must hold for every configuration of particles and targets", "anchors": ["openptv_python/track.py: trackback_c, sorted_candidates_in_volume, register_link_candidate"]}
{"id": "C82", "title": "The decision value of a link candidate is the documented cost", "statement": "After a forward tracking step without adding particles, and after every backward step, each recorded link candidate of a particle carries the decision value (mean step length / lmax + acceleration / dacc + angle / dangle) / (number of cameras that show the particle, plus those that show its continuation), with the motion quantities of a continuation that respects the limits; a new backward link is the first candidate and carries its value as final decision.", "quantifier": "all frames, camera geometries, parameters (1 to 4 cameras), and all sorting functions that permute", "why_tests_cant": "the tests look at the numbers of links; which candidate is preferred depends on the value computed for each of them in every scene", "anchors": ["openptv_python/track.py: trackcorr_c_loop, trackback_c, register_link_candidate, sort, sorted_candidates_in_volume"]}
{"id": "C83", "title": "Comparing, resetting, sorting and copying tracking records", "statement": "Two targets (path entries, correspondence arrays) compare equal exactly if all their fields agree, the comparison of targets with a position is an equivalence (a target at nan does not equal itself, and candidates no longer counted still matter); resetting links changes only previous, next and priority; each setter of a target is read back and leaves the other fields alone; sorting by y is a stable ascending permutation; resetting or copying found-pixel arrays touches exactly the asked entries and cameras.", "quantifier": "all targets, path entries, arrays and lengths", "why_tests_cant": "an omitted field in a comparison or a copy shows only for inputs that differ exactly there; stability and nan need all lists", "anchors": ["openptv_python/tracking_frame_buf.py: Target, compare_targets, Pathinfo, compare_path_info, compare_corres, sort_target_y, matched_coords_as_arrays", "openptv_python/track.py: reset_foundpix_array, copy_foundpix_array"]}
{"id": "C84", "title": "Array forms agree with the scalar functions; the parallel product is deterministic", "statement": "image_coordinates and flat_image_coordinates return for every row the projection of that row (a row that is not a 3-vector raises ValueError, otherwise the first failing row decides); arr_pixel_to_metric and arr_metric_to_pixel convert every row as the scalar functions do and are inverse; the parallel matrix product writes the row-times-column sums into the asked entries and nothing else, whatever the order in which the parallel loop does the rows.", "quantifier": "all arrays, cameras, media and image sizes; all schedules of the parallel loop", "why_tests_cant": "a schedule-dependent result or an untouched row shows only under some schedules and shapes", "anchors": ["openptv_python/imgcoord.py: image_coordinates, flat_image_coordinates", "openptv_python/trafo.py: arr_pixel_to_metric, arr_metric_to_pixel", "openptv_python/ray_tracing.py: matmul_numba_optimized"]}
{"id": "C85", "title": "A run is set up from exactly what the legacy files say; accessors touch only their own field", "statement": "tr_new hands to the constructor exactly the control, sequence, tracking and volume parameters that the lines of the four files give (as many image names as the control file has cameras, each tracking limit under its own name), and reports a missing file in the order control, sequence, tracking, volume; a sequence file with surplus names is refused with ValueError. Every setter of the parameter sets changes what its getter returns and nothing else, every getter shows the line of the file it is documented for. read_sortgrid_par returns the number of the first line or 25 without a file; sortgrid's read_calblock returns one row per line in order. One word that is no number makes the whole block silently empty and a blank line raises IndexError (refuted).", "quantifier": "all files and contents, all constructors, all parameter values", "why_tests_cant": "a swapped or dropped field shows only for files whose values differ there; error cases range over all texts", "anchors": ["openptv_python/tracking_run.py: tr_new", "openptv_python/parameters.py: convert_track_par_to_tuple, SequencePar, TrackPar, VolumePar, ControlPar, TargetPar accessors", "openptv_python/sortgrid.py: read_sortgrid_par, read_calblock"]}
{"id": "C86", "title": "The error estimates of the full calibration", "statement": "When orient (and full_calibration) writes its array of 20 estimates, entry 19 is the root of (sum of the squares left unexplained in the last linear system by the correction that is applied, divided by rows minus unknowns), entry i below the number of unknowns is this deviation times the root of the i-th diagonal entry of the inverse (pseudo-inverse if the rank is deficient) of the normal matrix; nothing else is written. The estimates influence neither the camera nor the returned residuals; if the inversion raises, the camera has been changed already. An inverse of the normal matrix has positive diagonal entries. Observations that fit exactly give estimates zero. Refuted expectations: entries between the number of unknowns and 18 are whatever memory held; with three points (four if the glass is estimated) there is no estimate at all although the call succeeds; parameters that are held fixed are reported with a positive error whenever the fit is not perfect, because the normal matrix is built without the weights.", "quantifier": "all cameras, media, points, pixels, flags, solvers, rank and inversion functions, previous contents of the array", "why_tests_cant": "the numbers depend on all points and flags and on an iteration without known length; uninitialised entries are visible only by chance", "anchors": ["openptv_python/orientation.py: orient, full_calibration, is_singular"]}
{"id": "C87", "title": "Accuracy of coordinates, vectors and kinematics in double precision", "statement": "Computed in IEEE double precision (not in real numbers): pixel_to_metric and metric_to_pixel are within 2^-51 (relative to the terms) of the exact values; a pixel converted to image coordinates and back differs by at most 2^-50 (|x| + image size) + 2^-900, so whole pixels are recovered by rounding; differences and sums are correctly rounded per component; dot and cross products are within 2^-51 of the sum of the sizes of their terms; vec_norm, vec_diff_norm and unit_vector are within 2^-50 / 2^-49 of the exact ones for lengths between 2^-500 and 2^200; 2 current - previous is rounded once and predicts uniform motion exactly when the next position is a double; the extrapolation 0.5 (5 x3 - 4 x1 + x0) is within 2^-51 of the sum of the sizes; a displacement passes the limits only if the exact displacement is strictly inside, and an inside one is refused only if it rounds to a limit; the argument of the arc cosine is within 2^-47 of the exact cosine, the acceleration within 2^-48 of the exact one relative to the two step lengths. Refuted expectations: the argument of the arc cosine can exceed 1 for exactly straight motion, so that the angle is nan and the candidate is refused unless its acceleration is below a tenth of the limit; very short vectors have computed length 0 and unit_vector returns them unchanged.", "quantifier": "all finite doubles within the stated exponent ranges, all image sizes up to 2^30, all limits, all arc cosine functions", "why_tests_cant": "rounding errors depend on every bit of the inputs; the worst cases are rare and cannot be enumerated", "anchors": ["openptv_python/trafo.py: pixel_to_metric, metric_to_pixel", "openptv_python/vec_utils.py: vec_subt, vec_add, vec_scalar_mul, vec_dot, vec_cross, vec_norm, vec_diff_norm, unit_vector", "openptv_python/track.py: search_volume_center_moving, pos3d_in_bounds, angle_acc, trackcorr_c_loop"]}
{"id": "C88", "title": "From detections to a calibration", "statement": "match_detection_to_ref succeeds whenever the reference points can be projected; handed to full_calibration, its result makes reference point i take part exactly if the use flag admits it and it owns a detection, i.e. that detection is nearest to its image inside the box and to no later reference point's; the observation is that detection's position, no detection serves two reference points, and the system solved has two rows per owning point in increasing order. If all own one, row k of the result holds the residuals of reference point k and is labelled k. An array of positions makes all admitted points take part, point i at row i, rows labelled 0, 1, 2, ...; fewer positions than reference points or more than five extra never succeed. external_calibration uses row i for point i, ignores numbers and surplus rows. Refuted expectations: with nothing matched full_calibration reports success with residual 0 for every target; raw_orient given the matched targets fits every unmatched reference point to pixel (0, 0).", "quantifier": "all reference points, detections, projections, cameras, flags, step widths and solvers", "why_tests_cant": "the assignment depends on all pairwise distances and on their order, and the solver is external", "anchors": ["openptv_python/orientation.py: match_detection_to_ref, full_calibration, external_calibration, orient, raw_orient", "openptv_python/sortgrid.py: sortgrid"]}
{"id": "C89", "title": "Motion limits of tracking hold for the exact positions", "statement": "Let the kinematics of a tracking step (differences, extrapolations, acceleration, angle) be computed in double precision and let B bound the coordinates of all positions. Then every link the step makes is plausible for the exact positions: the particle goes on to a particle of the frame after next by an exact step strictly inside the velocity limits, or reappears there at a sighting by at least two cameras inside the volume, or is linked directly by such a step, or was filled in from a sighting; and the exact acceleration, or its mean with the exact distance from the extrapolated position, exceeds dacc by at most B / 2^40. Refuted converse: a particle on a space diagonal that only changes its speed is not linked although its direction is exactly the expected one and its acceleration far below the limit, because the computed cosine exceeds 1 and its arc cosine is not a number; the same motion parallel to an axis is linked.", "quantifier": "all frames, targets, camera numbers up to four, search geometries, parameters, arc cosines and coordinates bounded by B between 2^-100 and 2^170", "why_tests_cant": "rounding errors depend on the values; a test sees neither the exact motion nor the inputs for which the rounding matters", "anchors": ["openptv_python/track.py: trackcorr_c_loop, angle_acc, pos3d_in_bounds, search_volume_center_moving", "openptv_python/vec_utils.py: vec_subt, vec_norm"]}
{"id": "C90", "title": "A crash while a frame is written", "statement": "Frame.write writes the correspondence, linkage and priority files interleaved. If the process dies at any operation, with any tail of the written text still in its buffers, then either no file has changed, or, whenever the frame can be read afterwards, every row that is complete (with its line break) in all three files is the row that was to be written, and once the count of the correspondence file is complete and the other two files exist the number of particles is right. The files of all other frames are as before. A target file of which only some beginning was written either cannot be read or yields the right number of targets, all but the last right. Target files are written one camera after the other once the path files are closed: a crash anywhere in Frame.write leaves either the path files in this state and all target files as before, or complete path files, the new target files of the first cameras, the old ones of the last cameras and one file in between that is old or a beginning of the new one; reading gives accordingly. Carried out completely, the operations have the effect of C29. Refuted expectations: writing is atomic (a crash right after the first file is opened leaves neither the old nor the new frame: reading raises ValueError; whatever targets were readable before, a crash between the path files and the target files leaves a frame that is read without complaint, with the new particles and the old targets); what can be read is right (a correspondence or target file cut inside its last number is read without an error, with a wrong target or particle number).", "quantifier": "all frames, file contents before, crash points and amounts of unflushed text", "why_tests_cant": "the crash may happen at every operation and the buffers may hold any part of each file", "anchors": ["openptv_python/tracking_frame_buf.py: write_path_frame, read_path_frame, write_targets, read_targets, Frame.write, Frame.read"]}
{"id": "C91", "title": "Numbers in input files are read as the decimals they denote", "statement": "A text without underscores is accepted by int() exactly if it is an optional sign and digits with white space around them, and gives that integer. A text is read by float() as the binary64 number nearest to the decimal number it denotes, ties to even, infinite if too large, with the sign kept for zeros, whatever the notation: leading and trailing white space, sign, digits before or after the point missing, exponent with e or E and any sign. Two notations of one number give the same float. Any other text, apart from the words nan and inf and texts with underscores, raises ValueError. So every integer and float line of the parameter files, and every field of the target, path and orientation files, is read as the number written there; a track.par file whose lines are decimals and one integer gives exactly these.", "quantifier": "all texts, all decimal numbers of any length and exponent, all files", "why_tests_cant": "the texts and the decimals are unbounded; correct rounding must hold for every decimal, including ties, subnormal and overflowing ones", "anchors": ["openptv_python/parameters.py: TrackPar.from_file, SequencePar.from_file, VolumePar.from_file, ControlPar.from_file, TargetPar.from_file", "openptv_python/tracking_frame_buf.py: read_targets, read_path_frame", "openptv_python/calibration.py: read_calibration"]}
{"id": "C92", "title": "Image preparation is local, never darkens, and is no high-pass", "statement": "prepare_image of a byte image returns an image of the same size: each pixel is the original byte or-ed with the box mean of its window (radius dim_lp, black outside the image, cut to integers twice, so less than two grey levels below the exact mean), again a byte and never darker; with filter_hp = 1 it is the 3x3 mean of that. A pixel depends on nothing but the pixels within dim_lp (plus one with filter_hp = 1): two images of any size that look alike around two places give the same value there. With dim_lp <= 0 the image is unchanged. Another dtype raises TypeError, an unreadable filter file IOError; preprocess_image with filter_hp = 2 applies no filter. Refuted expectations: a background of one grey is not removed but kept; a pixel one grey level above its surroundings can become 255; the border of an evenly grey image becomes brighter.", "quantifier": "all images, sizes, window radii, places", "why_tests_cant": "images, sizes and windows are unbounded, and locality relates every pair of images", "anchors": ["openptv_python/image_processing.py: prepare_image, preprocess_image"], "expectation": "a high-pass: the background is removed (violated)"}
{"id": "C93", "title": "Tracking runs over the files of a directory", "statement": "Over files (correspondences, linkage, priorities, targets of each camera; names as the code builds them, all different) a tracking run behaves as over numbered frame contents: reading a frame looks only at that frame's files, writing one touches only them. Forward tracking of frames first..last without adding particles changes no other file than those of first..last; each frame reads back with the particles it had, in the same order, positions equal to the three digits written, seen by the same targets; the links read back agree in both directions between all neighbouring frames. When it adds particles, each frame reads back with its particles first, in place and order, then the added ones, with the same detections up to the particle they belong to, never more added particles than there were unused detections, and links that agree. Repeating the run (without adding) over the files it left finds the same number of links and leaves every file as it is (at once if the files were already in the program's own format, otherwise from the second run on). Repeated runs that may add particles also come to an end: after two runs more than the given frames have unused detections, every further run leaves all files as they are and finds the same links as the one before. Backward tracking changes only files of frames first+1..last-1; frames first+2..last-1 read back with their particles, every link they had, and links agreeing in both directions. Refuted expectations: backward tracking leaves the files of frame first+1 with their own particles (they hold those of frame first); repeating a run that adds particles finds the same links at once.", "quantifier": "all directories, base names, frame ranges of any length, numbers of particles and targets, one to four cameras, tracking parameters, calibrations (abstract geometry) and earlier buffer contents", "why_tests_cant": "the file system, the number of frames and the particles are unbounded, and agreement of all links after reading back relates every pair of frames", "anchors": ["openptv_python/tracking_frame_buf.py: FrameBuf.read_frame_at_end, FrameBuf.write_frame_from_start, Frame.read, Frame.write, read_path_frame, write_path_frame, read_targets, write_targets", "openptv_python/track.py: track_forward_start, trackcorr_c_loop, trackcorr_c_finish, trackback_c"], "expectation": "backward tracking leaves the particles of frame first+1 alone (violated); repeating an adding run finds the same links (violated)"}
{"id": "C94", "title": "The box blur in loops and masking", "statement": "fast_box_blur_numba (run as Python) with half-width 0 returns the image it was given. Refuted expectation: with a half-width of 1 or more it returns a blurred image; it raises IndexError for every half-width and every image. subtract_mask sets exactly the pixels with mask value 0 to 0, keeps the others, and is idempotent.", "quantifier": "all images and masks of any size and content, all half-widths", "why_tests_cant": "the failure and the copy hold for images and half-widths of every size", "anchors": ["openptv_python/image_processing.py: fast_box_blur_numba, subtract_mask"], "expectation": "a half-width of 1 or more gives a blurred image (violated)"}
{"id": "C95", "title": "A crash while a calibration is written", "statement": "If the process dies during Calibration.write, files other than the two named are as before, and either nothing has changed, or the distortion file is the old one and whatever Calibration.from_file accepts from the orientation file is right (position, angles and their matrix, and all but the last number that is left of the interior orientation and the glass vector), or the orientation file is complete and a distortion file that is accepted is right in its first six numbers. Refuted expectations: the old or the new calibration survives; a file that is accepted is complete (a missing glass vector is not noticed); the two files belong to the same calibration; every number that is read is right (a cut number is read as another one).", "quantifier": "all calibrations, all file contents before, all crash points including any part of the written text still in the buffers", "why_tests_cant": "the crash can come after every character written", "anchors": ["openptv_python/calibration.py: write_ori, Calibration.write, Calibration.from_file"], "expectation": "after a crash the old or the new calibration can be read (violated)"}
{"id": "C96", "title": "The apparent point behind a glass plate", "statement": "For a camera above a plane glass plate and a point below it, multimed_nlay (no look-up table) returns the point's x and y moved away from the camera's axis, along the line from the axis through the point: the light ray that leaves the camera towards the apparent point and is refracted by Snell's law at both faces reaches the depth of the point short of it by at most 0.001 or by the 41st power of the part of the depth that lies behind the outer face, times the point's distance from the axis, and never beyond it. Moving and turning camera and point together about the vertical moves and turns the apparent point with them; a point on the camera's axis is seen where it is.", "quantifier": "All cameras, points, plate thicknesses and refractive indices n1 <= n2, n3 (refraction); all media, also with several layers, and all cameras and points (symmetry); also with any look-up table (axis).", "why_tests_cant": "The claim holds for a continuum of cameras, points, plates and indices, and the fixed-point iteration must be good for all of them.", "anchors": ["openptv_python/multimed.py: multimed_nlay, multimed_r_nlay, fast_multimed_r_nlay"]}
