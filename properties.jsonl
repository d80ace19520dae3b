{"id": "C01", "title": "State-vector layout is a partition", "statement": "The packed state vector described by the state_index_*()/num_states_*() queries is a partition: the blocks reported for every camera's intrinsics, every camera extrinsics, every frame, every variable point and the board warp are pairwise disjoint, lie in [0,num_states) and together cover every index exactly once. A query for something that is not being optimized, or for an out-of-range item, reports 'absent' and nothing else does.", "quantifier": "every lens model and configuration, every number of cameras/frames/points/fixed points/observations, every combination of optimization selections", "why_tests_cant": "the space of (counts x selections x lens models) is infinite; tests sample a handful of combinations", "anchors": ["mrcal.c: mrcal_num_states, mrcal_num_states_intrinsics, mrcal_num_states_extrinsics, mrcal_num_states_frames, mrcal_num_states_points, mrcal_num_states_calobject_warp, mrcal_state_index_intrinsics, mrcal_state_index_extrinsics, mrcal_state_index_frames, mrcal_state_index_points, mrcal_state_index_calobject_warp"]}
{"id": "C02", "title": "Measurement-vector layout is a partition", "statement": "The measurement vector described by the measurement_index_*()/num_measurements_*() queries is a partition: boards, then points, then triangulated points, then regularization; blocks are disjoint, contiguous, and cover [0,num_measurements) exactly; an absent category reports 'absent'.", "quantifier": "every number of observations, board size, lens model, selection and set of triangulated observations", "why_tests_cant": "unbounded counts and all selection combinations", "anchors": ["mrcal.c: mrcal_measurement_index_boards, mrcal_measurement_index_points, mrcal_measurement_index_points_triangulated, mrcal_measurement_index_regularization, mrcal_num_measurements, mrcal_num_measurements_boards, mrcal_num_measurements_points, mrcal_num_measurements_points_triangulated, mrcal_num_measurements_regularization"]}
{"id": "C03", "title": "Cost function fills exactly the advertised number of residuals and Jacobian entries", "statement": "For every consistent problem description, one evaluation of the cost function produces exactly num_measurements residuals, exactly num_measurements+1 row pointers which are non-decreasing, start at 0 and end at the advertised number of Jacobian non-zeros, and exactly that many (column,value) pairs: the caller-allocated arrays are filled completely and never overrun.", "quantifier": "every problem size, lens model, selection, set of observations, pattern of outliers and fixed points", "why_tests_cant": "a mismatch is a silent heap overrun for one particular combination of lens model, flags and observation mix; tests run only a few mixes", "anchors": ["mrcal.c: optimizer_callback, _mrcal_num_j_nonzero, mrcal_num_measurements, mrcal_optimizer_callback"]}
{"id": "C04", "title": "Jacobian columns are valid and each row is sorted and duplicate-free", "statement": "Every column index written by the cost function lies in [0,num_states), and inside each board, point and regularization row the columns are strictly increasing (splined models: as long as there are fewer than 32768 control points per row; beyond that the 16-bit stride wraps around and columns are duplicated).", "quantifier": "every problem description and every state", "why_tests_cant": "needs all lens models, flags, control-point positions and observation index patterns", "anchors": ["mrcal.c: optimizer_callback, mrcal_state_index_intrinsics, mrcal_state_index_frames"]}
{"id": "C05", "title": "Outlier status does not change the shape of the problem", "statement": "Turning any set of observations into outliers (or back) changes no row count, no row pointer and no column index reported by the cost function; outlier rows have zero residual and zero gradient, so removing an outlier cannot shift any other measurement.", "quantifier": "every problem, every pattern of weights", "why_tests_cant": "exponentially many outlier patterns", "anchors": ["mrcal.c: optimizer_callback (board, point, triangulated sections)"]}
{"id": "C06", "title": "Packing and unpacking the state are inverse and touch only optimized quantities", "statement": "pack_state followed by unpack_state (and conversely) is the identity on every state vector; writing a packed vector into the camera/frame/point structures and reading it back reproduces the vector; quantities that are locked down (core, distortions, extrinsics, frames, fixed points, warp) are bit-for-bit untouched.", "quantifier": "every problem description, state vector and current parameter values", "why_tests_cant": "unbounded dimensions and 2^k selection combinations", "anchors": ["mrcal.c: pack_solver_state, mrcal_pack_solver_state_vector, unpack_solver_state, mrcal_unpack_solver_state_vector"]}
{"id": "C07", "title": "Packing via structures and via the vector agree", "statement": "Packing the camera/frame/point structures gives the same vector as laying the same quantities out in an unpacked vector and calling pack_state on it: the two independent implementations use one layout and one set of scales, at the position the state_index queries report.", "quantifier": "every problem description and every parameter value", "why_tests_cant": "relational statement over two implementations for all inputs", "anchors": ["mrcal.c: pack_solver_state, pack_solver_state_intrinsics, mrcal_pack_solver_state_vector, pack_solver_state_intrinsics_subset_to_subset"]}
{"id": "C08", "title": "Lens model names round-trip", "statement": "Printing a lens model (with its configuration) to its name and parsing the name back gives the same lens model type and configuration.", "quantifier": "every lens model type and every configuration value", "why_tests_cant": "the configuration space is 2^64 for the splined models and all doubles for CAHVORE", "anchors": ["mrcal.c: mrcal_lensmodel_name, mrcal_lensmodel_from_name, LENSMODEL_SCAN_CONFIG_FUNCTIONS"]}
{"id": "C09", "title": "Lens model name parsing classifies every string", "statement": "Each string is either accepted as exactly one lens model, or rejected as exactly one of: unknown type, missing configuration, bad configuration. The type-only query agrees with the full parse on every string that the full parse accepts, a configuration-bearing name without configuration is reported as 'missing configuration', and no model's name is shadowed by another's.", "quantifier": "every byte string", "why_tests_cant": "the set of strings is infinite; prefix clashes between names (OPENCV4/OPENCV45, CAHVOR/CAHVORE) are easy to miss", "anchors": ["mrcal.c: mrcal_lensmodel_from_name, mrcal_lensmodel_type_from_name, mrcal_lensmodel_type_is_valid"]}
{"id": "C10", "title": "Name printing into a bounded buffer is never silently truncated", "statement": "Printing a lens model name into a buffer of a given size reports success iff the whole name including its terminator fit; on success the buffer holds exactly the name; on failure nothing beyond the buffer is written.", "quantifier": "every lens model, configuration and buffer size", "why_tests_cant": "requires all lengths/sizes", "anchors": ["mrcal.c: mrcal_lensmodel_name"]}
{"id": "C11", "title": "Triangulated-pair numbering is a bijection", "statement": "The measurements for triangulated features enumerate, feature by feature, every unordered pair of observations of that feature exactly once; the decode query maps a measurement index back to exactly the pair of observations, the feature's first observation and the number of observations that produced it, and the measurement_index query gives the first measurement of each feature.", "quantifier": "every number of features and every number of observations per feature", "why_tests_cant": "the decode uses a floating-point square root; correctness for all sizes cannot be sampled", "anchors": ["mrcal.c: mrcal_decode_observation_indices_points_triangulated, mrcal_num_measurements_points_triangulated_initial_Npoints, mrcal_measurement_index_points_triangulated, optimizer_callback"]}
{"id": "C12", "title": "Splined model never indexes outside its control-point grid", "statement": "Projecting any point with a splined lens model, no matter how far outside the nominal field of view, evaluates only control points of the grid: each of the (order+1)^2 control points used has 0<=ix<Nx, 0<=iy<Ny, so each parameter and each gradient entry is inside the parameter vector.", "quantifier": "every legal (order,Nx,Ny), every point (including infinities after truncation)", "why_tests_cant": "needs all real inputs and all grid sizes", "anchors": ["mrcal.c: _project_point_splined, mrcal_project_internal_precomputed (segments_per_u), optimizer_callback"]}
{"id": "C13", "title": "Spline surfaces are smooth, local and reproduce constants", "statement": "The splined models' interpolation weights sum to 1 for every sample position, and moving the sample across a cell boundary changes neither the value nor the derivatives up to second order (cubic) / first order (quadratic); the reported gradients with respect to position and control points are the true derivatives.", "quantifier": "every sample position and every set of control points", "why_tests_cant": "continuity and derivative statements quantify over the reals", "anchors": ["mrcal.c: get_sample_coeffs__cubic, get_sample_coeffs__quadratic, interp, sample_bspline_surface_cubic, sample_bspline_surface_quadratic"]}
{"id": "C14", "title": "Sensor-link traversal finds best paths to exactly the reachable sensors", "statement": "Traversing the sensor links from sensor 0 reports each other sensor that is connected (directly or through others) at most once and nothing else; every reported sensor's parent was reported earlier (or is sensor 0) and is directly linked to it; following parents to the root gives a path of minimal total cost; sensors are reported in order of non-decreasing cost.", "quantifier": "every number of sensors and every shared-observation matrix", "why_tests_cant": "all graphs of all sizes", "anchors": ["traverse-sensor-links.c: mrcal_traverse_sensor_links, visit, cost_edge; heap.cc; calibration.py: _traverse_sensor_links_python, _estimate_camera_poses"]}
{"id": "C15", "title": "Condensed pair indexing is a bijection", "statement": "The condensed storage index used for a symmetric per-sensor-pair matrix maps the unordered pairs of distinct sensors one-to-one onto 0..N(N-1)/2-1, and is symmetric in its arguments.", "quantifier": "every N and every pair", "why_tests_cant": "unbounded N", "anchors": ["traverse-sensor-links.c: pairwise_index"]}
{"id": "C16", "title": "Outlier rejection is monotone and preserves weights", "statement": "One outlier-rejection pass either reports 'nothing new' and leaves every observation unchanged, or reports 'found some' and at least one inlier became an outlier; no outlier ever becomes an inlier, and the magnitude of each weight is preserved, so a user can recover the original weights.", "quantifier": "every set of observations, weights and residuals", "why_tests_cant": "all weight/residual patterns", "anchors": ["mrcal.c: markOutliers, mrcal_optimize"]}
{"id": "C17", "title": "The solve / reject-outliers loop terminates", "statement": "The optimize loop that alternates solving and rejecting outliers runs at most (number of initially-inlier observations + 1) times, whatever the solver returns.", "quantifier": "every problem and every behaviour of the numerical solver", "why_tests_cant": "termination over all solver behaviours", "anchors": ["mrcal.c: mrcal_optimize, markOutliers"]}
{"id": "C18", "title": "Outlier rejection rejects exactly the observations beyond the threshold", "statement": "When a pass rejects anything, afterwards an observation is an outlier iff it was one before or its residual exceeds the published threshold (k=4 standard deviations of the inlier residuals, pass triggered by k=5); the standard deviation ignores the observations that were already outliers.", "quantifier": "every observation set", "why_tests_cant": "all inputs; the two-threshold hysteresis is easy to get wrong", "anchors": ["mrcal.c: markOutliers"]}
{"id": "C19", "title": "Intrinsics-to-extrinsics correspondence is consistent with every observation", "statement": "If the library reports a camera's extrinsics index, then that camera appears in the data only with that index, no other camera uses it, and -1 (camera at the reference) is reported for at most one camera; inconsistent or moving-camera data is rejected.", "quantifier": "every list of board, point and triangulated observations", "why_tests_cant": "all index lists", "anchors": ["mrcal.c: mrcal_corresponding_icam_extrinsics, _corresponding_icam_extrinsics_check"]}
{"id": "C20", "title": "Rodrigues conversion produces the right rotation", "statement": "R_from_r yields a proper rotation (orthonormal, determinant +1) by angle |r| about r; negating r gives the transpose; the direct point rotation by r agrees with multiplying by that matrix; the reported gradient dR/dr is the true derivative.", "quantifier": "every real 3-vector", "why_tests_cant": "identities over the reals, including gradient exactness", "anchors": ["poseutils-opencv.c: mrcal_R_from_r_full; poseutils-uses-autodiff.cc: rotate_point_r_core"]}
{"id": "C21", "title": "Rotation matrix to rotation vector and back", "statement": "r_from_R(R_from_r(r)) = r for every |r|<pi, and R_from_r(r_from_R(R)) = R for every proper rotation: the conversion loses nothing, including near 0 and near 180 degrees.", "quantifier": "every rotation", "why_tests_cant": "the branch boundaries (near 0, near 180 degrees) form measure-zero sets that random tests miss", "anchors": ["poseutils.c: mrcal_r_from_R_full; poseutils-opencv.c: mrcal_R_from_r_full"]}
{"id": "C22", "title": "Pose algebra with matrices (Rt)", "statement": "transform(compose(a,b),x) = transform(a,transform(b,x)); invert(a) undoes a; each 'inverted' flag gives exactly the result of inverting the corresponding argument first; composition is associative, so the n-ary Python compose gives the same result as any grouping.", "quantifier": "all poses (with proper rotation matrices where inversion is involved) and points, all flag combinations", "why_tests_cant": "universally quantified algebraic laws", "anchors": ["poseutils.c: mrcal_compose_Rt_full, mrcal_invert_Rt_full, mrcal_transform_point_Rt_full, mrcal_rotate_point_R_full; mrcal/poseutils.py: compose_Rt"]}
{"id": "C23", "title": "Pose algebra with rotation vectors (rt)", "statement": "The same laws hold for the rt representation: composing rotation vectors gives a rotation vector of the product of the rotations, its angle is at most pi, transform/compose/invert and each 'inverted' flag agree with the matrix representation.", "quantifier": "all rotation vectors and translations, all flag combinations", "why_tests_cant": "trigonometric identities over all reals with several branches", "anchors": ["poseutils-uses-autodiff.cc: compose_r_core, mrcal_compose_r_full, mrcal_transform_point_rt_full; poseutils.c: mrcal_compose_rt_full, mrcal_invert_rt_full"]}
{"id": "C24", "title": "Pose functions may be called in place", "statement": "The pose functions documented to work in place give, when the output aliases an input (for any strides), the same output as with separate buffers.", "quantifier": "all inputs, all strides, all documented aliasing patterns", "why_tests_cant": "aliasing x strides is a large space; an ordering bug corrupts only some elements", "anchors": ["poseutils.h: comments on in-place operation; poseutils.c: mul_gen33_gen33_strided and friends, mrcal_invert_Rt_full, mrcal_compose_Rt_full, mrcal_invert_R_full"]}
{"id": "C25", "title": "Automatic differentiation is exact", "statement": "Every value computed through the library's dual-number type carries exactly the derivative of the computed expression with respect to each chosen variable.", "quantifier": "every expression built from the provided operations, every point where the operations are differentiable", "why_tests_cant": "induction over all expressions", "anchors": ["_autodiff.hh: val_withgrad_t, vec_withgrad_t"]}
{"id": "C26", "title": "Reported pose gradients are true derivatives", "statement": "All gradients returned by rotate_point, transform_point, invert and compose are the partial derivatives of the returned value.", "quantifier": "all inputs", "why_tests_cant": "numerical differencing in tests is approximate and samples points", "anchors": ["poseutils.c, poseutils-uses-autodiff.cc, poseutils-opencv.c"]}
{"id": "C27", "title": "Linearized composition with a tiny rotation", "statement": "The specialised gradient for composing with an infinitesimal rotation on the left or right equals the derivative of the full composition at zero.", "quantifier": "every rotation vector in the valid range", "why_tests_cant": "limit statement for all r", "anchors": ["poseutils.c: mrcal_compose_r_tinyr0_gradientr0, mrcal_compose_r_tinyr1_gradientr1; poseutils.py: compose_rt_tinyrt0_gradientrt0"]}
{"id": "C28", "title": "Rotation aligned to a vector", "statement": "R_aligned_to_vector(v) is a proper rotation mapping v to (0,0,|v|), for every nonzero v, with no singular directions.", "quantifier": "every nonzero 3-vector", "why_tests_cant": "the seed selection must never degenerate: an exceptional direction has measure zero", "anchors": ["poseutils.c: mrcal_R_aligned_to_vector; mrcal/utils.py: _R_aligned_to_vector_python"]}
{"id": "C29", "title": "Procrustes alignment is optimal", "statement": "The vector alignment returns a proper rotation minimizing the weighted sum of squared errors over all proper rotations; the point alignment minimizes over all rigid transformations; degenerate data is reported as a failure.", "quantifier": "all point sets and nonnegative weights", "why_tests_cant": "global optimality over all rotations", "anchors": ["poseutils.c: _align_procrustes_vectors_R01, mrcal_align_procrustes_points_Rt01"]}
{"id": "C30", "title": "Closed-form projections invert", "statement": "For the pinhole, stereographic, lonlat and latlon models project(unproject(q)) = q, unproject(project(v)) is parallel to v (for v in the model's domain), and the lonlat/latlon unprojections are unit vectors.", "quantifier": "every pixel, every direction in the domain, every focal length != 0 and center", "why_tests_cant": "quantifies over all reals, with atan2/asin branches", "anchors": ["mrcal.c: mrcal_project_pinhole, mrcal_unproject_pinhole, mrcal_project_stereographic, mrcal_unproject_stereographic, mrcal_project_lonlat, mrcal_unproject_lonlat, mrcal_project_latlon, mrcal_unproject_latlon"]}
{"id": "C31", "title": "Projection gradients are exact", "statement": "The gradients reported by the closed-form projections and unprojections with respect to the point are the true partial derivatives.", "quantifier": "every point in the domain", "why_tests_cant": "derivative statements over the reals", "anchors": ["mrcal.c: mrcal_project_pinhole, mrcal_project_stereographic, mrcal_unproject_stereographic, mrcal_project_lonlat, mrcal_unproject_lonlat, mrcal_project_latlon, mrcal_unproject_latlon"]}
{"id": "C32", "title": "Batched projection treats points independently", "statement": "Calling a projection function with N points gives the same N results and gradients as N calls with one point each.", "quantifier": "every N, every point list, every requested subset of outputs", "why_tests_cant": "every N and every NULL/non-NULL combination of outputs", "anchors": ["mrcal.c: mrcal_project_pinhole, mrcal_project_stereographic, mrcal_project_lonlat, mrcal_project_latlon, _mrcal_project_internal, mrcal_project, mrcal_unproject"]}
{"id": "C33", "title": "Triangulation of exact observations is exact", "statement": "If the two observation rays meet at a point in front of both cameras, each non-iterative triangulation method (geometric, mid2, weighted mid2, lee-civera L1/Linf) returns that point.", "quantifier": "every pair of intersecting non-parallel rays and every baseline", "why_tests_cant": "real-algebraic identities over all configurations", "anchors": ["triangulation.cc: mrcal_triangulate_geometric, mrcal_triangulate_leecivera_mid2, mrcal_triangulate_leecivera_wmid2, mrcal_triangulate_leecivera_l1, mrcal_triangulate_leecivera_linf, triangulate_assume_intersect"]}
{"id": "C34", "title": "Geometric triangulation is the midpoint of closest approach", "statement": "For non-parallel rays whose closest points are in front of both cameras the geometric method returns the midpoint of the shortest segment between the rays (the minimizer over all pairs of points on the two rays); otherwise it returns exactly (0,0,0).", "quantifier": "all rays and baselines", "why_tests_cant": "optimality over all pairs of reals", "anchors": ["triangulation.cc: mrcal_triangulate_geometric"]}
{"id": "C35", "title": "Lee-Civera corrections make rays coplanar with the smallest change", "statement": "The L1 and L-infinity methods adjust the rays so that they intersect exactly; the adjusted rays are coplanar with the baseline.", "quantifier": "all ray pairs", "why_tests_cant": "algebraic identity over all reals", "anchors": ["triangulation.cc: mrcal_triangulate_leecivera_l1, mrcal_triangulate_leecivera_linf"]}
{"id": "C36", "title": "Triangulated residual blends smoothly between convergent and divergent rays", "statement": "The blending function used for triangulated residuals is continuously differentiable, monotone, 0 below the lower knee and 1 above the upper one.", "quantifier": "every real input", "why_tests_cant": "continuity and differentiability at the knees", "anchors": ["triangulation.cc: sigmoid, relu, _mrcal_triangulated_error"]}
{"id": "C37", "title": "Rectified stereo system has the documented geometry", "statement": "The rectified coordinate system is a proper rotation of camera 0's; camera 1 sits at (baseline,0,0) in it with baseline equal to the camera distance; both rectified models have identical orientation, so each point projects to the same rectified row in both images.", "quantifier": "all pairs of camera poses with nonzero baseline whose mean viewing direction is not along the baseline", "why_tests_cant": "geometric identity over all poses", "anchors": ["stereo.c: mrcal_rectified_system2, mrcal_rectified_system; mrcal/stereo.py: rectified_system"]}
{"id": "C38", "title": "Rectified view never looks along the baseline", "statement": "If the rectified system is computed successfully, the azimuth field of view stays at least the requested margin (minus the documented slack) away from the baseline direction on both sides; with auto-detected center azimuth the call fails only if no center azimuth could satisfy the margin.", "quantifier": "all geometries, fields of view, margins and center azimuths", "why_tests_cant": "all real inputs and both auto/manual paths", "anchors": ["stereo.c: mrcal_rectified_system2"]}
{"id": "C39", "title": "Stereo ranging inverts rectified projection", "statement": "For every point seen by both rectified cameras, converting its disparity to range gives exactly the point's distance from camera 0, for both rectification models; invalid (non-positive, out-of-range or non-finite) disparities give exactly 0.", "quantifier": "all points, baselines, focal lengths, centers, disparity scales and limits", "why_tests_cant": "trigonometric identity over all points", "anchors": ["stereo.c: _stereo_range_one, mrcal_stereo_range_sparse, mrcal_stereo_range_dense; mrcal/stereo.py: stereo_range"]}
{"id": "C40", "title": "Incremental rectification-map trigonometry does not drift", "statement": "The rectification maps for the LATLON model, computed incrementally with one rotation step per pixel, use exactly the direction vector of each pixel's unprojection.", "quantifier": "every image size and pixel", "why_tests_cant": "induction over all columns and rows", "anchors": ["stereo.c: mrcal_rectification_maps"]}
{"id": "C41", "title": "Rectified pinhole center satisfies the requested field of view", "statement": "Any center pixel returned for the pinhole rectification makes the view symmetric about the requested azimuth and spans exactly the requested field of view; candidate roots of the polynomial that correspond to the wrong branch are rejected.", "quantifier": "all fields of view and azimuths", "why_tests_cant": "polynomial-root branch analysis over the reals", "anchors": ["stereo.c: compute_pinhole_cxy, roots_real_polynomial"]}
{"id": "C42", "title": ".cameramodel reader accepts the writer's output and recovers the values", "statement": "Any model text written by the Python writer or the C writer (any lens model, any number of parameters, any optional keys) is accepted by the C reader, which recovers the lens model, intrinsics, extrinsics and imager size as written.", "quantifier": "all model contents", "why_tests_cant": "unbounded text grammar; optional keys, ordering and nesting", "anchors": ["cameramodel-parser.re: mrcal_read_cameramodel_string and helpers; mrcal.c: mrcal_write_cameramodel_file; mrcal/cameramodel.py: _write"]}
{"id": "C43", "title": ".cameramodel reader rejects incomplete or contradictory models", "statement": "If the C reader accepts a text, then the text contained a valid lens model, exactly the number of intrinsics that model needs, six extrinsics numbers and a two-element imager size, each given once (or consistently); otherwise it returns an error and no model.", "quantifier": "every byte string", "why_tests_cant": "all strings", "anchors": ["cameramodel-parser.re"]}
{"id": "C44", "title": "Camera pose accessors agree", "statement": "A camera model object has one pose: after setting it through any of the four accessors (rt/Rt, cam_ref/ref_cam), all four accessors return representations of the same transformation, and the stored one is what gets written to disk.", "quantifier": "every pose and every sequence of set/get calls", "why_tests_cant": "all histories of accessor calls", "anchors": ["mrcal/cameramodel.py: rt_cam_ref, rt_ref_cam, Rt_cam_ref, Rt_ref_cam, _extrinsics_rt, _extrinsics_Rt"]}
{"id": "C45", "title": "Saving and loading a camera model object preserves it through any history", "statement": "After any sequence of constructing, copying, modifying and resetting operations, a camera model can be written and the written file can be read back to a model equal to it (up to the printed precision).", "quantifier": "every history of public operations", "why_tests_cant": "all operation sequences", "anchors": ["mrcal/cameramodel.py: cameramodel.__init__, intrinsics, optimization_inputs_reset, write, _write, _read_into_self, optimization_inputs"]}
{"id": "C46", "title": "Optimization inputs survive serialization", "statement": "Serializing optimization inputs and deserializing them gives back the same entries (with renamed keys accepted under either name), for any subset of optional keys and across repeated save/load cycles.", "quantifier": "every dictionary with the known keys", "why_tests_cant": "all key subsets and repeated cycles", "anchors": ["mrcal/cameramodel.py: _serialize_optimization_inputs, _deserialize_optimization_inputs"]}
{"id": "C47", "title": "Frame numbers are extracted consistently from file names", "statement": "When the image-file mapping succeeds, two files from different cameras get the same frame number iff the varying numeric part of their names agrees, and every file gets a mapping.", "quantifier": "all lists of paths per camera", "why_tests_cant": "all strings", "anchors": ["mrcal/utils.py: mapping_file_framenocameraindex"]}
{"id": "C48", "title": "Chessboard corner import keeps observations consistent", "statement": "Corner data read from the detector yields indices sorted by frame then camera, frame indices are consecutive from 0 with every frame having at least one observation, observation i corresponds to path i, and boards are kept iff enough valid corners were detected.", "quantifier": "every detector output", "why_tests_cant": "all inputs", "anchors": ["mrcal/calibration.py: compute_chessboard_corners"]}
{"id": "C49", "title": "Corner cache is all-or-nothing", "statement": "If the process is killed at any point while computing corners, a later run either finds no cache file or a complete one; a partially written cache is never mistaken for a complete one.", "quantifier": "every crash point", "why_tests_cant": "crash points cannot be enumerated by unit tests", "anchors": ["mrcal/calibration.py: compute_chessboard_corners (cache writing)"]}
{"id": "C50", "title": "CAHVOR files round-trip the geometry", "statement": "Writing a PINHOLE/CAHVOR/CAHVORE model to the CAHVOR vectors (C,A,H,V,O,R,E) and reading it back gives the same pose, focal lengths, centers, optical-axis angles and distortion.", "quantifier": "all proper rotations, positive focal lengths and optical-axis angles in range", "why_tests_cant": "trigonometric identity over all parameters", "anchors": ["mrcal/cahvor.py: _construct_model, _deconstruct_model, _HVs_HVc_HVp"]}
{"id": "C51", "title": "Ingesting a packed state writes exactly the optimized quantities back", "statement": "ingest_packed_state(pack(x)) reproduces x in the optimization inputs: every optimized quantity is updated and every locked one is unchanged.", "quantifier": "every problem description", "why_tests_cant": "all selection combinations", "anchors": ["mrcal/utils.py: ingest_packed_state"]}
{"id": "C52", "title": "Worst-direction uncertainty is the maximum over directions", "statement": "worst_direction_stdev(C) is the largest standard deviation of the quantity along any unit direction, and is attained.", "quantifier": "every 2x2 symmetric positive semidefinite matrix", "why_tests_cant": "maximum over a continuum", "anchors": ["mrcal/model_analysis.py: worst_direction_stdev"]}
{"id": "C53", "title": "Uncertainty accumulation is independent of measurement grouping", "statement": "The cross-reprojection uncertainty accumulates each measurement's contribution exactly once irrespective of how measurements are grouped into runs by camera/frame/point, and equals the straightforward per-measurement sum.", "quantifier": "every order and grouping of measurements", "why_tests_cant": "all orders", "anchors": ["uncertainty.c: _mrcal_drt_cross_reprojection__dbpacked, accumulate_rt_block, accumulate_point"]}
{"id": "C54", "title": "Shared-frame counting is exact", "statement": "The camera connectivity matrix is symmetric and each entry is the number of frames in which both cameras observed the board.", "quantifier": "every sorted index list", "why_tests_cant": "all index lists; counter width", "anchors": ["mrcal/calibration.py: _estimate_camera_poses (compute_connectivity_matrix)"]}
{"id": "C55", "title": "Image contrast stretch maps the darkest pixel to 0 and the brightest to 255", "statement": "The 16-to-8-bit stretch is monotone in pixel value and maps the image minimum to 0 and the maximum to 255.", "quantifier": "every image", "why_tests_cant": "all pixel sequences incl. first-pixel maximum", "anchors": ["image.c: mrcal_image_uint8_from_uint16_stretch / stretch_equalization_uint8_from_uint16"]}
{"id": "C56", "title": "Track culling reaches a self-consistent set", "statement": "The synthetic-track normalization terminates, and in its result every point has at least the minimal number of observations, every camera pose has at least the minimal number of observed points, indices are consecutive from 0 and refer to the original points and poses.", "quantifier": "every observation list", "why_tests_cant": "fixed point of mutual culling; all inputs", "anchors": ["mrcal/synthetic_data.py: make_tracks (normalize_indices)"]}
{"id": "C57", "title": "Jacobian entries are exactly the dependencies of each residual", "statement": "In each row of the Jacobian there is an entry for every state variable the residual depends on (its own camera's focal length and center along that axis and lens parameters, its own camera pose, its own board pose or point, the board warp; for regularization the regularized parameter; for triangulated points the two camera poses) that is being optimized, and for no other variable.", "quantifier": "every consistent problem description, every selection of variables, every row and column", "why_tests_cant": "all combinations of selections, lens models, camera indices", "anchors": ["mrcal.c: optimizer_callback", "mrcal.c: mrcal_state_index_*"]}
{"id": "C58", "title": "Residuals are stored where measurement_index_*() says", "statement": "The residual of corner ipt, axis ixy of board observation i is element measurement_index_boards(i)+2*ipt+ixy; of point observation i element measurement_index_points(i)+ixy; the k-th triangulated pair is element measurement_index_points_triangulated(0)+k; regularization starts at measurement_index_regularization() with, in order, all lens parameters of all cameras, all centers of projection, the camera-0/1 distance.", "quantifier": "every consistent problem description and every measurement", "why_tests_cant": "all combinations of problem sizes and selections; two independently written pieces of code must agree", "anchors": ["mrcal.c: optimizer_callback", "mrcal.c: mrcal_measurement_index_*"]}
{"id": "C59", "title": "OpenCV lens model gradients are exact", "statement": "For the OpenCV lens models with 4, 5, 8 or 12 distortion parameters, the returned derivatives of the projected pixel with respect to the 3D point, focal lengths, centers and each distortion parameter are the true derivatives (along any simultaneous change of all of them), every gradient element is written, the pixel depends only on the line through the point, and with all distortions 0 the result is the pinhole projection.", "quantifier": "every intrinsics vector, every point in the model's domain, every direction of change", "why_tests_cant": "derivative identities over the reals: finite differences sample a few points with tolerance", "anchors": ["opencv.c: _mrcal_project_internal_opencv", "mrcal.c: _project_point_parametric"]}
{"id": "C60", "title": "CAHVOR gradients are exact", "statement": "For CAHVOR, the returned derivatives of the projected pixel with respect to the point, the core and the five distortion parameters are the true derivatives; the pixel depends only on direction; with zero radial terms the result is pinhole.", "quantifier": "every intrinsics vector and point in the domain", "why_tests_cant": "derivative identities over the reals", "anchors": ["mrcal.c: project_cahvor"]}
{"id": "C61", "title": "Splined projection gradients are exact, with the stated sparsity", "statement": "For the splined stereographic model, the derivatives with respect to the point, core and the (order+1)^2 reported control points per axis are the true derivatives and every unreported control point has derivative 0; gradients through the pose are the chain rule; zero control points give the stereographic projection; the pixel depends only on direction; knots_for_splined_models() reports positions where the spline coordinate is the knot index; the configured horizontal field of view is inside the spline's supported region.", "quantifier": "every legal spline configuration (order, size, field of view), every control-point surface, every point not straight behind the camera", "why_tests_cant": "all configurations and surfaces; derivative identities at every segment boundary", "anchors": ["mrcal.c: _project_point_splined", "mrcal.c: mrcal_knots_for_splined_models", "mrcal.c: _mrcal_project_internal"]}
{"id": "C62", "title": "Unprojection is sound", "statement": "Every vector that unproject() returns for a pixel is a non-zero direction that the lens model projects back to that pixel (exactly for the closed-form models, within the stated tolerance for the iteratively inverted ones), in front of the camera if the model cannot see behind it; where it cannot do that it says so (NaN), and a non-central model is refused as a whole. The Jacobian the inner solver is given is the exact derivative of its residual.", "quantifier": "every lens model, every intrinsics vector, every array of pixels, every behavior of the inner solver that reports its residual truthfully", "why_tests_cant": "all models, all pixels and all solver outcomes, including the failing ones", "anchors": ["mrcal.c: _mrcal_unproject_internal", "mrcal.c: _unproject_callback", "mrcal.c: mrcal_lensmodel_metadata"]}
{"id": "C63", "title": "Triangulation gradients are exact", "statement": "Every triangulation method that reports gradients (geometric, mid2, weighted mid2, Lee-Civera L1/Linf, Lindstrom) and the triangulated-point residual report the true partial derivatives of the value they return, with respect to every input number; asking for gradients does not change whether the method succeeds.", "quantifier": "every input at which the method succeeds (L1, Linf, Lindstrom, residual: away from the ties where the returned function is not differentiable)", "why_tests_cant": "a derivative identity at every input", "anchors": ["triangulation.cc: mrcal_triangulate_*", "triangulation.cc: _mrcal_triangulated_error", "_autodiff.hh"]}
{"id": "C64", "title": "Lindstrom triangulation performs the published correction", "statement": "mrcal_triangulate_lindstrom returns the exact point for exact observations, and for inexact ones applies the correction of the paper it cites (the first step satisfies the epipolar constraint exactly; the second is the orthogonal projection of the observations onto the constraint's tangent there).", "quantifier": "every pair of cameras and every pair of observations", "why_tests_cant": "all geometries; small-noise tests cannot see a second-order error", "anchors": ["triangulation.cc: mrcal_triangulate_lindstrom"]}
{"id": "C65", "title": "The CAHVORE model is the published one and its gradients are exact", "statement": "CAHVORE projection finds the point's angle at the moving entrance pupil (the solved equation says exactly that the point lies on the ray leaving the pupil at that angle), maps the angle with the family chi = sin, theta or tan selected by the linearity, and refuses directions outside the field of view of the family; with E=0 it is scale invariant; with linearity 1 and E=0 it is CAHVOR, and with no distortion linearity 1 is pinhole and 1/2 is stereographic; the gradients it reports are the true derivatives of what it computes (through the Newton iteration), and a failed projection reports zeros.", "quantifier": "every linearity, every intrinsics vector, every point", "why_tests_cant": "identities over all parameters; derivative of an iteration at every input", "anchors": ["cahvore.cc: project_cahvore_internals", "mrcal.c: project_cahvore", "mrcal.c: _project_point"]}
{"id": "C66", "title": "The Jacobian given to the optimizer is the derivative of the residuals", "statement": "Every row of the sparse Jacobian computed by the optimizer callback (board, point and triangulated-point observations, every regularization term) is the exact derivative of that same residual with respect to the packed state, through unpacking, pose composition, board warp and every lens model: moving the state along any path changes residual k at the rate sum_j J_kj db_j. Rows marked as outliers are constant zero with zero entries; variables that are not optimized have no columns.", "quantifier": "every problem (any number of cameras, frames, points, observations, any selection of optimized variables, any lens model), every state at which the code's own branches are not at a boundary, every direction of motion", "why_tests_cant": "numerical gradient checks sample a few states of a few problems; a wrong term that vanishes for the sampled poses, selections or models goes unnoticed and only slows convergence or biases the uncertainty", "anchors": ["mrcal.c: optimizer_callback", "mrcal.c: project", "mrcal.c: _propagate_extrinsics__splined", "mrcal.c: _propagate_extrinsics", "mrcal.c: _project_point"]}
{"id": "C67", "title": "The cost function's residuals are the documented reprojection errors at the unpacked parameters", "statement": "Each observation residual of the optimizer callback is weight*(projection - observation): for a board corner, the corner of the documented warped grid, placed by its frame's pose, moved into the camera by the camera's pose (a camera index <0 is the reference), projected with that camera's lens parameters; for a point, the same with the point's coordinates; for a triangulated pair, the triangulation residual of the two rays in the second camera's coordinates. All parameters are exactly those that unpacking the state into the caller's structures gives: optimized ones from the state, the others from the caller. Outliers have residual 0; exact triangulated observations have residual 0.", "quantifier": "every problem, every selection of optimized variables, every state, every row", "why_tests_cant": "index arithmetic and conditional unpacking for every combination of locked variables, any number of cameras, frames, points, any lens model", "anchors": ["mrcal.c: optimizer_callback", "mrcal.c: project", "mrcal.c: unpack_solver_state"]}
{"id": "C68", "title": "The propagated covariance is the covariance of the linearized least-squares solution", "statement": "_propagate_calibration_uncertainty() returns, for any quantity F of the unpacked state with gradient dF/db, exactly the covariance of the first-order change of F when the observed pixels of a solved problem are moved by independent noise of the given standard deviation and the linearized problem is re-solved; regularization terms take part in the fit but carry no noise; outliers take part in neither. The result is symmetric positive semidefinite; 'rms-stdev' is the root of the mean of its diagonal. Problems with other kinds of measurements are refused.", "quantifier": "every problem (any lens model, any counts, any selection of optimized variables) without triangulated points, every quantity F of any dimension (the special 2-row code path included), any number of regularization rows including none (the two different formulas agree with the same definition)", "why_tests_cant": "tests compare with a Monte-Carlo simulation of one setup within a loose tolerance; the scaling of each packed variable, the choice of rows and the sparse products have to be right for every selection and size", "anchors": ["mrcal/model_analysis.py: _propagate_calibration_uncertainty", "mrcal-genpywrap.py: _A_Jt_J_At", "mrcal-genpywrap.py: _A_Jt_J_At__2", "mrcal-pywrap.c: CHOLMOD_factorization_solve_xt_JtJ_bt"]}
{"id": "C69", "title": "The noise level estimated from the residuals is unbiased in variance", "statement": "_observed_pixel_uncertainty_from_inputs() divides the RMS of the inlier residuals at the solution by sqrt(1-Nstate/Nmeasurements): without regularization the expected square of the estimate is exactly the variance of the noise; with regularization it is never less.", "quantifier": "every problem without triangulated points with more inlier measurements than states, every noise level", "why_tests_cant": "a statistical identity over all noise realizations and problem shapes", "anchors": ["mrcal/model_analysis.py: _observed_pixel_uncertainty_from_inputs", "mrcal/utils.py: measurements_board", "mrcal/utils.py: measurements_point"]}
{"id": "C70", "title": "projection_uncertainty() propagates the derivative of the reprojected pixel", "statement": "For each method, the gradient dq/db that projection_uncertainty() builds (intrinsics, camera poses, frames, and the cross-reprojection transform, put into the state vector and scaled) is the derivative of the pixel where the queried point appears after the solution moves: through the cross-reprojection transform of this camera ('ccp') or of the reference ('rrp'), or as the mean of the point carried by every frame and every camera pose ('mean-pcam'). With C68 the reported covariance is the first-order covariance of that pixel. A camera whose intrinsics or poses are not being optimized gets an answer too.", "quantifier": "every problem, lens model, state, direction of change, point, finite or at infinity, and matrix K of the cross-reprojection; any number of frames, cameras and poses", "why_tests_cant": "an identity between an assembled gradient and a derivative along every path of states, for every layout of the state", "anchors": ["mrcal/model_analysis.py: projection_uncertainty", "mrcal/model_analysis.py: _dq_db__projection_uncertainty", "mrcal/model_analysis.py: _dq_db__Kunpacked_rrp", "mrcal.c: _mrcal_project_internal (dense gradients)"]}
{"id": "C71", "title": "make_perfect_observations() writes the observations the solve predicts", "statement": "After make_perfect_observations() without noise, optimizer_callback() at the passed-in parameters gives residual 0 for every board corner and discrete point; with noise, every such residual is minus the noise sample, whatever the weights. Nothing but the observations changes: the geometry, the intrinsics, and the inlier/outlier split and weights stay. ref_calibration_object() puts the corners on a grid bent by the two parabolas, nowhere by more than their sum.", "quantifier": "every optimization problem (lens model, any number of cameras, frames, boards, points; board size, warp), noise level and noise sample", "why_tests_cant": "two implementations of the same projection (numpy and C, different pose compositions) must agree at every parameter value; tests run a few calibrations", "anchors": ["mrcal/synthetic_data.py: make_perfect_observations", "mrcal/synthetic_data.py: ref_calibration_object", "mrcal/utils.py: hypothesis_board_corner_positions", "mrcal.c: optimizer_callback"]}
{"id": "C72", "title": "image_transformation_map() maps a pixel to where the other camera sees the same scene point", "statement": "For each pixel of the image made by model_to, the map gives the pixel where model_from sees the same scene point: the point on the pixel's ray at the given distance, at infinity (the limit of far distances; directions only), on the given plane, or along the same direction if the poses are ignored. The optimized OpenCV path gives the same map as the general one. A plane gives the same map however its normal is oriented; it is refused exactly if it passes through one of the cameras. Pixels outside the valid-intrinsics region are marked (-1,-1) if asked for.", "quantifier": "every pair of camera models (lens models, poses), pixel, distance, plane, mask", "why_tests_cant": "an identity over all poses, planes and lens models; the fast path is taken for some inputs only and differs from the slow one by less than a test tolerance", "anchors": ["mrcal/image_transforms.py: image_transformation_map"]}
{"id": "C73", "title": "Quaternions and rotation matrices convert back and forth", "statement": "quat_from_R() gives, for each matrix of an array of rotations, a unit quaternion that R_from_quat() takes back to that matrix, and R_from_quat() of a unit quaternion is a proper rotation: the one by th about the axis for (cos(th/2), sin(th/2) axis). Converting a unit quaternion to a matrix and back gives it or its opposite. The documented reading of the result (2*arctan2(mag(q[1:]),q[0]) about q[1:]/mag(q[1:])) is right. qt_from_Rt() and Rt_from_qt() undo each other, with the transform of every point unchanged.", "quantifier": "every number of rotations, every rotation matrix and unit quaternion (near half turns included), any previous content of the output array", "why_tests_cant": "four branches chosen by the largest component; rotations where the choice changes have measure zero, and the documentation itself says these functions are not thoroughly tested", "anchors": ["mrcal/_poseutils_scipy.py: quat_from_R", "poseutils-genpywrap.py: R_from_quat", "mrcal/poseutils.py: qt_from_Rt", "mrcal/poseutils.py: Rt_from_qt"]}
{"id": "C74", "title": "The gradients that unproject() reports are those of the vector it reports", "statement": "unproject(get_gradients=True) reports a vector v, dv/dq and dv/dintrinsics such that, when the pixel and the intrinsics move, v moves at the rate the gradients give. For the models without a closed form v is a positive multiple of the solver's result, on the surface z = 1-(x^2+y^2)/4, and every differentiable way of staying on the surface and on the pixel has that rate; conversely moving v at that rate moves the pixel as asked. With normalize=True this holds of the unit vector, the gradients are orthogonal to it, and it is the same vector as without gradients. LinAlgError is raised exactly when some motion on the surface leaves the pixel unchanged.", "quantifier": "all lens models, intrinsics, pixels and directions where the projection is differentiable, all differentiable motions of the pixel and of the intrinsics (any number of parameters)", "why_tests_cant": "a finite-difference test samples a few pixels and lenses with some tolerance; the chain of stereographic reparametrization, 2x2 inverse and normalization must be right for each column of every model", "anchors": ["mrcal/projections.py: unproject"]}
{"id": "C75", "title": "The uncertainty of triangulate() propagates the noise of the pixels and of the calibration", "statement": "The gradients that triangulate() feeds into its covariances, of the triangulated point with respect to the 4 pixel coordinates and to each variable of the calibration problem, are the derivatives of the point that is reported: when the pixels, both cameras' intrinsics, both cameras' poses and the frames move, the point moves at the rate these columns give. With stabilize_coords this holds of the point as it is carried by the reference coordinate system, or by the average frame if the frames are optimized. The observation covariance is that of a noise common to both cameras and an independent noise in each; the joint covariance is the calibration covariance plus one observation block per point. The requested outputs are returned, and only those.", "quantifier": "all lens models, problems of any size, pairs of distinct cameras, pixels, triangulation methods other than lindstrom, differentiable motions of the state and of the pixels, any number of points", "why_tests_cant": "the existing test compares against sampled noise with a tolerance of several percent on a few scenes; a wrong sign or a missing term in one of the columns can hide in that, and configurations of the optimization (which blocks are optimized, lens without distortions) multiply", "anchors": ["mrcal/triangulation.py: _triangulation_uncertainty_internal", "mrcal/triangulation.py: _compute_Var_q_triangulation", "mrcal/triangulation.py: triangulate"]}
{"id": "C76", "title": "The pinhole model for reprojection shows all of the requested points, as large as possible", "statement": "scale_focal__best_pinhole_fit() returns the largest focal length scale (up to 1e6) such that each of the query points in the input image is seen inside the image of the scaled pinhole camera, leaving one of them at its edge; pinhole_model_for_reprojection() applies it, keeping center and imager size. With scale_image the image is stretched edge to edge: each pixel of the new image sees what the corresponding point of the unscaled image sees, the middle of the imager stays in place, and the size is rounded to the nearest integer. The arguments scale_focal and fit are exclusive.", "quantifier": "all imager sizes, all cores with the center inside the imager, all lists of query points (any length) in front of the camera, all scales", "why_tests_cant": "whether every point stays inside and whether the scale is maximal depends on the sign of each normalized coordinate relative to the center; tests try a few models and never a ray exactly through the center column", "anchors": ["mrcal/image_transforms.py: scale_focal__best_pinhole_fit", "mrcal/image_transforms.py: pinhole_model_for_reprojection"]}
{"id": "C77", "title": "A rectified system asked for the camera's resolution gets the camera's resolution", "statement": "When pixels_per_deg is given as a negative number -k, a direction that turns through the center of the rectified view moves its pixel in the rectified image, along the row (azimuth) or the column (elevation), exactly k times as fast as its pixel moves in the image of camera 0. With LENSMODEL_LATLON the result is off by no more than half a pixel over the whole field of view, and field of view times resolution is exactly the reported image size. Positive values are used as they are.", "quantifier": "All lens models and intrinsics, all pairs of cameras, rectification models LENSMODEL_LATLON and LENSMODEL_PINHOLE, all fields of view, center directions less than 90 degrees off, all scales", "why_tests_cant": "It equates a speed along curves on two different imagers for every lens; a numerical test differentiates one lens at one point, and errors in a chain rule or degrees/radians factor in one branch show only there", "anchors": ["stereo.c:23-171 mrcal_rectified_resolution", "stereo.c:628-718 mrcal_rectified_system2", "stereo.py rectified_system (pixels_per_deg_az)"]}
{"id": "C78", "title": "From exact board poses the calibration seed recovers the exact camera and board poses", "statement": "If the pose of the board reported for every observation agrees with some set of camera poses and board poses, rows are ordered by frame and then by camera, and every camera is connected to camera 0 through pairs of cameras that share at least two frames, then the seed returned by _estimate_camera_poses() and estimate_joint_frame_poses() is exactly those camera poses and those board poses, in the order of the cameras and frames. If some camera is not connected, an exception is raised. Two unstated conditions are necessary: the cameras must be in order inside each frame, or the seed throws although everything is connected; and no frame number may be skipped, or rt_ref_frame[iframe] is not the pose of that frame.", "quantifier": "All numbers of cameras, frames and observations (below 65536 rows), all camera and board poses, all board sizes of at least 2x2 with corners at least 1.8e-6 apart, every conforming SVD and heap", "why_tests_cant": "It chains pairwise fits along a shortest-path tree chosen at run time: a swapped direction, a wrong composition order or a wrong triangular index shows only for particular connection graphs, and a nonlinear optimization afterwards usually repairs a bad seed silently", "anchors": ["calibration.py:925-1100 _estimate_camera_poses", "calibration.py:1186-1395 estimate_joint_frame_poses", "calibration.py:1571-1608 seed_stereographic", "poseutils-genpywrap.py:1201-1222 align_procrustes_points_Rt01", "mrcal-pywrap.c:4208-4311 traverse_sensor_links"]}
{"id": "C79", "title": "apply_color_map() colors each value by its position between the bounds", "statement": "Each pixel gets, per channel, the byte nearest to 255 times the documented gnuplot formula (clipped to [0,1]) of the value's position between the lower and upper bound, clipped to [0,1]; negative formula numbers invert the position; omitted bounds are the extreme values of the image; formulas other than -36..36 are refused. With the default formulas a larger value is never less red or green. Three exceptions: float images with negative values only do not use their largest value as the upper bound; negative bounds on float images are replaced by a positive number near 0; 32-bit signed images that span more than half of the type overflow.", "quantifier": "All ten element types, all image contents and sizes, all bounds, all 73 formula numbers for each channel", "why_tests_cant": "37 formulas in both directions times ten types times all values; the limits FLT_MIN/DBL_MIN are a wrong choice that shows only for float data with no positive values", "anchors": ["stereo.c:975-1238 gnuplot_color_formula, mrcal_apply_color_map_T", "mrcal-genpywrap.py:784-1009 apply_color_map"]}
{"id": "C80", "title": "match_feature() reports the best placement in the search window, refined by a quadratic fit", "statement": "The template is image0 at the points that H10 takes to the pixels around q1_estimate (centered within half a pixel). The search considers exactly the placements no further than search_radius1 that lie inside image1; the whole-pixel match is the best of them, and the reported pixel is the estimate, plus the displacement of the best placement, plus the only critical point of the quadratic function that fits its 3x3 scores best in the least-squares sense. q1 is None only if the best placement is at the edge of the window or the fit failed. If the template appears in the window, the squared-difference methods select a placement where it appears, and the normalized correlations select one where it appears up to brightness (CCORR_NORMED) or brightness and offset (CCOEFF_NORMED). q1_estimate is the same as a translation H10; H10 is the same as any multiple of it. Exceptions: plain CCORR prefers bright spots; the critical point isn't checked, so the reported pixel can be far outside of image1 although the images match perfectly at the estimate; a template past the last pixel of image0 is accepted, and only its corners are checked, which suffices if the homography has positive depth there.", "quantifier": "All images, sizes, pixels, homographies, template sizes, search radii, methods", "why_tests_cant": "The search clips at four image edges, for all sizes; the sub-pixel fit is defined by an optimum over all quadratics, and the failures depend on rare shapes of the 3x3 scores", "anchors": ["stereo.py:1853-2046 match_feature", "mrcal-genpywrap.py:721-731 apply_homography"]}
{"id": "C81", "title": "projection_diff() compares lenses up to the rigid motion that its fit selects", "statement": "The residual of the fit in implied_Rt10__from_unprojections() is, for each pixel, its weight times the squared distance between the transformed unit direction and the other camera's unit direction; its Jacobian is the true gradient. If some rigid motion aligns the two cameras' rays exactly and the optimizer attains the least cost, the reported difference is 0 at each pixel in the focus region; at infinity a rotation is fitted, and if the region has two different directions the difference is 0 on the whole grid. Pixels that can't be unprojected don't influence the fit; uncertainties weigh as 1/(u0 u1)^2 over the whole imager, and are ignored if unavailable for some model. intrinsics_only: the difference doesn't depend on the distance. More than two models: the RMS of the pairwise differences to the first one. The sampling grid is row-major and reaches from one edge of the imager to the other. Exception: with distance=None (infinity) and focus_radius=0 the translation of the given extrinsics is applied to unit vectors, so the difference at distance 1 is reported.", "quantifier": "All lens models (as projection functions), poses, grid sizes, distances (any number), focus regions, numbers of models, all optimizers that attain the least cost", "why_tests_cant": "The claim is about the minimum of a cost function over all rigid motions, for any lens and any pattern of failed unprojections; tests compare a few stored models with a tolerance", "anchors": ["model_analysis.py:27-395 implied_Rt10__from_unprojections", "model_analysis.py:1520-1929 projection_diff", "utils.py:268-324 sample_imager"]}
{"id": "C82", "title": "model_resolution__deg_pixel() reports the extreme angular resolutions at a pixel", "statement": "Turn the observation direction v at 1 degree per unit time about any axis perpendicular to it, and consider the speed of its projection, in pixels per degree. 'min' and 'max' are the least and the greatest of the reciprocals of these speeds over all directions of turning, and both are attained. 'mean' is the mean of these two, 'eccentricity' is max/min. Other modes are refused. If the pixel moves by less than 1/1000 pixel per radian in some direction, 'max' is 1000 radians per pixel.", "quantifier": "All unit directions v, all lens models with the gradients that the model reports, all points where these are smooth, all directions of turning", "why_tests_cant": "The extremes are over a continuum of directions, for any lens and any direction; the basis that R_aligned_to_vector() selects has cases", "anchors": ["model_analysis.py:2152-2246 model_resolution__deg_pixel"]}
{"id": "C83", "title": "stereo_pair_diff() compares where two camera pairs see the same pixel of camera 0", "statement": "For each pixel q of the sampling grid: let xa be the point at the given distance along camera 0's ray through q according to the first pair, and xb the same according to the second pair. The reported difference is the pixel where camera 1 of the second pair sees xb, minus the pixel where camera 1 of the first pair sees xa; at infinity the same with directions, and the camera positions have no influence. Moving either rig as a whole by a rigid motion changes nothing, so a rig that was only moved shows a difference of 0. At infinity the returned function maps back and forth between the two cameras of a pair. There is a result exactly for two pairs of central cameras with matching imager sizes. Exception: CAHVORE models, which the code intends to support at infinity, always fail (np.norm2 doesn't exist).", "quantifier": "All lenses (as projection functions), poses, rigid motions of the rigs, grid sizes, distances", "why_tests_cant": "The invariance is over all rigid motions and all lenses; the error in the CAHVORE branch isn't reached by any test", "anchors": ["model_analysis.py:1931-2104 stereo_pair_diff"]}
{"id": "C84", "title": "write_point_cloud_as_ply() writes what the header of the file announces", "statement": "The header can be read by the rules of the .ply format, and announces the format, the number of points, x,y,z and the colors. A binary file then has exactly the announced number of records, each with the announced values in the announced order: the coordinates as floats, red/green/blue from the BGR arguments (given in either of the two ways), or the intensity; its size is the announced one. A text file without colors or with grayscale has one line per point with the announced values. Exception: a text file with BGR colors has one value too many in each line (an alpha of 255 that the header doesn't announce). Inconsistent arguments are refused.", "quantifier": "All numbers of points, array shapes, values, colors", "why_tests_cant": "The format has to hold for any number of points and any shape of the arguments; no test reads such a file back", "anchors": ["utils.py:1578-1751 write_point_cloud_as_ply"]}
{"id": "C85", "title": "The .pgm and .ppm files that mrcal_image_..._save() writes have the pixels of the image", "statement": "A reader that follows the netpbm specification finds in the file the size of the image and its pixels: 8-bit grayscale, and color in the order red, green, blue, for any distance between the rows (stride), in particular for a crop. A .pgm or .ppm file is written exactly if the image isn't empty and its channels suit the extension, in upper or lower case. Exceptions: in 16-bit files the bytes of each pixel are exchanged (netpbm requires the most significant byte first, the code writes the order of the machine); mrcal_image_..._at() refers to a pixel only if the stride is a multiple of the size of a pixel, so that color images with padded rows are accessed wrong, whereas save() reads them right.", "quantifier": "All image sizes, strides, contents, crops, file names", "why_tests_cant": "All sizes and strides; tests write and read with the same library, which hides a wrong byte order", "anchors": ["image.h:68-109 MRCAL_IMAGE_TYPE_DECLARE, MRCAL_IMAGE_ACCESSORS_DEFINE", "image.c:33-175 bgr_tofrom_rgb, get_extension, generic_save_pnm, generic_save_pgm, generic_save_ppm", "image.c:246-355 generic_save"]}
{"id": "C86", "title": "_densify_polyline() goes through all points of the polyline in steps of at most the given spacing, if no segment is very short", "statement": "The result starts at the first point, goes along the segments in their order through every point of the polyline to the last, and no step is longer than (1+1e-6) times the spacing; no segment gets more points than needed. All points of the result are on the polyline. Exceptions: a segment that is shorter than 1e-6 times the spacing (but not of length 0) is dropped with its end point, and many such segments in a row lose a piece of the polyline of any length; a polyline of one point gives an array of shape (2,) instead of (1,2).", "quantifier": "All polylines of any number of points, all positive spacings", "why_tests_cant": "All polylines and spacings; tests use a few polygons with long segments", "anchors": ["mrcal/utils.py:749-775 _densify_polyline"]}
{"id": "C87", "title": "synthesize_board_observations() returns the first acceptable poses, with the pixels where the cameras see the board in these poses", "statement": "Each returned array of pixels is the projection, by each camera, of the board of ref_calibration_object() placed with the returned pose. The center of the board is at the nominal position plus the noise, within the given radius. Exactly Nframes frames are returned; each is visible as the argument 'which' asks (all or some cameras, the full board or more than half of it) and faces the camera within the given angle. They are the first acceptable ones of the random sequence, so that asking for fewer frames gives the beginning of the same sequence. The function returns once enough acceptable poses have been drawn, and never if there are none. An unknown 'which' is refused. A board of which exactly half is visible isn't accepted.", "quantifier": "All cameras, board sizes, nominal poses, noise radii, random sequences, numbers of frames", "why_tests_cant": "Rejection sampling: the result depends on an unbounded sequence of random numbers", "anchors": ["mrcal/synthetic_data.py:236-553 synthesize_board_observations"]}
{"id": "C88", "title": "_splined_stereographic_domain() goes exactly around the area where projection with a splined model doesn't extrapolate", "statement": "The returned polyline is closed, and the points it goes through are exactly the points of the outline of the rectangle, in stereographic coordinates, that leaves out 1/2 (order 2) or 1 (order 3) segment at each edge of the grid of knots. A direction is inside of this rectangle, edges included, if and only if the piece of the surface that projection picks is one that contains the direction, in x and in y; outside, projection extrapolates. An order other than 2 or 3 is refused. With order 2 and three columns of knots the polyline is not closed, and misses a part of the outline.", "quantifier": "All legal spline configurations of any numbers of knots and any field of view in (0,360) degrees, all directions", "why_tests_cant": "Any numbers of knots; equality of two infinite sets of points; all directions", "anchors": ["mrcal/utils.py:587-646 _splined_stereographic_domain", "mrcal.c:2158-2236 _project_point_splined"]}
{"id": "C89", "title": "The ellipses plotted for a covariance are those of one standard deviation", "statement": "sorted_eig() returns the eigenvalues in ascending order, with each eigenvector still belonging to its eigenvalue, none lost or repeated. The ellipse made by _plot_arg_covariance_ellipse() reaches, in each direction, exactly as far from its center as the standard deviation in this direction; if the covariance can be inverted, it consists of exactly the points with d^T Var^-1 d = 1. There is no ellipse if and only if the covariance is 0. The ellipse made from points is that of their mean and their covariance.", "quantifier": "All matrices for sorted_eig(); all (2,2) covariance matrices (degenerate ones included), all lists of points, all valid choices of eigenvectors (either sign, any basis if the eigenvalues are equal)", "why_tests_cant": "All covariances and all valid eigenvector choices; equality of infinite sets of points", "anchors": ["mrcal/utils.py:1213-1253 sorted_eig", "mrcal/utils.py:1256-1273 _plot_arg_covariance_ellipse", "mrcal/utils.py:1276-1284 _plot_args_points_and_covariance_ellipse"]}
{"id": "C90", "title": "mrcal_image_..._load() loads what was saved, and only files of the supported formats", "statement": "A grayscale or color image saved as .pgm or .ppm and loaded again, as what it is or with the type detected, has the same size and the same pixels, for any stride of the original; the loaded image is dense. An image is loaded if and only if the file is 8-bit with 1, 3 or 4 channels or 16-bit with 1 channel, the type asked for is the detected one, 8-bit, or color for an 8-bit file, and the library can decode the file. A 16-bit image saved as .pgm doesn't come back: its bytes are exchanged.", "quantifier": "All images of any size and stride, all contents, all answers of the library", "why_tests_cant": "All sizes, strides and contents; all combinations of formats", "anchors": ["image.c:414-640 generic_load, mrcal_image_..._load", "image.c:246-355 generic_save"]}
{"id": "C91", "title": "polygon_difference() returns polygons without holes that cover exactly the area inside one polygon and outside the other", "statement": "If no warning is printed, every point off the outlines is inside exactly one of the returned polygons if it's inside the positive polygon and outside the negative one, and inside none of them otherwise. Shapes that are warned about are left out of the result; nothing else is. Those have a hole, and no line of 100 times the distance between the center of the first hole and one of its vertices cuts them. The recursion ends if each cut leaves fewer holes. A hole smaller than about 1/100 of the shape around it is never cut: then the result is empty.", "quantifier": "All polygons with any number of vertices, holes and pieces, all points; any answers of shapely that meet its contract", "why_tests_cant": "All polygons, all points of the plane, recursion of any depth", "anchors": ["mrcal/utils.py:648-746 polygon_difference"]}
{"id": "C92", "title": "The valid-intrinsics region goes around cells of the imager that pass the thresholds", "statement": "For each point of the grid the reported statistics are the mean, the standard deviation and the number of the residuals of this camera's non-outlier observations in the cell around that point (mean and deviation 0 if there are 5 or fewer). The computed region is empty, or a closed contour of 4 or more pixels of the imager, each within half a pixel of a grid point that passes the thresholds, from a contour of largest area; so it is always one that a camera model accepts. Points where the uncertainty isn't finite don't pass. A cell with a large negative bias passes, and so does a cell with fewer observations than the threshold and residuals of any size.", "quantifier": "All observations, residuals, imager and grid sizes, thresholds; any uncertainties; any contour finder that reports points of the mask", "why_tests_cant": "All data and sizes; the cells that pass wrongly aren't visible in a good calibration", "anchors": ["mrcal/calibration.py:1611-1717 _compute_valid_intrinsics_region", "mrcal/calibration.py:1720-1866 _report_regional_statistics"]}
{"id": "C93", "title": "hypothesis_board_corner_positions() splits the corners seen by a camera into inliers and outliers", "statement": "Each corner seen by the camera that's asked about (or by any camera) is reported exactly once: with the inliers if its weight is positive, with the outliers otherwise. If idx_inliers is given, the inliers are the camera's corners that are set there, in order, and the outliers are its other corners. The per-observation results have all the corners, and those of the camera. The caller's idx_inliers is overwritten: after a call for one camera, a call for any other camera with the same array reports no inliers, and all of the corners as outliers.", "quantifier": "All numbers of observations, cameras and corners, all weights, all arrays idx_inliers, all pairs of cameras", "why_tests_cant": "All sizes and selections; the overwriting shows only in a sequence of calls", "anchors": ["mrcal/utils.py:559-584 hypothesis_board_corner_positions"]}
{"id": "C94", "title": "The synthetic noisy rays for triangulation are those of the point, in the coordinates of camera 0", "statement": "_noisy_observation_vectors_for_triangulation() reports, for each sample, the projection of p into each camera plus sigma times the random numbers of that sample, the rays unprojected from these pixels in the coordinates of each camera, and both rays in the coordinates of camera 0. If the noise is 0, the ray from the origin and the ray from the position of camera 1 both go through p, forwards.", "quantifier": "All points, relative poses, lenses, noise values and numbers of samples", "why_tests_cant": "All poses and lenses; a wrong direction of the transform is compensated in symmetric test cases", "anchors": ["mrcal/synthetic_data.py:557-591 _noisy_observation_vectors_for_triangulation"]}
{"id": "C95", "title": "The ways to call a triangulation function agree, and each gives the point that was seen", "statement": "The triangulation functions accept t01 with v1 in the coordinates of camera 0, or Rt01 without gradients with v1 in the coordinates of either camera; every other combination is an exception. From rays that meet at p in front of both cameras each accepted call gives exactly p (under the non-parallelism condition of each method), and the same rays passed in different ways give the same result.", "quantifier": "All rays, poses, points and combinations of arguments; geometric, mid2, wmid2, leecivera_l1, leecivera_linf", "why_tests_cant": "All combinations of the arguments with all poses and rays; an inverted rotation is invisible with the near-identity poses of the tests", "anchors": ["mrcal/triangulation.py:27-58 _parse_args", "mrcal/triangulation.py:197-203, 347-353, 498-504, 644-650, 790-796"]}
