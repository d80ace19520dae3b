{
 "claims": [
  {
   "property": "C01",
   "status": "proved",
   "theorems": [
    "C01_state_layout_partition"
   ],
   "note": "C int modelled as unbounded Z"
  },
  {
   "property": "C02",
   "status": "proved",
   "theorems": [
    "C02_measurement_layout_partition",
    "C02_measurement_layout_order"
   ],
   "note": "the triangulated observation array must end with last_in_set"
  },
  {
   "property": "C03",
   "status": "proved",
   "theorems": [
    "C03_callback_fills_arrays"
   ],
   "note": "residual and gradient values are abstract; needs a last_in_set-terminated triangulated array and the asserted restriction on triangulated points"
  },
  {
   "property": "C04",
   "status": "proved",
   "theorems": [
    "C04_jacobian_columns",
    "C04_columns_written",
    "C04_wide_spline_refuted"
   ],
   "note": "strict ordering needs fewer than 32768 control points per row, as stated; the refuted theorem exhibits the duplicate columns beyond that; triangulated rows are in range but may be unsorted"
  },
  {
   "property": "C05",
   "status": "partial",
   "theorems": [
    "C05_outliers_keep_shape_partial",
    "C05_outlier_rows_zero",
    "C05_splined_point_columns_refuted"
   ],
   "note": "column indices of discrete-point rows of a splined model do change (refuted with a witness); everything else proved"
  },
  {
   "property": "C06",
   "status": "proved",
   "theorems": [
    "C06_pack_unpack_vector_inverse",
    "C06_pack_unpack_structures_inverse",
    "C06_locked_untouched"
   ],
   "note": "exact real arithmetic: floating-point rounding of x/s*s is not modelled; the untouched part needs no arithmetic"
  },
  {
   "property": "C07",
   "status": "proved",
   "theorems": [
    "C07_structure_packing_positions",
    "C07_structure_and_vector_packing_agree"
   ],
   "note": ""
  },
  {
   "property": "C08",
   "status": "partial",
   "theorems": [
    "C08_names_round_trip_partial",
    "C08_cahvore_two_decimals",
    "C08_cahvore_refuted"
   ],
   "note": "false for CAHVORE linearities that are not two-decimal numbers (proved refuted); true for every other model and configuration"
  },
  {
   "property": "C09",
   "status": "proved",
   "theorems": [
    "C09_parse_classifies",
    "C09_one_answer",
    "C09_type_query_agrees",
    "C09_type_query_exact",
    "C09_unconfigured_names"
   ],
   "note": "hex/inf/nan spellings of %lf not modelled"
  },
  {
   "property": "C10",
   "status": "proved",
   "theorems": [
    "C10_bounded_name_printing"
   ],
   "note": "size>=0"
  },
  {
   "property": "C11",
   "status": "proved",
   "theorems": [
    "C11_triangulated_numbering_bijection"
   ],
   "note": "square root in the decoder evaluated exactly"
  },
  {
   "property": "C12",
   "status": "proved",
   "theorems": [
    "C12_control_points_in_grid"
   ],
   "note": ""
  },
  {
   "property": "C13",
   "status": "proved",
   "theorems": [
    "C13_partition_of_unity",
    "C13_constant",
    "C13_gradients",
    "C13_C1",
    "C13_cubic_C2",
    "C13_control_gradients",
    "C13_is_bspline"
   ],
   "note": "Over the reals; also shown equal to the tensor-product B-spline of the Cox-de Boor recursion on the supported range."
  },
  {
   "property": "C14",
   "status": "proved",
   "theorems": [
    "C14_traversal"
   ],
   "note": "Nsensors>=1; std::*_heap is any implementation meeting the C++ standard"
  },
  {
   "property": "C15",
   "status": "proved",
   "theorems": [
    "C15_pairwise_index_bijection",
    "C15_no_int_overflow",
    "C15_int_overflow_refuted"
   ],
   "note": "the int computation is exact up to 46341 sensors only"
  },
  {
   "property": "C16",
   "status": "proved",
   "theorems": [
    "C16_reject_monotone",
    "C16_double",
    "C16_real"
   ],
   "note": "abstract arithmetic, instantiated with exact reals and IEEE binary64; weights not NaN for the strict part"
  },
  {
   "property": "C17",
   "status": "proved",
   "theorems": [
    "C17_loop_terminates",
    "C17_double",
    "C17_nan_weight_refuted"
   ],
   "note": "any solver behaviour incl. NaN residuals; with a NaN weight the bound fails (refuted)"
  },
  {
   "property": "C18",
   "status": "proved",
   "theorems": [
    "C18_exact_threshold",
    "C18_boards_only",
    "C18_tri_marks"
   ],
   "note": "over the reals; the set of triangulated pairs entering the variance is characterised"
  },
  {
   "property": "C19",
   "status": "partial",
   "theorems": [
    "C19_correspondence_partial",
    "C19_pose_unique",
    "C19_unseen_camera_refuted",
    "C19_triangulated_refuted"
   ],
   "note": "exact for board and point observations; false for triangulated observations (never examined) and for cameras never seen (-100 reported)"
  },
  {
   "property": "C20",
   "status": "partial",
   "theorems": [
    "C20_R_from_r_partial",
    "C20_gradient_partial",
    "C20_gradient_tiny",
    "C20_rotate_point_agrees_partial",
    "C20_tiny_refuted",
    "C20_rotate_small_refuted"
   ],
   "note": "exact over the reals for r=0 and |r|>=DBL_EPSILON (matrix) / |r|>=1e-5 (point rotation); below that the code uses approximations whose error is bounded, and exactness is refuted; the gradient is within 4|r| of the true one for 0<|r|<DBL_EPSILON"
  },
  {
   "property": "C21",
   "status": "partial",
   "theorems": [
    "C21_r_roundtrip_partial",
    "C21_R_roundtrip_partial",
    "C21_r_from_R_accurate",
    "C21_roundtrip_refuted"
   ],
   "note": "Exact round trips both ways outside angles within 1.1e-8 of 0 or pi (exact also at 0 and at half turns); for every rotation the result is within 5e-8 of a true rotation vector; exactness inside the windows is false (witnesses given)."
  },
  {
   "property": "C22",
   "status": "proved",
   "theorems": [
    "C22_transform_is_action",
    "C22_invert",
    "C22_compose",
    "C22_compose_flags",
    "C22_compose_flags_act",
    "C22_associative",
    "C22_nary"
   ],
   "note": "exact real arithmetic"
  },
  {
   "property": "C23",
   "status": "partial",
   "theorems": [
    "C23_compose_r_partial",
    "C23_transform_partial",
    "C23_invert_partial",
    "C23_transform_tiny",
    "C23_invert_tiny",
    "C23_compose_rt_partial",
    "C23_compose_identity",
    "C23_angle_refuted",
    "C23_tiny_refuted"
   ],
   "note": "rotation-vector composition is the exact product of rotations for |r0|,|r1| >= 2e-5 (within 1e-23 when the product is within 2e-8 of the identity), angle <= pi there; transform, inverse and rt composition likewise. For 0<|r|<1e-5 transform and inverse are within 1e-10 of exact, relative to the size of the rotated vector. Missing: a bound for compose with 0<|r|<2e-5. Two refutations show the general claim is false of the code: with a zero operand the angle can exceed pi; with a tiny operand next to an angle close to 2pi the result is a wrong rotation."
  },
  {
   "property": "C24",
   "status": "partial",
   "theorems": [
    "C24_default_strides",
    "C24_rotate_point_R",
    "C24_transform_point_Rt",
    "C24_rotate_point_r",
    "C24_transform_point_rt",
    "C24_compose_r",
    "C24_invert_R",
    "C24_invert_Rt",
    "C24_compose_Rt",
    "C24_invert_rt",
    "C24_compose_rt",
    "C24_in_place_as_separate",
    "C24_negative_stride_refuted"
   ],
   "note": "Ten pose functions on an explicit memory with strided arrays: the output holds the pure result of the input contents before the call, whether the output is one of the inputs or a separate array, and nothing else is written; for every positive stride and for the default stride. Refuted for stride <= 0 (reversed or broadcast numpy views), which the code reads as contiguous. Gradient outputs in memory not modelled."
  },
  {
   "property": "C25",
   "status": "proved",
   "theorems": [
    "C25_autodiff_exact",
    "C25_vector_operations"
   ],
   "note": "exact real arithmetic"
  },
  {
   "property": "C26",
   "status": "partial",
   "theorems": [
    "C26_rotate_point_r_partial",
    "C26_transform_point_rt_partial",
    "C26_invert_rt_partial",
    "C26_compose_r_partial",
    "C26_compose_rt_partial",
    "C26_Rt_gradients",
    "C26_threshold_refuted"
   ],
   "note": "every gradient the pose functions return is the Jacobian of the function computed, except exactly on the code's branch thresholds. The function jumps at |r|^2=1e-10, where no gradient can exist (refuted there)."
  },
  {
   "property": "C27",
   "status": "partial",
   "theorems": [
    "C27_left",
    "C27_right",
    "C27_left_code",
    "C27_left_tiny",
    "C27_right_tiny",
    "C27_right_code_partial",
    "C27_right_code_refuted",
    "C27_at_identity"
   ],
   "note": "the gradient is the derivative of the true composition for 2e-8 <= |r| < 2pi, and of compose_r as computed for every r (left) and every r outside [1e-8,2e-8) (right: the two functions use different thresholds and disagree there, refuted). For 0<|r|<2e-8, where the code returns the identity, it is within 2|r| of the derivative of the true composition."
  },
  {
   "property": "C28",
   "status": "proved",
   "theorems": [
    "C28_aligned"
   ],
   "note": ""
  },
  {
   "property": "C29",
   "status": "partial",
   "theorems": [
    "C29_vectors",
    "C29_points_unweighted",
    "C29_degenerate",
    "C29_points_weighted_refuted"
   ],
   "note": "LAPACK SVD is an oracle with its documented contract. Weighted point alignment is not optimal in the code (unweighted means): refuted with a witness."
  },
  {
   "property": "C30",
   "status": "partial",
   "theorems": [
    "C30_pinhole_project_unproject",
    "C30_pinhole_unproject_project",
    "C30_stereographic_project_unproject",
    "C30_stereographic_unproject_project",
    "C30_stereographic_domain",
    "C30_lonlat_unproject_project",
    "C30_latlon_unproject_project",
    "C30_unit",
    "C30_lonlat_project_unproject",
    "C30_latlon_project_unproject",
    "C30_spherical_wrap",
    "C30_lonlat_wrap_refuted"
   ],
   "note": "All four inverse pairs over the reals. project(unproject(q))=q for lonlat/latlon holds inside one turn of longitude and off the poles; outside it is false (refuted), there the two pixels mean the same direction (C30_spherical_wrap)."
  },
  {
   "property": "C31",
   "status": "proved",
   "theorems": [
    "C31_project_pinhole",
    "C31_unproject_pinhole",
    "C31_project_stereographic",
    "C31_unproject_stereographic",
    "C31_project_lonlat",
    "C31_unproject_lonlat",
    "C31_project_latlon",
    "C31_unproject_latlon"
   ],
   "note": "Derivative along every differentiable path. Domain: pinhole z<>0; stereographic not straight backwards; lonlat/latlon off the atan2 branch cut, where the projection itself jumps."
  },
  {
   "property": "C32",
   "status": "partial",
   "theorems": [
    "C32_project_independent",
    "C32_unproject_independent",
    "C32_pinhole_overwrites",
    "C32_pinhole_refuted",
    "C32_internal_with_intrinsics_gradient",
    "C32_internal_pixels",
    "C32_internal_gradient_overwritten",
    "C32_internal_refuted",
    "C32_iterative_unproject",
    "C32_iterative_step",
    "C32_stale_z_refuted"
   ],
   "note": "Independent for stereographic/lonlat/latlon, all closed-form unprojections, and mrcal_project with intrinsics gradients. False for mrcal_project_pinhole (writes q[0] for every point), for mrcal_project asked for dq_dp without dq_dintrinsics (writes block 0 for every point), and a failed mrcal_unproject leaves z stale: all refuted with witnesses."
  },
  {
   "property": "C33",
   "status": "partial",
   "theorems": [
    "C33_geometric",
    "C33_mid2",
    "C33_wmid2",
    "C33_l1",
    "C33_linf",
    "C33_defined",
    "C33_sideways_refuted"
   ],
   "note": "Geometric, mid2 and weighted mid2 for all non-parallel rays (geometric: cross product above the code threshold). L1/Linf only when the rays are not near-parallel in the (x,z) or (y,z) projections: refuted for rays perpendicular to z, where the code returns (0,0,0)."
  },
  {
   "property": "C34",
   "status": "proved",
   "theorems": [
    "C34_closest_exists",
    "C34_geometric"
   ],
   "note": "Including that the minimizer exists and is unique, and the (0,0,0) cases."
  },
  {
   "property": "C35",
   "status": "proved",
   "theorems": [
    "C35_l1_optimal",
    "C35_linf_optimal",
    "C35_result_on_both_rays"
   ],
   "note": "Over all planes through the baseline, the sum (L1) / maximum (Linf) of the two ray-plane angles is smallest for the plane used."
  },
  {
   "property": "C36",
   "status": "proved",
   "theorems": [
    "C36_sigmoid",
    "C36_sigmoid_step",
    "C36_relu",
    "C36_no_switch",
    "C36_zero_on_exact",
    "C36_nonneg"
   ],
   "note": "Real arithmetic. Also: the residual is given by one formula regardless of the convergence test, is 0 on exact observations and never negative."
  },
  {
   "property": "C37",
   "status": "proved",
   "theorems": [
    "C37_geometry",
    "C37_returned_pose",
    "C37_second_camera",
    "C37_same_row",
    "C37_latlon_center",
    "C37_succeeds"
   ],
   "note": "Real arithmetic; both rectification models."
  },
  {
   "property": "C38",
   "status": "proved",
   "theorems": [
    "C38_margin",
    "C38_auto_fails_only_if_impossible",
    "C38_auto_minimal",
    "C38_given_center",
    "C38_latlon_pixels",
    "C41_image_azimuth",
    "C38_empty_image_refuted"
   ],
   "note": "Center azimuth and margin: both models; pixel edges: C38_latlon_pixels and C41_image_azimuth (pinhole, up to rounding the width to whole pixels). Separate finding: a successful call may return an empty image (Naz=0, fx=0), C38_empty_image_refuted."
  },
  {
   "property": "C39",
   "status": "partial",
   "theorems": [
    "C39_latlon",
    "C39_pinhole",
    "C39_unproject_latlon",
    "C39_unproject_pinhole",
    "C39_always_finite",
    "C39_invalid_zero",
    "C39_valid_processed",
    "C39_dense",
    "C39_dense_invalid",
    "C39_int16",
    "C39_dense_float_refuted"
   ],
   "note": "Exact for every point and for integer disparity images. The dense path on floating-point disparities truncates them to integers: refuted with a witness."
  },
  {
   "property": "C40",
   "status": "partial",
   "theorems": [
    "C40_maps",
    "C40_overflow_refuted"
   ],
   "note": "Every pixel of every image whose pixel count fits 32 bits; for 2^16 x 2^16 images the 32-bit index wraps: refuted with a witness. Real arithmetic, so accumulated rounding is not covered."
  },
  {
   "property": "C41",
   "status": "partial",
   "theorems": [
    "C41_fov",
    "C41_found",
    "C41_image_azimuth",
    "C41_image_elevation",
    "C41_width",
    "C41_wide_elevation_refuted"
   ],
   "note": "Proved for fields of view below 180 degrees (always so in azimuth), with the eigenvalue solver returning exactly the roots. Elevation fields of view above 180 degrees are accepted and give a narrower image: refuted with a witness (240 asked, 120 returned)."
  },
  {
   "property": "C42",
   "status": "partial",
   "theorems": [
    "C42_descriptions_accepted",
    "C42_unambiguous",
    "C42_python_writer",
    "C42_c_writer",
    "C42_c_writer_precision",
    "C42_c_writer_loses_refuted",
    "C42_region_exponent_refuted",
    "C42_last_comment_refuted",
    "C42_nonfinite_refuted"
   ],
   "note": "Every text in a declarative grammar whose entries describe a camera is accepted with those values; both writers, modelled as text, are shown to be in the grammar for all lens models, sizes, notes and optional keys. Partial: the text of {:.10g} is a parameter with the contract that it is a number of the grammar; the claim is false for valid-region coordinates printed with e+, for non-finite numbers and for numbers below the six decimals of the C writer (refuted)"
  },
  {
   "property": "C43",
   "status": "partial",
   "theorems": [
    "C43_accepted_describes",
    "C43_accepted_complete",
    "C43_always_answers",
    "C43_lists_of_any_depth",
    "C43_size_given_twice_refuted",
    "C43_size_wraps_refuted"
   ],
   "note": "For every byte string: acceptance implies a text of the grammar whose entries give one valid lens model, then exactly its number of finite intrinsics once, six extrinsics consistently, and the imager size. Not as stated: the imager size may be given repeatedly while its width is 0, and sizes beyond an int wrap around (refuted)"
  },
  {
   "property": "C44",
   "status": "partial",
   "theorems": [
    "C44_legacy_names",
    "C44_accessors_agree_partial",
    "C44_every_value_is_a_pose",
    "C44_no_drift_partial",
    "C44_any_matrix",
    "C44_tiny_rotation_refuted"
   ],
   "note": "Histories of any length. Exact for rotations by 0 or at least 1e-5 rad (and, for matrices, not that close to but different from a half turn); any matrix is stored to within 5e-8. False for tiny rotations."
  },
  {
   "property": "C45",
   "status": "partial",
   "theorems": [
    "C45_set_intrinsics",
    "C45_saves_partial",
    "C45_inputs",
    "C45_copy_refuted",
    "C45_copy_writes",
    "C45_reset_refuted",
    "C45_nan_refuted",
    "C45_newline_refuted",
    "C45_pose_refuted",
    "C45_exception_refuted",
    "C45_region_refuted"
   ],
   "note": "Proved for every history of operations on an object built from values (setters, resets, copies, save+load, calls that raise) in which the optimization inputs are not reset while held, ending in printable numbers: it is written, read back to the same object with the numbers as printed, which writes the same file. False as stated: after optimization_inputs_reset() the file cannot be read; nor with nan/inf or a newline in the lens model configuration; a pose of the wrong length is accepted and then cannot be written; a setter that raises leaves a mixture; a copy cannot give its optimization inputs; a contour may gain a point."
  },
  {
   "property": "C46",
   "status": "partial",
   "theorems": [
    "C46_roundtrip_partial",
    "C46_cycles_partial",
    "C46_every_key",
    "C46_conflict_refused",
    "C46_old_name_lost_refuted",
    "C46_nan_refuted"
   ],
   "note": "Any dict with any subset of keys, any number of cycles; numpy/base85 as an exact codec. False when the old name comes with a value beside the new one set to None (the value is lost), and a nan in the frame poses can only be saved once."
  },
  {
   "property": "C47",
   "status": "partial",
   "theorems": [
    "C47_every_file",
    "C47_no_others",
    "C47_part_unique",
    "C47_frame_number",
    "C47_single_file",
    "C47_same_frame",
    "C47_understood",
    "C47_needless_refusal_refuted",
    "C47_collision_refuted",
    "C47_lone_file_refuted"
   ],
   "note": "For any number of cameras and files: every listed file and no other is mapped; with several files in a camera the frame number is the value of the one digit run that varies (unique); equal frame numbers iff equal values; equal-width numbering is always understood. Refuted parts: names with different widths can be refused or collide, a lone file is always frame 0. Names are assumed free of newlines"
  },
  {
   "property": "C48",
   "status": "partial",
   "theorems": [
    "C48_corners",
    "C48_no_frame_skipped",
    "C48_images_exist",
    "C48_accepted",
    "C48_threshold_refuted"
   ],
   "note": "order, consecutive frame indices, pairing of observations/indices/paths and which boards are kept: proved for every text. The documented threshold is off by one: an image with exactly Npoint_observations_per_board_min corners is thrown out (refuted, witness)."
  },
  {
   "property": "C49",
   "status": "partial",
   "theorems": [
    "C49_all_or_nothing_partial",
    "C49_cache_written",
    "C49_cache_is_as_good",
    "C49_other_file_system_refuted"
   ],
   "note": "proved for every history of kills when the temporary directory and the cache are on one file system; false otherwise (the temporary file is made in the system temporary directory, so shutil.move() copies): witness. Power loss is not modelled."
  },
  {
   "property": "C50",
   "status": "partial",
   "theorems": [
    "C50_roundtrip_partial",
    "C50_same_axis",
    "C50_same_cahvor_projection",
    "C50_same_pinhole",
    "C50_written_pinhole",
    "C50_written_cahvor",
    "C50_read_proper",
    "C50_read_published",
    "C50_read_published_cahvor",
    "C50_small_radial_refuted",
    "C50_negative_focal_refuted"
   ],
   "note": "exact round trip of pose, focal lengths, center, angles and distortion for the vectors, and agreement with the published CAHV/CAHVOR formulas in both directions. False for a CAHVOR radial distortion with |R|<1e-8 (dropped) and for a single negative focal length: witnesses. The text (10 decimals) is not modelled."
  },
  {
   "property": "C51",
   "status": "partial",
   "theorems": [
    "C51_ingest_partial",
    "C51_reproduces_partial",
    "C51_wrong_size",
    "C51_partial_intrinsics_refuted",
    "C51_no_fixed_points_refuted",
    "C51_pinhole_refuted",
    "C51_empty_refuted"
   ],
   "note": "Proved for every problem in which all or none of the intrinsics are optimized (or there is one camera) and some point is fixed if there are points. False otherwise: with several cameras and only the core or only the distortions optimized the intrinsics are silently not updated (ravel() of a non-contiguous slice is a copy); with points and none fixed it raises after changing the poses (slice [:-0]); a distortion-less lens with only the core selected raises; with nothing to optimize unpack_state() divides by zero."
  },
  {
   "property": "C52",
   "status": "proved",
   "theorems": [
    "C52_worst_direction",
    "C52_zero_only_without_uncertainty",
    "C52_one_dimension"
   ],
   "note": "Over the reals; the sparse eigenvalue path for sizes above 2x2 is not modelled"
  },
  {
   "property": "C53",
   "status": "proved",
   "theorems": [
    "C53_accumulation",
    "C53_order",
    "C53_solve",
    "C53_from_callback",
    "C53_pose_motion",
    "C53_point_motion",
    "C53_refuses_points_with_warp",
    "C53_refuses_points_only",
    "C53_refuses_camera_without_intrinsics",
    "C53_refuses_warpless_rows"
   ],
   "note": "For every list of board and point rows, in any order, the packed sums the kernel keeps per camera/frame/point and flushes on a change give the plain sum over the measurements of (gradient wrt the motion) x (gradient wrt each variable), each once; the rows of the optimizer callback are of that form; the matrices used are the derivatives of moving a pose or a point; with LAPACK solving the 6x6 system the result satisfies the normal equations. Also which problems are refused: points together with board warp, points only, a camera choice with locked intrinsics, any point observation with an optimized warp."
  },
  {
   "property": "C54",
   "status": "partial",
   "theorems": [
    "C54_counts_mod_2_16",
    "C54_counts",
    "C54_refused",
    "C54_links_kept",
    "C54_wraps_refuted",
    "C54_repeated_refuted"
   ],
   "note": "Exact for every sorted list with each camera at most once per frame and fewer than 65536 rows; the uint16 counters wrap at 65536 shared frames and repeated rows are counted repeatedly (refuted)"
  },
  {
   "property": "C55",
   "status": "partial",
   "theorems": [
    "C55_stretch_partial",
    "C55_first_pixel_refuted",
    "C55_goes_black_refuted",
    "C55_constant_refuted"
   ],
   "note": "In binary32 arithmetic, for every image: monotone, min to 0, max to 255, within half a step of linear, provided the image is not constant and its maximum is not only the first pixel. False otherwise: the scan misses a maximum at the first pixel and a constant image divides 0 by 0 (refuted)"
  },
  {
   "property": "C56",
   "status": "proved",
   "theorems": [
    "C56_terminates",
    "C56_tracks",
    "C56_not_refused"
   ],
   "note": "The result is the largest self-consistent part of the observations, renumbered consecutively and in order, and it is found whenever it is large enough"
  },
  {
   "property": "C57",
   "status": "partial",
   "theorems": [
    "C57_jacobian_sparsity_partial"
   ],
   "note": "exact, except outlier rows of points seen by a splined camera, which have the wrong columns (C05_splined_point_columns_refuted), and splined models with 32768 or more control points per row (C04_wide_spline_refuted)"
  },
  {
   "property": "C58",
   "status": "proved",
   "theorems": [
    "C58_rows_in_place"
   ],
   "note": ""
  },
  {
   "property": "C59",
   "status": "proved",
   "theorems": [
    "C59_opencv_all_written",
    "C59_opencv_gradients",
    "C59_opencv_scale",
    "C59_opencv_pinhole"
   ],
   "note": "Real arithmetic; domain: z<>0 and nonzero rational denominator."
  },
  {
   "property": "C60",
   "status": "proved",
   "theorems": [
    "C60_cahvor_gradients",
    "C60_cahvor_scale",
    "C60_cahvor_pinhole"
   ],
   "note": "Real arithmetic; domain as stated in the theorem."
  },
  {
   "property": "C61",
   "status": "proved",
   "theorems": [
    "C61_splined_gradients",
    "C61_splined_chain",
    "C61_splined_stereographic",
    "C61_splined_scale",
    "C61_knots",
    "C61_fov"
   ],
   "note": "For legal configurations with 2*Nx<65536 (beyond that ivar_stridey overflows uint16: see the refuted theorem of that finding)."
  },
  {
   "property": "C62",
   "status": "partial",
   "theorems": [
    "C62_sound_partial",
    "C62_closed",
    "C62_noncentral_refused",
    "C62_cahvore_partial",
    "C62_callback_jacobian",
    "C62_cahvore_behind_refuted",
    "C62_refused_is_origin_refuted",
    "C62_error_accepted_refuted",
    "C62_nan_accepted_refuted"
   ],
   "note": "Proved for every model and pixel if the inner solver reports neither an error nor NaN (CAHVORE: and stopped at a seen direction not behind the camera). False otherwise: an error (negative cost) and NaN count as success; an exact CAHVORE fisheye solution behind the camera is turned around to a wrong direction; pixel (0,0) is matched by any refused CAHVORE projection."
  },
  {
   "property": "C63",
   "status": "proved",
   "theorems": [
    "C63_geometric",
    "C63_mid2",
    "C63_wmid2",
    "C63_l1",
    "C63_linf",
    "C63_lindstrom",
    "C63_residual",
    "C63_same_outcome"
   ],
   "note": "Geometric, mid2, wmid2: whenever the method succeeds. L1, Linf, Lindstrom, residual: away from ties, stated as hypotheses."
  },
  {
   "property": "C64",
   "status": "partial",
   "theorems": [
    "C64_exact",
    "C64_paper",
    "C64_second_step_refuted",
    "C64_rectified"
   ],
   "note": "Exact observations: proved. The published correction has the stated properties (C64_paper) but the code scales the second step by the inverse factor: refuted with a witness whose corrected rays do not meet. For rectified pairs (R=I, tz=0) the code is optimal."
  },
  {
   "property": "C65",
   "status": "partial",
   "theorems": [
    "C65_newton_step",
    "C65_newton_converged",
    "C65_entrance_pupil",
    "C65_central_scale",
    "C65_perspective_is_cahvor",
    "C65_near_axis",
    "C65_outside_refused",
    "C65_perspective_behind",
    "C65_family",
    "C65_linearity1_pinhole",
    "C65_linearity_half_stereographic",
    "C65_gradients",
    "C65_same_with_gradients",
    "C65_failure",
    "C65_failure_clears_gradients_refuted",
    "C65_success",
    "C65_central_regular"
   ],
   "note": "Everything is proved except the zeroing on failure, which is false: only the first row of each gradient array is cleared, the second keeps what was there. Gradients are proved for every E, wherever the branches taken do not sit exactly on a boundary."
  },
  {
   "property": "C66",
   "status": "partial",
   "theorems": [
    "C66_jacobian",
    "C66_partial_derivatives"
   ],
   "note": "Proved for every problem and every row along every path of states, for every lens model. Missing: states with a rotation inside the small-angle branches (norm of a frame rotation or joint rotation below DBL_EPSILON, camera rotation at the 1e-10 threshold), where the computed residual itself is not differentiable or is constant, and points exactly on a branch boundary of a lens model or of the triangulated-point residual."
  },
  {
   "property": "C67",
   "status": "partial",
   "theorems": [
    "C67_board_partial",
    "C67_point_partial",
    "C67_triangulated_partial",
    "C67_triangulated_exact",
    "C67_regularization"
   ],
   "note": "Proved for every problem and row. Missing: poses at which compose_r()/R_from_r() are inexact (tiny nonzero rotations, joint rotation within 2e-8 of the identity), a warped board one corner wide (the code divides 0 by 0), and a triangulated pair with both cameras at the reference (the code dereferences NULL)."
  },
  {
   "property": "C68",
   "status": "proved",
   "theorems": [
    "C68_covariance",
    "C68_one_solution",
    "C68_rms",
    "C68_symmetric_psd",
    "C68_refused"
   ],
   "note": "For every problem and every F: the array the code computes is the covariance of the change of F for the (unique) re-solved linearized problem, through both formulas (with and without regularization) and both sparse products. CHOLMOD is an oracle (contract: factorization of JtJ and solves with its parts)."
  },
  {
   "property": "C69",
   "status": "proved",
   "theorems": [
    "C69_noise_level"
   ],
   "note": "Exact without regularization, an upper estimate with it. Requires more inlier measurements than states (otherwise the code divides by zero or takes the root of a negative number)."
  },
  {
   "property": "C70",
   "status": "partial",
   "theorems": [
    "C70_ccp",
    "C70_propagated",
    "C70_mean_pcam_partial",
    "C70_mean_pcam_fixed_partial",
    "C70_rrp_partial",
    "C70_answers",
    "C70_paths_exist",
    "C70_points_exist",
    "C70_fixed_intrinsics_refuted",
    "C70_fixed_extrinsics_refuted"
   ],
   "note": "The default method is proved in full. The older methods: rotations that are zero or larger than 1e-5. False of the code: the older methods fail with UnboundLocalError when the intrinsics are not optimized, TypeError when the camera pose is not optimized."
  },
  {
   "property": "C71",
   "status": "partial",
   "theorems": [
    "C71_ref_object",
    "C71_corner_positions_partial",
    "C71_boards_partial",
    "C71_points_partial",
    "C71_only_observations",
    "C71_outliers_refuted"
   ],
   "note": "Exact except for the tiny rotations of C67. False of the code: with noise (the default) an outlier gets weight 1, because the weights are clamped through a view of the observations."
  },
  {
   "property": "C72",
   "status": "partial",
   "theorems": [
    "C72_central",
    "C72_behind_flag",
    "C72_distance",
    "C72_infinity",
    "C72_intrinsics_only",
    "C72_plane",
    "C72_plane_point",
    "C72_plane_refused",
    "C72_far",
    "C72_opencv_partial",
    "C72_opencv_refuted",
    "C72_plane_sign_refuted"
   ],
   "note": "Everything holds of the general path with plane_d > 0. False of the code: the OpenCV path ignores relative rotations below 1e-6; plane_d < 0 reverses the rays. unproject() as in C62 and OpenCV as documented are assumptions of the theorems."
  },
  {
   "property": "C73",
   "status": "proved",
   "theorems": [
    "C73_R_from_quat",
    "C73_axis_angle",
    "C73_quat_from_R",
    "C73_quat_back",
    "C73_documented_angle",
    "C73_qt",
    "C73_qt_back"
   ],
   "note": "Vectorised model of quat_from_R() with the masked assignments. Doubles are real numbers."
  },
  {
   "property": "C74",
   "status": "proved",
   "theorems": [
    "C74_closed",
    "C74_iterative",
    "C74_normalized",
    "C74_refused",
    "C74_orthogonal"
   ],
   "note": "Along every differentiable path of pixel and intrinsics. Lens differentiable on the ray; central lens (CAHVORE with E=0) for the normalized vector. Doubles are real numbers, np.linalg.solve() exact."
  },
  {
   "property": "C75",
   "status": "partial",
   "theorems": [
    "C75_gradient",
    "C75_reported",
    "C75_observation",
    "C75_observation_symmetric",
    "C75_outputs",
    "C75_refused",
    "C75_pinhole_refuted"
   ],
   "note": "Along every differentiable path of packed states and pixels, for all methods but lindstrom. Refuted: with a lens of 4 parameters and do_optimize_intrinsics_distortions=False no covariance is returned. Missing: rotations that are nonzero but tiny; points where a method is not differentiable (l1 and linf switch branches). Doubles are real numbers."
  },
  {
   "property": "C76",
   "status": "partial",
   "theorems": [
    "C76_fit",
    "C76_in_view",
    "C76_scale_image",
    "C76_arguments",
    "C76_centered_refuted",
    "C76_center_0_refuted"
   ],
   "note": "Refuted when a query ray is exactly on the vertical or horizontal through the center (division by zero), and for scale_image when cx or cy is 0. Doubles are real numbers with signed zeros, infinities and NaN."
  },
  {
   "property": "C77",
   "status": "proved",
   "theorems": [
    "C77_resolution",
    "C77_rectified"
   ],
   "note": "Over real numbers; the differentiability conditions of each lens at the center direction are hypotheses (lens_smooth)."
  },
  {
   "property": "C78",
   "status": "proved",
   "theorems": [
    "C78_cameras",
    "C78_frames",
    "C78_frames_dense",
    "C78_seed",
    "C78_camera_order_refuted",
    "C78_frame_gap_refuted"
   ],
   "note": "Over real numbers: exact data gives the exact seed. The poses are returned through rt_from_Rt() (see C23). LAPACK is assumed to succeed and to return a decomposition."
  },
  {
   "property": "C79",
   "status": "proved",
   "theorems": [
    "C79_formula",
    "C79_linear",
    "C79_refused",
    "C79_default_order",
    "C79_negative_data_refuted",
    "C79_negative_bound_refuted",
    "C79_span_refuted"
   ],
   "note": "float and double are real numbers: rounding in the float arithmetic, and NaN, are not modelled."
  },
  {
   "property": "C80",
   "status": "proved",
   "theorems": [
    "C80_match",
    "C80_no_match",
    "C80_exact",
    "C80_fit",
    "C80_translation",
    "C80_scale",
    "C80_template_inside",
    "C80_ccorr_refuted",
    "C80_far_refuted",
    "C80_edge_refuted",
    "C80_corners_refuted"
   ],
   "note": "The code computes q0, q1 and H10 in float32 and the scores in single precision; here they are real numbers. np.linalg.lstsq() is an argument with the hypothesis that it reports a least-squares solution; cv2.remap() an argument, that reports the pixels at whole pixels where a theorem needs that."
  },
  {
   "property": "C81",
   "status": "partial",
   "theorems": [
    "C81_residual",
    "C81_gradient_partial",
    "C81_fit",
    "C81_fit_infinity",
    "C81_same_lens",
    "C81_same_lens_infinity",
    "C81_uncertainties",
    "C81_fallback",
    "C81_intrinsics_only",
    "C81_many",
    "C81_report",
    "C81_too_few",
    "C81_refuses",
    "C81_grid",
    "C81_infinity_refuted"
   ],
   "note": "The gradient is not shown at |r| = 1e-5, where it does not exist (C26_threshold_refuted); rotations with 0 < |r| < 1e-5 are excluded from the exact statements, since rotate_point_r() is approximate there (C20). The optimizer is an argument with the hypothesis that it reports a least-cost solution if one is attained. C81_same_lens is stated without uncertainties; C81_fit has any weights."
  },
  {
   "property": "C82",
   "status": "proved",
   "theorems": [
    "C82_resolution",
    "C82_limit"
   ],
   "note": ""
  },
  {
   "property": "C83",
   "status": "partial",
   "theorems": [
    "C83_reports",
    "C83_rig_moved",
    "C83_same_rig",
    "C83_back_and_forth",
    "C83_refuses",
    "C83_cahvore_refuted"
   ],
   "note": "C83_cahvore_refuted: the CAHVORE branch of the code raises an exception where the comment there says that it works."
  },
  {
   "property": "C84",
   "status": "partial",
   "theorems": [
    "C84_binary",
    "C84_ascii_partial",
    "C84_ascii_colors_refuted",
    "C84_refuses"
   ],
   "note": "C84_ascii_colors_refuted: colored text files have 7 values per line, where the header announces 6."
  },
  {
   "property": "C85",
   "status": "partial",
   "theorems": [
    "C85_gray",
    "C85_color",
    "C85_16bit_partial",
    "C85_16bit_refuted",
    "C85_when",
    "C85_at_partial",
    "C85_at_refuted",
    "C85_crop_saved"
   ],
   "note": "C85_16bit_refuted: 16-bit .pgm files have the wrong byte order. C85_at_refuted: at() ignores the remainder of the stride."
  },
  {
   "property": "C86",
   "status": "partial",
   "theorems": [
    "C86_walk_partial",
    "C86_hits_partial",
    "C86_gap_partial",
    "C86_on",
    "C86_economic",
    "C86_refuted",
    "C86_one_point_refuted",
    "C86_none"
   ],
   "note": "C86_refuted: segments shorter than 1e-6 spacing are dropped. C86_one_point_refuted: the shape for one point."
  },
  {
   "property": "C87",
   "status": "proved",
   "theorems": [
    "C87_pixels",
    "C87_pose",
    "C87_radius",
    "C87_acceptable",
    "C87_first",
    "C87_prefix",
    "C87_returns",
    "C87_runs_forever",
    "C87_refused",
    "C87_exactly_half_refuted"
   ],
   "note": "C87_exactly_half_refuted: the documentation of \"which\" says AT LEAST HALF; a board of which exactly half is visible is thrown out."
  },
  {
   "property": "C88",
   "status": "partial",
   "theorems": [
    "C88_contour_partial",
    "C88_inside",
    "C88_refused",
    "C88_three_columns_refuted"
   ],
   "note": "C88_contour_partial needs at least 4 columns for order 2; with 3, the contour has a gap: C88_three_columns_refuted."
  },
  {
   "property": "C89",
   "status": "proved",
   "theorems": [
    "C89_sorted_eig",
    "C89_ellipse",
    "C89_none",
    "C89_points"
   ],
   "note": "The contracts of np.linalg.eig() (normalized independent eigenvectors) and np.argsort() are hypotheses; C89_ex shows they can be met."
  },
  {
   "property": "C90",
   "status": "proved",
   "theorems": [
    "C90_loads",
    "C90_can_load",
    "C90_gray_roundtrip",
    "C90_color_roundtrip",
    "C90_no_file",
    "C90_16bit_refuted"
   ],
   "note": "The round trip needs that stb_image reads netpbm files as their specification says (hypothesis follows; C90_ex meets it). C90_16bit_refuted: 16-bit .pgm files are written in the byte order of the machine."
  },
  {
   "property": "C91",
   "status": "proved",
   "theorems": [
    "C91_tiles",
    "C91_exact",
    "C91_warned",
    "C91_finishes",
    "C91_small_hole",
    "C91_small_hole_refuted"
   ],
   "note": "Relies on contracts of shapely, met by the example. C91_small_hole_refuted: the claim that the whole difference is covered is false of polygons with a small hole, since the cutting line is too short; the result is empty with a warning."
  },
  {
   "property": "C92",
   "status": "proved",
   "theorems": [
    "C92_statistics",
    "C92_mask",
    "C92_region",
    "C92_accepted",
    "C92_bias_refuted",
    "C92_few_refuted"
   ],
   "note": "contours_ok is assumed of cv2.findContours(), met by C92_example. The two _refuted theorems show cells that pass although biased or nearly unobserved."
  },
  {
   "property": "C93",
   "status": "proved",
   "theorems": [
    "C93_given",
    "C93_default",
    "C93_all",
    "C93_overwritten",
    "C93_overwritten_refuted"
   ],
   "note": "C93_overwritten is a defect of the code: an argument is modified, so calls in a loop over cameras report wrong inliers."
  },
  {
   "property": "C94",
   "status": "proved",
   "theorems": [
    "C94_samples",
    "C94_meet"
   ],
   "note": "C94_meet assumes that each lens unprojects the pixel of a point to the direction of the point (C30 and others prove this of the lens models)."
  },
  {
   "property": "C95",
   "status": "proved",
   "theorems": [
    "C95_accepted",
    "C95_exact",
    "C95_agree"
   ],
   "note": "The conditions on parallel rays are those of C33. With get_gradients the point is taken to be that of the routine without gradients (see C63)."
  }
 ]
}