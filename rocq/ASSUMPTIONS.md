# What `Print Assumptions` prints for each theorem of MANIFEST.json

Collected from the build log (`make` prints the same). All are axioms of the Coq standard library:

- **D2**: `ClassicalDedekindReals.sig_forall_dec`
- **D1**: `ClassicalDedekindReals.sig_not_dec`
- **C**: `Classical_Prop.classic`
- **F**: `FunctionalExtensionality.functional_extensionality_dep`
- **classic**: `classic`
- **F**: `functional_extensionality_dep`

"none": closed under the global context.

| property | theorem | file | axioms |
|---|---|---|---|
| C01 | `C01_state_layout_partition` | C_Layout.v | none |
| C02 | `C02_measurement_layout_partition` | C_Layout.v | none |
| C02 | `C02_measurement_layout_order` | C_Layout.v | none |
| C03 | `C03_callback_fills_arrays` | C_Callback.v | none |
| C04 | `C04_jacobian_columns` | C_Callback.v | none |
| C04 | `C04_columns_written` | C_Callback.v | none |
| C04 | `C04_wide_spline_refuted` | C_Callback.v | none |
| C05 | `C05_outliers_keep_shape_partial` | C_Callback.v | none |
| C05 | `C05_outlier_rows_zero` | C_Callback.v | none |
| C05 | `C05_splined_point_columns_refuted` | C_Callback.v | none |
| C06 | `C06_pack_unpack_vector_inverse` | C_Pack.v | D1, D2, F |
| C06 | `C06_pack_unpack_structures_inverse` | C_Pack.v | D1, D2, F |
| C06 | `C06_locked_untouched` | C_Pack.v | D1, D2, F |
| C07 | `C07_structure_packing_positions` | C_Pack.v | D1, D2, F |
| C07 | `C07_structure_and_vector_packing_agree` | C_Pack.v | D1, D2, F |
| C08 | `C08_names_round_trip_partial` | C_Names.v | none |
| C08 | `C08_cahvore_two_decimals` | C_Names.v | none |
| C08 | `C08_cahvore_refuted` | C_Names.v | none |
| C09 | `C09_parse_classifies` | C_Names.v | none |
| C09 | `C09_one_answer` | C_Names.v | none |
| C09 | `C09_type_query_agrees` | C_Names.v | none |
| C09 | `C09_type_query_exact` | C_Names.v | none |
| C09 | `C09_unconfigured_names` | C_Names.v | none |
| C10 | `C10_bounded_name_printing` | C_Names.v | none |
| C11 | `C11_triangulated_numbering_bijection` | C_Layout.v | none |
| C12 | `C12_control_points_in_grid` | C_Callback.v | none |
| C13 | `C13_partition_of_unity` | C_Spline.v | D2, F |
| C13 | `C13_constant` | C_Spline.v | D2, F |
| C13 | `C13_gradients` | C_Spline.v | C, D1, D2, F |
| C13 | `C13_C1` | C_Spline.v | C, D1, D2, F |
| C13 | `C13_cubic_C2` | C_Spline.v | C, D1, D2, F |
| C13 | `C13_control_gradients` | C_Spline.v | C, D1, D2, F |
| C13 | `C13_is_bspline` | C_Spline.v | D2, F |
| C14 | `C14_traversal` | C_Traverse.v | none |
| C15 | `C15_pairwise_index_bijection` | C_Traverse.v | none |
| C15 | `C15_no_int_overflow` | C_Traverse.v | none |
| C15 | `C15_int_overflow_refuted` | C_Traverse.v | none |
| C16 | `C16_reject_monotone` | C_Mark.v | none |
| C16 | `C16_double` | C_Mark.v | C, D1, D2, F |
| C16 | `C16_real` | C_Mark.v | D2, F |
| C17 | `C17_loop_terminates` | C_Mark.v | none |
| C17 | `C17_double` | C_Mark.v | C, D1, D2, F |
| C17 | `C17_nan_weight_refuted` | C_Mark.v | C, D1, D2, F |
| C18 | `C18_exact_threshold` | C_Mark.v | D1, D2, F |
| C18 | `C18_boards_only` | C_Mark.v | D1, D2, F |
| C18 | `C18_tri_marks` | C_Mark.v | D1, D2, F |
| C19 | `C19_correspondence_partial` | C_Corr.v | none |
| C19 | `C19_pose_unique` | C_Corr.v | none |
| C19 | `C19_unseen_camera_refuted` | C_Corr.v | none |
| C19 | `C19_triangulated_refuted` | C_Corr.v | none |
| C20 | `C20_R_from_r_partial` | C_Rodrigues.v | D1, D2, F |
| C20 | `C20_gradient_partial` | C_Rodrigues.v | C, D1, D2, F |
| C20 | `C20_gradient_tiny` | C_Rodrigues.v | C, D1, D2, F |
| C20 | `C20_rotate_point_agrees_partial` | C_Rodrigues.v | C, D1, D2, F |
| C20 | `C20_tiny_refuted` | C_Rodrigues.v | C, D1, D2, F |
| C20 | `C20_rotate_small_refuted` | C_Rodrigues.v | C, D1, D2, F |
| C21 | `C21_r_roundtrip_partial` | C_RfromR.v | C, D1, D2, F |
| C21 | `C21_R_roundtrip_partial` | C_RfromR.v | C, D1, D2, F |
| C21 | `C21_r_from_R_accurate` | C_RfromR.v | C, D1, D2, F |
| C21 | `C21_roundtrip_refuted` | C_RfromR.v | C, D1, D2, F |
| C22 | `C22_transform_is_action` | C_Rt.v | D2 |
| C22 | `C22_invert` | C_Rt.v | D2, F |
| C22 | `C22_compose` | C_Rt.v | D2, F |
| C22 | `C22_compose_flags` | C_Rt.v | D2, F |
| C22 | `C22_compose_flags_act` | C_Rt.v | D2, F |
| C22 | `C22_associative` | C_Rt.v | D2, F |
| C22 | `C22_nary` | C_Rt.v | D2, F |
| C23 | `C23_compose_r_partial` | C_RtVec.v | C, D1, D2, F |
| C23 | `C23_transform_partial` | C_RtVec.v | C, D1, D2, F |
| C23 | `C23_invert_partial` | C_RtVec.v | C, D1, D2, F |
| C23 | `C23_transform_tiny` | C_RtVec.v | C, D1, D2, F |
| C23 | `C23_invert_tiny` | C_RtVec.v | C, D1, D2, F |
| C23 | `C23_compose_rt_partial` | C_RtVec.v | C, D1, D2, F |
| C23 | `C23_compose_identity` | C_RtVec.v | C, D1, D2, F |
| C23 | `C23_angle_refuted` | C_RtVec.v | C, D1, D2, F |
| C23 | `C23_tiny_refuted` | C_RtVec.v | C, D1, D2, F |
| C24 | `C24_default_strides` | C_InPlace.v | none |
| C24 | `C24_rotate_point_R` | C_InPlace.v | D2, F |
| C24 | `C24_transform_point_Rt` | C_InPlace.v | D2, F |
| C24 | `C24_rotate_point_r` | C_InPlace.v | C, D1, D2, F |
| C24 | `C24_transform_point_rt` | C_InPlace.v | C, D1, D2, F |
| C24 | `C24_compose_r` | C_InPlace.v | C, D1, D2, F |
| C24 | `C24_invert_R` | C_InPlace.v | none |
| C24 | `C24_invert_Rt` | C_InPlace.v | D2, F |
| C24 | `C24_compose_Rt` | C_InPlace.v | D2, F |
| C24 | `C24_invert_rt` | C_InPlace.v | C, D1, D2, F |
| C24 | `C24_compose_rt` | C_InPlace.v | C, D1, D2, F |
| C24 | `C24_in_place_as_separate` | C_InPlace.v | C, D1, D2, F |
| C24 | `C24_negative_stride_refuted` | C_InPlace.v | D2, F |
| C25 | `C25_autodiff_exact` | C_Dual.v | C, D1, D2, F |
| C25 | `C25_vector_operations` | C_Dual.v | C, D1, D2, F |
| C26 | `C26_rotate_point_r_partial` | C_PoseGrad.v | C, D1, D2, F |
| C26 | `C26_transform_point_rt_partial` | C_PoseGrad.v | C, D1, D2, F |
| C26 | `C26_invert_rt_partial` | C_PoseGrad.v | C, D1, D2, F |
| C26 | `C26_compose_r_partial` | C_PoseGrad.v | C, D1, D2, F |
| C26 | `C26_compose_rt_partial` | C_PoseGrad.v | C, D1, D2, F |
| C26 | `C26_Rt_gradients` | C_PoseGrad.v | C, D1, D2, F |
| C26 | `C26_threshold_refuted` | C_PoseGrad.v | C, D1, D2, F |
| C27 | `C27_left` | C_TinyGrad.v | C, D1, D2, F |
| C27 | `C27_right` | C_TinyGrad.v | C, D1, D2, F |
| C27 | `C27_left_code` | C_TinyGrad.v | C, D1, D2, F |
| C27 | `C27_left_tiny` | C_TinyGrad.v | C, D1, D2, F |
| C27 | `C27_right_tiny` | C_TinyGrad.v | C, D1, D2, F |
| C27 | `C27_right_code_partial` | C_TinyGrad.v | C, D1, D2, F |
| C27 | `C27_right_code_refuted` | C_TinyGrad.v | C, D1, D2, F |
| C27 | `C27_at_identity` | C_TinyGrad.v | D1, D2, F |
| C28 | `C28_aligned` | C_Align.v | D1, D2, F |
| C29 | `C29_vectors` | C_Align.v | D2, F |
| C29 | `C29_points_unweighted` | C_Align.v | D2, F |
| C29 | `C29_degenerate` | C_Align.v | D2, F |
| C29 | `C29_points_weighted_refuted` | C_Align.v | D2, F |
| C30 | `C30_pinhole_project_unproject` | C_Project.v | D2, F |
| C30 | `C30_pinhole_unproject_project` | C_Project.v | D2, F |
| C30 | `C30_stereographic_project_unproject` | C_Project.v | D1, D2, F |
| C30 | `C30_stereographic_unproject_project` | C_Project.v | D1, D2, F |
| C30 | `C30_stereographic_domain` | C_Project.v | D1, D2, F |
| C30 | `C30_lonlat_unproject_project` | C_Project.v | C, D1, D2, F |
| C30 | `C30_latlon_unproject_project` | C_Project.v | C, D1, D2, F |
| C30 | `C30_unit` | C_Project.v | D1, D2, F |
| C30 | `C30_lonlat_project_unproject` | C_Project.v | C, D1, D2, F |
| C30 | `C30_latlon_project_unproject` | C_Project.v | C, D1, D2, F |
| C30 | `C30_spherical_wrap` | C_Project.v | C, D1, D2, F |
| C30 | `C30_lonlat_wrap_refuted` | C_Project.v | C, D1, D2, F |
| C31 | `C31_project_pinhole` | C_ProjectGrad.v | C, D1, D2, F |
| C31 | `C31_unproject_pinhole` | C_ProjectGrad.v | C, D1, D2, F |
| C31 | `C31_project_stereographic` | C_ProjectGrad.v | C, D1, D2, F |
| C31 | `C31_unproject_stereographic` | C_ProjectGrad.v | C, D1, D2, F |
| C31 | `C31_project_lonlat` | C_ProjectGrad.v | C, D1, D2, F |
| C31 | `C31_unproject_lonlat` | C_ProjectGrad.v | C, D1, D2, F |
| C31 | `C31_project_latlon` | C_ProjectGrad.v | C, D1, D2, F |
| C31 | `C31_unproject_latlon` | C_ProjectGrad.v | C, D1, D2, F |
| C32 | `C32_project_independent` | C_Batch.v | none |
| C32 | `C32_unproject_independent` | C_Batch.v | none |
| C32 | `C32_pinhole_overwrites` | C_Batch.v | D2, F |
| C32 | `C32_pinhole_refuted` | C_Batch.v | D2, F |
| C32 | `C32_internal_with_intrinsics_gradient` | C_Batch.v | none |
| C32 | `C32_internal_pixels` | C_Batch.v | none |
| C32 | `C32_internal_gradient_overwritten` | C_Batch.v | none |
| C32 | `C32_internal_refuted` | C_Batch.v | D1, D2, F |
| C32 | `C32_iterative_unproject` | C_Batch.v | D1, D2, F |
| C32 | `C32_iterative_step` | C_Batch.v | D1, D2, F |
| C32 | `C32_stale_z_refuted` | C_Batch.v | D1, D2, F |
| C33 | `C33_geometric` | C_Triangulate.v | C, D1, D2, F |
| C33 | `C33_mid2` | C_Triangulate.v | C, D1, D2, F |
| C33 | `C33_wmid2` | C_Triangulate.v | C, D1, D2, F |
| C33 | `C33_l1` | C_Triangulate.v | C, D1, D2, F |
| C33 | `C33_linf` | C_Triangulate.v | C, D1, D2, F |
| C33 | `C33_defined` | C_Triangulate.v | D1, D2, F |
| C33 | `C33_sideways_refuted` | C_Triangulate.v | C, D1, D2, F |
| C34 | `C34_closest_exists` | C_Triangulate.v | D2, F |
| C34 | `C34_geometric` | C_Triangulate.v | C, D1, D2, F |
| C35 | `C35_l1_optimal` | C_LeeCivera.v | C, D1, D2, F |
| C35 | `C35_linf_optimal` | C_LeeCivera.v | C, D1, D2, F |
| C35 | `C35_result_on_both_rays` | C_LeeCivera.v | C, D1, D2, F |
| C36 | `C36_sigmoid` | C_TriError.v | C, D1, D2, F |
| C36 | `C36_sigmoid_step` | C_TriError.v | C, D1, D2, F |
| C36 | `C36_relu` | C_TriError.v | C, D1, D2, F |
| C36 | `C36_no_switch` | C_TriError.v | C, D1, D2, F |
| C36 | `C36_zero_on_exact` | C_TriError.v | C, D1, D2, F |
| C36 | `C36_nonneg` | C_TriError.v | C, D1, D2, F |
| C37 | `C37_geometry` | C_Rectified.v | C, D1, D2, F |
| C37 | `C37_returned_pose` | C_Rectified.v | C, D1, D2, F |
| C37 | `C37_second_camera` | C_Rectified.v | D1, D2, F |
| C37 | `C37_same_row` | C_Rectified.v | C, D1, D2, F |
| C37 | `C37_latlon_center` | C_Rectified.v | C, D1, D2, F |
| C37 | `C37_succeeds` | C_Rectified.v | D1, D2, F |
| C38 | `C38_margin` | C_Rectified.v | C, D1, D2, F |
| C38 | `C38_auto_fails_only_if_impossible` | C_Rectified.v | C, D1, D2, F |
| C38 | `C38_auto_minimal` | C_Rectified.v | C, D1, D2, F |
| C38 | `C38_given_center` | C_Rectified.v | C, D1, D2, F |
| C38 | `C38_latlon_pixels` | C_Rectified.v | C, D1, D2, F |
| C38 | `C41_image_azimuth` | C_PinholeFov.v | C, D1, D2, F |
| C38 | `C38_empty_image_refuted` | C_Rectified.v | C, D1, D2, F |
| C39 | `C39_latlon` | C_StereoRange.v | C, D1, D2, F |
| C39 | `C39_pinhole` | C_StereoRange.v | C, D1, D2, F |
| C39 | `C39_unproject_latlon` | C_StereoRange.v | C, D1, D2, F |
| C39 | `C39_unproject_pinhole` | C_StereoRange.v | C, D1, D2, F |
| C39 | `C39_always_finite` | C_StereoRange.v | D1, D2, F |
| C39 | `C39_invalid_zero` | C_StereoRange.v | D1, D2, F |
| C39 | `C39_valid_processed` | C_StereoRange.v | D1, D2, F |
| C39 | `C39_dense` | C_StereoRange.v | C, D1, D2, F |
| C39 | `C39_dense_invalid` | C_StereoRange.v | D1, D2, F |
| C39 | `C39_int16` | C_StereoRange.v | D1, D2, F |
| C39 | `C39_dense_float_refuted` | C_StereoRange.v | C, D1, D2, F |
| C40 | `C40_maps` | C_RectMaps.v | D1, D2, F |
| C40 | `C40_overflow_refuted` | C_RectMaps.v | none |
| C41 | `C41_fov` | C_PinholeFov.v | C, D1, D2, F |
| C41 | `C41_found` | C_PinholeFov.v | D1, D2, F |
| C41 | `C41_image_azimuth` | C_PinholeFov.v | C, D1, D2, F |
| C41 | `C41_image_elevation` | C_PinholeFov.v | C, D1, D2, F |
| C41 | `C41_width` | C_PinholeFov.v | D2, F |
| C41 | `C41_wide_elevation_refuted` | C_PinholeFov.v | C, D1, D2, F |
| C42 | `C42_descriptions_accepted` | C_CamFile.v | none |
| C42 | `C42_unambiguous` | C_CamFile.v | none |
| C42 | `C42_python_writer` | C_CamFile.v | none |
| C42 | `C42_c_writer` | C_CamFile.v | none |
| C42 | `C42_c_writer_precision` | C_CamFile.v | none |
| C42 | `C42_c_writer_loses_refuted` | C_CamFile.v | none |
| C42 | `C42_region_exponent_refuted` | C_CamFile.v | none |
| C42 | `C42_last_comment_refuted` | C_CamFile.v | none |
| C42 | `C42_nonfinite_refuted` | C_CamFile.v | none |
| C43 | `C43_accepted_describes` | C_CamFile.v | none |
| C43 | `C43_accepted_complete` | C_CamFile.v | none |
| C43 | `C43_always_answers` | C_CamFile.v | none |
| C43 | `C43_lists_of_any_depth` | C_CamFile.v | none |
| C43 | `C43_size_given_twice_refuted` | C_CamFile.v | none |
| C43 | `C43_size_wraps_refuted` | C_CamFile.v | none |
| C44 | `C44_legacy_names` | C_CamPose.v | C, D1, D2, F |
| C44 | `C44_accessors_agree_partial` | C_CamPose.v | C, D1, D2, F |
| C44 | `C44_every_value_is_a_pose` | C_CamPose.v | C, D1, D2, F |
| C44 | `C44_no_drift_partial` | C_CamPose.v | C, D1, D2, F |
| C44 | `C44_any_matrix` | C_CamPose.v | C, D1, D2, F |
| C44 | `C44_tiny_rotation_refuted` | C_CamPose.v | C, D1, D2, F |
| C45 | `C45_set_intrinsics` | C_CamObj.v | none |
| C45 | `C45_saves_partial` | C_CamObj.v | none |
| C45 | `C45_inputs` | C_CamObj.v | none |
| C45 | `C45_copy_refuted` | C_CamObj.v | none |
| C45 | `C45_copy_writes` | C_CamObj.v | none |
| C45 | `C45_reset_refuted` | C_CamObj.v | none |
| C45 | `C45_nan_refuted` | C_CamObj.v | none |
| C45 | `C45_newline_refuted` | C_CamObj.v | none |
| C45 | `C45_pose_refuted` | C_CamObj.v | none |
| C45 | `C45_exception_refuted` | C_CamObj.v | none |
| C45 | `C45_region_refuted` | C_CamObj.v | none |
| C46 | `C46_roundtrip_partial` | C_OptInputs.v | none |
| C46 | `C46_cycles_partial` | C_OptInputs.v | none |
| C46 | `C46_every_key` | C_OptInputs.v | none |
| C46 | `C46_conflict_refused` | C_OptInputs.v | none |
| C46 | `C46_old_name_lost_refuted` | C_OptInputs.v | none |
| C46 | `C46_nan_refuted` | C_OptInputs.v | none |
| C47 | `C47_every_file` | C_FrameNo.v | none |
| C47 | `C47_no_others` | C_FrameNo.v | none |
| C47 | `C47_part_unique` | C_FrameNo.v | none |
| C47 | `C47_frame_number` | C_FrameNo.v | none |
| C47 | `C47_single_file` | C_FrameNo.v | none |
| C47 | `C47_same_frame` | C_FrameNo.v | none |
| C47 | `C47_understood` | C_FrameNo.v | none |
| C47 | `C47_needless_refusal_refuted` | C_FrameNo.v | none |
| C47 | `C47_collision_refuted` | C_FrameNo.v | none |
| C47 | `C47_lone_file_refuted` | C_FrameNo.v | none |
| C48 | `C48_corners` | C_Corners.v | none |
| C48 | `C48_no_frame_skipped` | C_Corners.v | none |
| C48 | `C48_images_exist` | C_Corners.v | none |
| C48 | `C48_accepted` | C_Corners.v | none |
| C48 | `C48_threshold_refuted` | C_Corners.v | none |
| C49 | `C49_all_or_nothing_partial` | C_Cache.v | none |
| C49 | `C49_cache_written` | C_Cache.v | none |
| C49 | `C49_cache_is_as_good` | C_Cache.v | none |
| C49 | `C49_other_file_system_refuted` | C_Cache.v | none |
| C50 | `C50_roundtrip_partial` | C_Cahvor.v | C, D1, D2, F |
| C50 | `C50_same_axis` | C_Cahvor.v | C, D1, D2, F |
| C50 | `C50_same_cahvor_projection` | C_Cahvor.v | C, D1, D2, F |
| C50 | `C50_same_pinhole` | C_Cahvor.v | C, D1, D2, F |
| C50 | `C50_written_pinhole` | C_Cahvor.v | D1, D2, F |
| C50 | `C50_written_cahvor` | C_Cahvor.v | D1, D2, F |
| C50 | `C50_read_proper` | C_Cahvor.v | C, D1, D2, F |
| C50 | `C50_read_published` | C_Cahvor.v | C, D1, D2, F |
| C50 | `C50_read_published_cahvor` | C_Cahvor.v | C, D1, D2, F |
| C50 | `C50_small_radial_refuted` | C_Cahvor.v | C, D1, D2, F |
| C50 | `C50_negative_focal_refuted` | C_Cahvor.v | C, D1, D2, F |
| C51 | `C51_ingest_partial` | C_Ingest.v | D1, D2, F |
| C51 | `C51_reproduces_partial` | C_Ingest.v | D1, D2, F |
| C51 | `C51_wrong_size` | C_Ingest.v | D1, D2, F |
| C51 | `C51_partial_intrinsics_refuted` | C_Ingest.v | D1, D2, F |
| C51 | `C51_no_fixed_points_refuted` | C_Ingest.v | D1, D2, F |
| C51 | `C51_pinhole_refuted` | C_Ingest.v | D1, D2, F |
| C51 | `C51_empty_refuted` | C_Ingest.v | D1, D2, F |
| C52 | `C52_worst_direction` | C_WorstDir.v | D1, D2, F |
| C52 | `C52_zero_only_without_uncertainty` | C_WorstDir.v | D1, D2, F |
| C52 | `C52_one_dimension` | C_WorstDir.v | D1, D2, F |
| C53 | `C53_accumulation` | C_CrossRows.v | D1, D2, F |
| C53 | `C53_order` | C_CrossRows.v | D1, D2, F |
| C53 | `C53_solve` | C_CrossRows.v | D1, D2, F |
| C53 | `C53_from_callback` | C_CrossRows.v | D1, D2, F |
| C53 | `C53_pose_motion` | C_CrossGrad.v | C, D1, D2, F |
| C53 | `C53_point_motion` | C_CrossGrad.v | C, D1, D2, F |
| C53 | `C53_refuses_points_with_warp` | C_CrossRows.v | D1, D2, F |
| C53 | `C53_refuses_points_only` | C_CrossRows.v | D1, D2, F |
| C53 | `C53_refuses_camera_without_intrinsics` | C_CrossRows.v | D1, D2, F |
| C53 | `C53_refuses_warpless_rows` | C_CrossRows.v | D1, D2, F |
| C54 | `C54_counts_mod_2_16` | C_Connect.v | none |
| C54 | `C54_counts` | C_Connect.v | none |
| C54 | `C54_refused` | C_Connect.v | none |
| C54 | `C54_links_kept` | C_Connect.v | none |
| C54 | `C54_wraps_refuted` | C_Connect.v | none |
| C54 | `C54_repeated_refuted` | C_Connect.v | none |
| C55 | `C55_stretch_partial` | C_Image.v | C, D1, D2, F |
| C55 | `C55_first_pixel_refuted` | C_Image.v | C, D1, D2, F |
| C55 | `C55_goes_black_refuted` | C_Image.v | C, D1, D2, F |
| C55 | `C55_constant_refuted` | C_Image.v | C, D1, D2, F |
| C56 | `C56_terminates` | C_Tracks.v | none |
| C56 | `C56_tracks` | C_Tracks.v | none |
| C56 | `C56_not_refused` | C_Tracks.v | none |
| C57 | `C57_jacobian_sparsity_partial` | C_Deps.v | none |
| C58 | `C58_rows_in_place` | C_Rows.v | none |
| C59 | `C59_opencv_all_written` | C_LensGrad.v | D2, F |
| C59 | `C59_opencv_gradients` | C_LensGrad.v | C, D1, D2, F |
| C59 | `C59_opencv_scale` | C_LensGrad.v | D2, F |
| C59 | `C59_opencv_pinhole` | C_LensGrad.v | D2, F |
| C60 | `C60_cahvor_gradients` | C_LensGrad.v | C, D1, D2, F |
| C60 | `C60_cahvor_scale` | C_LensGrad.v | D1, D2, F |
| C60 | `C60_cahvor_pinhole` | C_LensGrad.v | D1, D2, F |
| C61 | `C61_splined_gradients` | C_Splined.v | C, D1, D2, F |
| C61 | `C61_splined_chain` | C_Splined.v | D1, D2, F |
| C61 | `C61_splined_stereographic` | C_Splined.v | D1, D2, F |
| C61 | `C61_splined_scale` | C_Splined.v | D1, D2, F |
| C61 | `C61_knots` | C_Splined.v | D1, D2, F |
| C61 | `C61_fov` | C_Splined.v | D1, D2, F |
| C62 | `C62_sound_partial` | C_Unproject.v | C, D1, D2, F |
| C62 | `C62_closed` | C_Unproject.v | C, D1, D2, F |
| C62 | `C62_noncentral_refused` | C_Unproject.v | C, D1, D2, F |
| C62 | `C62_cahvore_partial` | C_Unproject.v | C, D1, D2, F |
| C62 | `C62_callback_jacobian` | C_Unproject.v | C, D1, D2, F |
| C62 | `C62_cahvore_behind_refuted` | C_Unproject.v | C, D1, D2, F |
| C62 | `C62_refused_is_origin_refuted` | C_Unproject.v | C, D1, D2, F |
| C62 | `C62_error_accepted_refuted` | C_Unproject.v | C, D1, D2, F |
| C62 | `C62_nan_accepted_refuted` | C_Unproject.v | C, D1, D2, F |
| C63 | `C63_geometric` | C_TriGrad.v | C, D1, D2, F |
| C63 | `C63_mid2` | C_TriGrad.v | C, D1, D2, F |
| C63 | `C63_wmid2` | C_TriGrad.v | C, D1, D2, F |
| C63 | `C63_l1` | C_TriGrad.v | C, D1, D2, F |
| C63 | `C63_linf` | C_TriGrad.v | C, D1, D2, F |
| C63 | `C63_lindstrom` | C_Lindstrom.v | C, D1, D2, F |
| C63 | `C63_residual` | C_TriGrad.v | C, D1, D2, F |
| C63 | `C63_same_outcome` | C_TriGrad.v | C, D1, D2, F |
| C64 | `C64_exact` | C_Lindstrom.v | C, D1, D2, F |
| C64 | `C64_paper` | C_Lindstrom.v | C, D1, D2, F |
| C64 | `C64_second_step_refuted` | C_Lindstrom.v | C, D1, D2, F |
| C64 | `C64_rectified` | C_Lindstrom.v | C, D1, D2, F |
| C65 | `C65_newton_step` | C_Cahvore.v | C, D1, D2, F |
| C65 | `C65_newton_converged` | C_Cahvore.v | C, D1, D2, F |
| C65 | `C65_entrance_pupil` | C_Cahvore.v | D1, D2, F |
| C65 | `C65_central_scale` | C_Cahvore.v | C, D1, D2, F |
| C65 | `C65_perspective_is_cahvor` | C_Cahvore.v | C, D1, D2, F |
| C65 | `C65_near_axis` | C_Cahvore.v | C, D1, D2, F |
| C65 | `C65_outside_refused` | C_Cahvore.v | C, D1, D2, F |
| C65 | `C65_perspective_behind` | C_Cahvore.v | C, D1, D2, F |
| C65 | `C65_family` | C_Cahvore.v | C, D1, D2, F |
| C65 | `C65_linearity1_pinhole` | C_Cahvore.v | C, D1, D2, F |
| C65 | `C65_linearity_half_stereographic` | C_Cahvore.v | C, D1, D2, F |
| C65 | `C65_gradients` | C_CahvoreGrad.v | C, D1, D2, F |
| C65 | `C65_same_with_gradients` | C_CahvoreGrad.v | C, D1, D2, F |
| C65 | `C65_failure` | C_CahvoreGrad.v | C, D1, D2, F |
| C65 | `C65_failure_clears_gradients_refuted` | C_CahvoreGrad.v | C, D1, D2, F |
| C65 | `C65_success` | C_CahvoreGrad.v | C, D1, D2, F |
| C65 | `C65_central_regular` | C_CahvoreGrad.v | C, D1, D2, F |
| C66 | `C66_jacobian` | C_Jacobian.v | C, D1, D2, F |
| C66 | `C66_partial_derivatives` | C_Jacobian.v | C, D1, D2, F |
| C67 | `C67_board_partial` | C_Residuals.v | C, D1, D2, F |
| C67 | `C67_point_partial` | C_Residuals.v | C, D1, D2, F |
| C67 | `C67_triangulated_partial` | C_Residuals.v | C, D1, D2, F |
| C67 | `C67_triangulated_exact` | C_Residuals.v | C, D1, D2, F |
| C67 | `C67_regularization` | C_Residuals.v | C, D1, D2, F |
| C68 | `C68_covariance` | C_Uncert.v | C, D1, D2, F |
| C68 | `C68_one_solution` | C_Uncert.v | D2, F |
| C68 | `C68_rms` | C_Uncert.v | C, D1, D2, F |
| C68 | `C68_symmetric_psd` | C_Uncert.v | C, D1, D2, F |
| C68 | `C68_refused` | C_Uncert.v | none |
| C69 | `C69_noise_level` | C_Uncert.v | C, D1, D2, F |
| C70 | `C70_ccp` | C_ProjUncert.v | C, D1, D2, F |
| C70 | `C70_propagated` | C_ProjUncert.v | C, D1, D2, F |
| C70 | `C70_mean_pcam_partial` | C_ProjUncert.v | C, D1, D2, F |
| C70 | `C70_mean_pcam_fixed_partial` | C_ProjUncert.v | C, D1, D2, F |
| C70 | `C70_rrp_partial` | C_ProjUncert.v | C, D1, D2, F |
| C70 | `C70_answers` | C_ProjUncert.v | C, D1, D2, F |
| C70 | `C70_paths_exist` | C_ProjUncert.v | C, D1, D2, F |
| C70 | `C70_points_exist` | C_ProjUncert.v | D1, D2, F |
| C70 | `C70_fixed_intrinsics_refuted` | C_ProjUncert.v | C, D1, D2, F |
| C70 | `C70_fixed_extrinsics_refuted` | C_ProjUncert.v | C, D1, D2, F |
| C71 | `C71_ref_object` | C_Perfect.v | D2, F |
| C71 | `C71_corner_positions_partial` | C_Perfect.v | D1, D2, F |
| C71 | `C71_boards_partial` | C_Perfect.v | C, D1, D2, F |
| C71 | `C71_points_partial` | C_Perfect.v | C, D1, D2, F |
| C71 | `C71_only_observations` | C_Perfect.v | C, D1, D2, F |
| C71 | `C71_outliers_refuted` | C_Perfect.v | C, D1, D2, F |
| C72 | `C72_central` | C_ImageMap.v | C, D1, D2, F |
| C72 | `C72_behind_flag` | C_ImageMap.v | C, D1, D2, F |
| C72 | `C72_distance` | C_ImageMap.v | C, D1, D2, F |
| C72 | `C72_infinity` | C_ImageMap.v | C, D1, D2, F |
| C72 | `C72_intrinsics_only` | C_ImageMap.v | C, D1, D2, F |
| C72 | `C72_plane` | C_ImageMap.v | C, D1, D2, F |
| C72 | `C72_plane_point` | C_ImageMap.v | D1, D2, F |
| C72 | `C72_plane_refused` | C_ImageMap.v | C, D1, D2, F |
| C72 | `C72_far` | C_ImageMap.v | C, D1, D2, F |
| C72 | `C72_opencv_partial` | C_ImageMap.v | C, D1, D2, F |
| C72 | `C72_opencv_refuted` | C_ImageMap.v | C, D1, D2, F |
| C72 | `C72_plane_sign_refuted` | C_ImageMap.v | C, D1, D2, F |
| C73 | `C73_R_from_quat` | C_Quat.v | D2, F |
| C73 | `C73_axis_angle` | C_Quat.v | D1, D2, F |
| C73 | `C73_quat_from_R` | C_Quat.v | D1, D2, F |
| C73 | `C73_quat_back` | C_Quat.v | D1, D2, F |
| C73 | `C73_documented_angle` | C_Quat.v | C, D1, D2, F |
| C73 | `C73_qt` | C_Quat.v | D1, D2, F |
| C73 | `C73_qt_back` | C_Quat.v | D1, D2, F |
| C74 | `C74_closed` | C_UnprojGrad.v | C, D1, D2, F |
| C74 | `C74_iterative` | C_UnprojGrad.v | C, D1, D2, F |
| C74 | `C74_normalized` | C_UnprojGrad.v | C, D1, D2, F |
| C74 | `C74_refused` | C_UnprojGrad.v | C, D1, D2, F |
| C74 | `C74_orthogonal` | C_UnprojGrad.v | C, D1, D2, F |
| C75 | `C75_gradient` | C_TriUncert.v | C, D1, D2, F |
| C75 | `C75_reported` | C_TriUncert.v | C, D1, D2, F |
| C75 | `C75_observation` | C_TriUncert.v | D2, F |
| C75 | `C75_observation_symmetric` | C_TriUncert.v | D2, F |
| C75 | `C75_outputs` | C_TriUncert.v | D2, F |
| C75 | `C75_refused` | C_TriUncert.v | D2, F |
| C75 | `C75_pinhole_refuted` | C_TriUncert.v | C, D1, D2, F |
| C76 | `C76_fit` | C_PinholeFit.v | D2, F |
| C76 | `C76_in_view` | C_PinholeFit.v | D2, F |
| C76 | `C76_scale_image` | C_PinholeFit.v | D2, F |
| C76 | `C76_arguments` | C_PinholeFit.v | D2, F |
| C76 | `C76_centered_refuted` | C_PinholeFit.v | D2, F |
| C76 | `C76_center_0_refuted` | C_PinholeFit.v | D2, F |
| C77 | `C77_resolution` | C_Resolution.v | C, D1, D2, F |
| C77 | `C77_rectified` | C_Resolution.v | C, D1, D2, F |
| C78 | `C78_cameras` | C_Seed.v | D2, F |
| C78 | `C78_frames` | C_Seed.v | C, D1, D2, F |
| C78 | `C78_frames_dense` | C_Seed.v | C, D1, D2, F |
| C78 | `C78_seed` | C_Seed.v | C, D1, D2, F |
| C78 | `C78_camera_order_refuted` | C_Seed.v | C, D1, D2, F |
| C78 | `C78_frame_gap_refuted` | C_Seed.v | C, D1, D2, F |
| C79 | `C79_formula` | C_Color.v | D1, D2, F |
| C79 | `C79_linear` | C_Color.v | D1, D2, F |
| C79 | `C79_refused` | C_Color.v | D1, D2, F |
| C79 | `C79_default_order` | C_Color.v | D1, D2, F |
| C79 | `C79_negative_data_refuted` | C_Color.v | D1, D2, F |
| C79 | `C79_negative_bound_refuted` | C_Color.v | D1, D2, F |
| C79 | `C79_span_refuted` | C_Color.v | D1, D2, F |
| C80 | `C80_match` | C_Match.v | D1, D2, F |
| C80 | `C80_no_match` | C_Match.v | D1, D2, F |
| C80 | `C80_exact` | C_Match.v | D1, D2, F |
| C80 | `C80_fit` | C_Match.v | D2, F |
| C80 | `C80_translation` | C_Match.v | D1, D2, F |
| C80 | `C80_scale` | C_Match.v | D1, D2, F |
| C80 | `C80_template_inside` | C_Match.v | D1, D2, F |
| C80 | `C80_ccorr_refuted` | C_Match.v | D1, D2, F |
| C80 | `C80_far_refuted` | C_Match.v | D1, D2, F |
| C80 | `C80_edge_refuted` | C_Match.v | D1, D2, F |
| C80 | `C80_corners_refuted` | C_Match.v | D1, D2, F |
| C81 | `C81_residual` | C_Diff.v | D1, D2, F, classic |
| C81 | `C81_gradient_partial` | C_Diff.v | D1, D2, F, classic |
| C81 | `C81_fit` | C_Diff.v | D1, D2, F, classic |
| C81 | `C81_fit_infinity` | C_Diff.v | D1, D2, F, classic |
| C81 | `C81_same_lens` | C_Diff.v | D1, D2, F, classic |
| C81 | `C81_same_lens_infinity` | C_Diff.v | D1, D2, F, classic |
| C81 | `C81_uncertainties` | C_Diff.v | D1, D2, F, classic |
| C81 | `C81_fallback` | C_Diff.v | D1, D2, F, classic |
| C81 | `C81_intrinsics_only` | C_Diff.v | D1, D2, F, classic |
| C81 | `C81_many` | C_Diff.v | D1, D2, F, classic |
| C81 | `C81_report` | C_Diff.v | D1, D2, F, classic |
| C81 | `C81_too_few` | C_Diff.v | D1, D2, F, classic |
| C81 | `C81_refuses` | C_Diff.v | D1, D2, F, classic |
| C81 | `C81_grid` | C_Diff.v | D2, F |
| C81 | `C81_infinity_refuted` | C_Diff.v | D1, D2, F, classic |
| C82 | `C82_resolution` | C_ModelRes.v | C, D1, D2, F |
| C82 | `C82_limit` | C_ModelRes.v | C, D1, D2, F |
| C83 | `C83_reports` | C_PairDiff.v | D1, D2, F |
| C83 | `C83_rig_moved` | C_PairDiff.v | D1, D2, F |
| C83 | `C83_same_rig` | C_PairDiff.v | D1, D2, F |
| C83 | `C83_back_and_forth` | C_PairDiff.v | D1, D2, F |
| C83 | `C83_refuses` | C_PairDiff.v | D1, D2, F |
| C83 | `C83_cahvore_refuted` | C_PairDiff.v | D1, D2, F |
| C84 | `C84_binary` | C_Ply.v | none |
| C84 | `C84_ascii_partial` | C_Ply.v | none |
| C84 | `C84_ascii_colors_refuted` | C_Ply.v | none |
| C84 | `C84_refuses` | C_Ply.v | none |
| C85 | `C85_gray` | C_Pnm.v | none |
| C85 | `C85_color` | C_Pnm.v | none |
| C85 | `C85_16bit_partial` | C_Pnm.v | none |
| C85 | `C85_16bit_refuted` | C_Pnm.v | none |
| C85 | `C85_when` | C_Pnm.v | none |
| C85 | `C85_at_partial` | C_Pnm.v | none |
| C85 | `C85_at_refuted` | C_Pnm.v | none |
| C85 | `C85_crop_saved` | C_Pnm.v | none |
| C86 | `C86_walk_partial` | C_Densify.v | D1, D2, F |
| C86 | `C86_hits_partial` | C_Densify.v | D1, D2, F |
| C86 | `C86_gap_partial` | C_Densify.v | D1, D2, F |
| C86 | `C86_on` | C_Densify.v | D1, D2, F |
| C86 | `C86_economic` | C_Densify.v | D1, D2, F |
| C86 | `C86_refuted` | C_Densify.v | D1, D2, F |
| C86 | `C86_one_point_refuted` | C_Densify.v | none |
| C86 | `C86_none` | C_Densify.v | D1, D2, F |
| C87 | `C87_pixels` | C_SynthBoard.v | D1, D2, F |
| C87 | `C87_pose` | C_SynthBoard.v | D1, D2, F |
| C87 | `C87_radius` | C_SynthBoard.v | D1, D2, F |
| C87 | `C87_acceptable` | C_SynthBoard.v | C, D1, D2, F |
| C87 | `C87_first` | C_SynthBoard.v | C, D1, D2, F |
| C87 | `C87_prefix` | C_SynthBoard.v | D1, D2, F |
| C87 | `C87_returns` | C_SynthBoard.v | C, D1, D2, F |
| C87 | `C87_runs_forever` | C_SynthBoard.v | C, D1, D2, F |
| C87 | `C87_refused` | C_SynthBoard.v | D1, D2, F |
| C87 | `C87_exactly_half_refuted` | C_SynthBoard.v | C, D1, D2, F |
| C88 | `C88_contour_partial` | C_SplineDomain.v | D1, D2, F |
| C88 | `C88_inside` | C_SplineDomain.v | D1, D2, F |
| C88 | `C88_refused` | C_SplineDomain.v | D1, D2, F |
| C88 | `C88_three_columns_refuted` | C_SplineDomain.v | D1, D2, F |
| C89 | `C89_sorted_eig` | C_Ellipse.v | D2 |
| C89 | `C89_ellipse` | C_Ellipse.v | C, D1, D2, F |
| C89 | `C89_none` | C_Ellipse.v | C, D1, D2, F |
| C89 | `C89_points` | C_Ellipse.v | C, D1, D2, F |
| C90 | `C90_loads` | C_ImageLoad.v | C, D1, D2, F |
| C90 | `C90_can_load` | C_ImageLoad.v | C, D1, D2, F |
| C90 | `C90_gray_roundtrip` | C_ImageLoad.v | C, D1, D2, F |
| C90 | `C90_color_roundtrip` | C_ImageLoad.v | C, D1, D2, F |
| C90 | `C90_no_file` | C_ImageLoad.v | none |
| C90 | `C90_16bit_refuted` | C_ImageLoad.v | C, D1, D2, F |
| C91 | `C91_tiles` | C_PolyDiff.v | D2, F |
| C91 | `C91_exact` | C_PolyDiff.v | D2, F |
| C91 | `C91_warned` | C_PolyDiff.v | D2 |
| C91 | `C91_finishes` | C_PolyDiff.v | D2 |
| C91 | `C91_small_hole` | C_PolyDiff.v | D2, F |
| C91 | `C91_small_hole_refuted` | C_PolyDiff.v | D2, F |
| C92 | `C92_statistics` | C_ValidRegion.v | D1, D2, F |
| C92 | `C92_mask` | C_ValidRegion.v | D1, D2, F |
| C92 | `C92_region` | C_ValidRegion.v | D1, D2, F |
| C92 | `C92_accepted` | C_ValidRegion.v | D1, D2, F |
| C92 | `C92_bias_refuted` | C_ValidRegion.v | D1, D2, F |
| C92 | `C92_few_refuted` | C_ValidRegion.v | D1, D2, F |
| C93 | `C93_given` | C_BoardPoints.v | D2, F |
| C93 | `C93_default` | C_BoardPoints.v | D2, F |
| C93 | `C93_all` | C_BoardPoints.v | D2, F |
| C93 | `C93_overwritten` | C_BoardPoints.v | D2, F |
| C93 | `C93_overwritten_refuted` | C_BoardPoints.v | D2, F |
| C94 | `C94_samples` | C_NoisyVectors.v | D2, F |
| C94 | `C94_meet` | C_NoisyVectors.v | D2, F |
| C95 | `C95_accepted` | C_TriArgs.v | D2 |
| C95 | `C95_exact` | C_TriArgs.v | C, D1, D2, F |
| C95 | `C95_agree` | C_TriArgs.v | D2 |
