{"claims": [
{"property": "C01", "status": "proved", "theorems": ["list_to_padded_spec", "padded_list_roundtrip", "padded_list_roundtrip_int", "list_to_padded_all_empty_refuted"], "note": "Any number of dimensions. A batch with only empty entries is rejected by the code unless pad_size is given (refuted clause)."},
{"property": "C02", "status": "proved", "theorems": ["list_to_packed_exact", "packed_to_list_roundtrip", "packed_to_list_exact", "padded_to_packed_agrees", "padded_to_packed_pad_value_agrees", "padded_to_packed_pad_value_refuted"], "note": "The pad_value mode drops real rows equal to the pad value: refuted without the guard, proved with it."},
{"property": "C03", "status": "proved", "theorems": ["packed_to_padded_op_spec", "packed_padded_op_roundtrip", "packed_padded_op_adjoint", "packed_to_padded_op_small_max_refuted"], "note": "C++ loops with bounds; max_size smaller than an element is an out-of-bounds write."},
{"property": "C04", "status": "proved", "theorems": ["meshes_accessors_agree", "meshes_answers_determined", "meshes_from_lists", "meshes_from_padded", "meshes_with_normals", "meshes_lists_kept", "meshes_clone", "meshes_update_padded", "faceless_batch_refuted", "padded_faceless_refuted", "list_lengths_unchecked_refuted"], "note": "Refinement of the cache-record model to the abstract batch for every reachable object (constructors, accessors, offset, scale, clone, update_padded, indexing, extend) and all 29 accessors, including edges, areas, normals and the Laplacian. torch.sort is any function that sorts. Textures, devices and memory sharing are not modelled. Faceless batches are refuted."},
{"property": "C05", "status": "proved", "theorems": ["index_selects", "index_out_of_range", "extend_repeats", "extend_rejects", "split_parts", "join_batch_concat", "split_then_join", "join_scene_one_mesh", "scene_faces_keep_positions", "submeshes_restrict", "get_mesh_returns", "bounding_boxes_tight"], "note": "int, slice (step 1, non-negative bounds), integer-list and mask indices; also for batches without faces as far as the lists are concerned."},
{"property": "C06", "status": "proved", "theorems": ["edges_each_once", "face_edges_opposite", "edges_per_mesh"], "note": "For every reachable object and every (unstable) sorting function."},
{"property": "C07", "status": "proved", "theorems": ["edited_equals_rebuilt", "scaled_normals_refuted", "scaled_normals_kept"], "note": "All histories of accessors, offsets, scalings and clones; scaling under scale_safe or with user normals; the stale-normal case is refuted."},
{"property": "C08", "status": "proved", "theorems": ["clouds_accessors_agree", "clouds_answers_determined", "clouds_from_lists", "clouds_from_padded", "clouds_clone", "mixed_list_padded_refuted", "mixed_padded_list_refuted", "update_before_padded_refuted", "no_points_first_idx_refuted"], "note": "Every reachable object (constructors, any finite sequence of accessor calls, offset_, scale_, clone, update_padded, indexing, extend, subsample, estimate_normals assignment) answers every accessor as the abstract batch says; the four exceptions named in the statement are proved as refutations."},
{"property": "C09", "status": "proved", "theorems": ["clouds_index_selects", "clouds_index_out_of_range", "clouds_extend_repeats", "clouds_split_parts", "clouds_split_then_join", "split_then_join_empty_part_refuted", "clouds_shown", "clouds_join_concat", "clouds_join_mixed_rejected", "clouds_scene_one_cloud", "subsample_keeps_rows", "subsample_wrong_count", "clouds_edits_aligned", "clouds_out_of_place", "get_cloud_returns", "clouds_bounding_boxes", "inside_box_decides"], "note": "Rows (point, normal, features) are the unit of the specification, so alignment is part of every statement; subsample is proved for every outcome of the random choice."},
{"property": "C10", "status": "proved", "theorems": ["knn_points_are_nearest", "knn_distances_determined", "knn_bad_norm_rejected", "knn_gather_neighbours"], "note": "CPU k-nearest-neighbour path of knn_points/knn_gather; ties broken by index as the priority queue does."},
{"property": "C11", "status": "proved", "theorems": ["knn_backward_p1", "knn_backward_p2", "knn_backward_padding", "knn_backward_L1_zero_at_tie_refuted"], "note": "CPU backward is the derivative of the weighted sum of returned distances with the indices held fixed; for norm 1 the claim is false at coordinate ties (sub-gradient +-1), refuted with a witness and excluded from the positive theorems."},
{"property": "C12", "status": "proved", "theorems": ["ball_query_first_hits", "ball_query_skip_irrelevant", "ball_hits_meaning", "ball_query_negative_radius_refuted"], "note": "For non-negative radii; with a negative radius the cube test changes the result (refuted)."},
{"property": "C13", "status": "partial", "theorems": ["sample_farthest_points_greedy", "farthest_points_unique", "farthest_points_distinct", "distance_separates_points", "farthest_points_distinct_refuted", "farthest_points_zero_K_refuted", "farthest_points_empty_cloud_fails", "farthest_points_naive_greedy", "farthest_points_cuda_greedy", "farthest_points_cuda_far_refuted"], "note": "Proved for non-empty clouds and K>=1; no repetition is proved for distinct points and refuted for coincident ones; K=0 in a batch and the CUDA kernel beyond squared distance 1e10 are refuted."},
{"property": "C14", "status": "proved", "theorems": ["sample_pdf_inside", "sample_pdf_total", "sample_pdf_monotone", "sample_pdf_inverts_cdf", "sample_pdf_exact_quantile_refuted", "sample_pdf_search_agrees", "sample_pdf_python_inverts_cdf"], "note": "Exact quantiles of the total weight are refuted: the code scales u by total+eps."},
{"property": "C15", "status": "proved", "theorems": ["sample_pdf_partition", "sample_pdf_schedule_independent", "sample_pdf_partition_refuted"], "note": "False for a batch of 5 with 4 or more threads (out-of-bounds row); proved for every other batch size and thread count and every interleaving."},
{"property": "C16", "status": "proved", "theorems": ["rasterizer_row_partition", "rasterizer_schedule_independent"], "note": "All heights, thread counts and interleavings; row updates are atomic in the model."},
{"property": "C17", "status": "proved", "theorems": ["gather_scatter_neighbour_sums", "gather_scatter_backward_adjoint", "gather_scatter_backward_gradient", "gather_scatter_any_schedule", "gather_scatter_python_agrees", "gather_scatter_equivariant", "graph_conv_formula"], "note": "Indices outside the vertex range are rejected in the model; the C++ kernel does not check them."},
{"property": "C18", "status": "partial", "theorems": ["alpha_composite_is_over", "alpha_composite_weights", "alpha_composite_backward_features", "alpha_composite_backward_alphas_partial", "alpha_composite_backward_alphas_refuted", "alpha_composite_backward_padding", "compositing_cpu_order", "background_only_on_empty"], "note": "Forward, weights and feature gradient in full, for every order of the accumulating additions. The alpha gradient is the derivative up to the factor (1-a)/(1-a+1e-9) applied to the layers behind (partial); the exact statement is refuted for an opaque layer."},
{"property": "C19", "status": "partial", "theorems": ["norm_weighted_sum_is_mean", "norm_weighted_sum_in_range", "norm_weighted_sum_backward_features", "norm_weighted_sum_backward_alphas", "norm_weighted_sum_backward_clamped_refuted"], "note": "Forward and both gradients when the total weight is above the clamp; inside the clamp the alpha gradient is refuted with a witness."},
{"property": "C20", "status": "proved", "theorems": ["weighted_sum_is_sum", "weighted_sum_backward_features", "weighted_sum_backward_alphas"], "note": "For every order of the accumulating additions (CPU loop order, CUDA atomics)."},
{"property": "C21", "status": "proved", "theorems": ["sigmoid_alpha_formula", "sigmoid_alpha_bounds", "sigmoid_alpha_order_independent", "sigmoid_alpha_grows_with_faces", "sigmoid_alpha_falls_with_distance", "sigmoid_alpha_backward"], "note": ""},
{"property": "C22", "status": "proved", "theorems": ["rasterize_meshes_topk", "rasterize_meshes_order_independent", "rasterize_meshes_hit_iff", "rasterize_meshes_no_holes", "rasterize_meshes_clipped_pairs", "rasterize_meshes_order_independent_clipped_refuted", "cuda_meshes_same_hits", "cuda_meshes_smallest_depths", "cuda_meshes_topk", "cuda_meshes_topk_ties_refuted", "cuda_meshes_clipped_agrees_refuted"], "note": "CPU naive kernel over reals for every image, mesh batch, K and option set without clipped neighbours; with clipped neighbours the pairing invariant is proved and order independence is refuted. CUDA kernel exact when depths are distinct; ties and clipped neighbours refuted."},
{"property": "C23", "status": "proved", "theorems": ["rasterize_points_topk", "rasterize_points_hit_iff", "cuda_points_topk", "rasterize_points_backward"], "note": "CPU naive kernel over reals; CUDA kernel exact when depths are distinct; backward is the true gradient."},
{"property": "C24", "status": "proved", "theorems": ["coarse_bins_cover_faces", "coarse_bins_cover_points", "coarse_to_fine_meshes", "coarse_to_fine_meshes_any_schedule", "coarse_to_fine_points", "coarse_to_fine_points_any_schedule", "coarse_bins_safe", "fine_kernel_covers_pixels", "cpu_coarse_square", "cpu_coarse_lists_overlaps", "cpu_coarse_nonsquare_refuted"], "note": "CUDA coarse and fine stages; block schedules are all permutations of the chunks. The CPU coarse stage is refuted on non-square images."},
{"property": "C25", "status": "proved", "theorems": ["barycentric_reconstructs_pixel", "barycentric_sum_is_one_refuted", "barycentric_positive_iff_inside", "perspective_correction_recovers_3d", "clipping_gives_convex_weights", "clipping_keeps_inside_points", "edge_function_backward", "barycentric_backward", "perspective_backward", "perspective_backward_below_clamp_refuted", "clipping_backward"], "note": "geometry_utils.h over exact reals. The regulariser 1e-8 makes the coordinates sum to A/(A+1e-8), so 'sum is exactly one' is refuted; derivatives hold away from the kinks of max()."},
{"property": "C26", "status": "proved", "theorems": ["pixel_centres_increasing", "pixel_centres_symmetric", "pixel_centres_inside_range", "pixel_spacing_same_on_both_axes"], "note": "rasterization_utils PixToNonSquareNdc."},
{"property": "C27", "status": "proved", "theorems": ["mink_keeps_smallest", "mink_K0_reads_unset"], "note": "mink.cuh MinK, both specialisations reduced to the same multiset semantics; K=0 reads an unset entry, shown explicitly."},
{"property": "C28", "status": "proved", "theorems": ["bitmask_independent_bits", "bitmask_any_depth_refuted"], "note": "bitmask.cuh; for a number of columns that is a multiple of 32, as the kernels allocate; refuted otherwise."},
{"property": "C29", "status": "partial", "theorems": ["segment_distance_2d", "segment_distance_3d", "segment_distance_attained", "segment_distance_short_refuted", "triangle_boundary_distance_2d", "triangle_distance_3d_partial", "triangle_distance_3d_inside_lower_bound", "triangle_distance_3d_exact_refuted", "segment_distance_2d_backward", "segment_distance_3d_backward", "segment_distance_3d_backward_short_refuted", "triangle_boundary_distance_backward"], "note": "Segments: exact minimum for squared length above 1e-8, refuted below. Triangles in 3d: exact minimum with the epsilons at zero; with the code's epsilons the exact claim is refuted and a one-sided bound proved."},
{"property": "C30", "status": "proved", "theorems": ["packed_rectangles_fit", "packed_unique_fit", "packing_needs_two", "empty_rectangle_refuted"], "note": "Proved for all lists of at least two rectangles with positive sizes; a zero-width rectangle can be placed outside the sheet (refutation)."},
{"property": "C31", "status": "proved", "theorems": ["compose_is_sequential", "compose_step", "compose_matrix_product", "compose_batch_mismatch", "inverse_is_matrix_inverse", "inverse_defined_when_invertible", "inverse_modes_agree", "inverse_inverse_matrix", "inverse_undoes_points", "translate_adds", "scale_multiplies", "rotate_multiplies", "rotate_preserves_distances", "axis_angle_turns_ccw", "normals_keep_products", "eps_clamp_safe", "eps_always_finite", "clone_same_transform", "clone_same_inverse", "stack_concatenates", "getitem_selects", "getitem_int_index", "axis_angle_getitem_refuted", "rotate_nonorthogonal_inverse_refuted", "eps_compose_refuted"], "note": "Every composition, inverse, clone, stack and index of Transform3d objects, over exact reals. The refuted theorems record where the code departs: RotateAxisAngle indexing raises, Rotate accepts non-orthogonal R and then inverts wrongly, eps breaks composition."},
{"property": "C32", "status": "proved", "theorems": ["quaternion_matrix_rotation", "quaternion_matrix_defined", "quaternion_matrix_turns", "quaternion_matrix_scale", "quaternion_multiply_matrix", "quaternion_invert_matrix", "quaternion_apply_matrix", "quaternion_apply_scales", "matrix_to_quaternion_inverts", "quaternion_recovered_up_to_sign", "quaternion_recovered_standard", "standardize_same_rotation", "random_quaternion_unit", "euler_matrix_rotation", "euler_angles_invert_matrix", "euler_angles_recovered", "euler_angles_in_range", "euler_invalid_convention", "euler_gimbal_lock_refuted", "axis_angle_fast_slow_agree", "axis_angle_matrix_rotation", "axis_angle_matrix_turns", "axis_angle_quaternion_roundtrip", "quaternion_axis_angle_roundtrip", "quaternion_axis_angle_minus_one_refuted", "matrix_axis_angle_roundtrip", "axis_angle_recovered", "fast_matrix_axis_angle", "fast_matrix_axis_angle_pi_refuted", "rotation_6d_gram_schmidt", "rotation_6d_roundtrip", "rotation_6d_parallel_refuted"], "note": "All rotation matrices, quaternions, angles and conventions, over exact reals. Refuted theorems: gimbal lock loses the rotation, fast matrix_to_axis_angle at angle pi fails or mixes batch elements, 6D with parallel vectors is no rotation; at (-1,0,0,0) quaternion_to_axis_angle is 0/0 in exact arithmetic."},
{"property": "C33", "status": "proved", "theorems": ["so3_exp_rotation", "so3_exp_group", "so3_exp_log", "so3_log_exp", "so3_log_exp_beyond_pi_refuted", "so3_angle_of_exp", "so3_angle_trace_check", "so3_relative_angle_metric", "hat_is_cross_product", "hat_inv_of_hat", "hat_of_hat_inv", "hat_inv_rejects", "hat_inv_empty_refuted", "acos_extrapolation_smooth", "acos_extrapolation_bounds", "se3_exp_is_rigid", "se3_exp_translation", "se3_exp_no_rotation", "se3_exp_inverse", "se3_log_of_exp", "se3_exp_of_log", "se3_log_rejects", "se3_same_eps_refuted"], "note": "Refuted theorems: so3_log_map(so3_exp_map(v)) never returns v beyond angle pi; se3_log_map ignores its eps so the round trip fails for other eps; hat_inv raises on an empty batch."},
{"property": "C34", "status": "proved", "theorems": ["transform_points_is_pinhole", "world_to_view_formula", "unproject_after_project", "unproject_after_project_view", "unproject_scaled_depth", "unproject_from_ndc", "project_after_unproject", "unproject_succeeds", "fov_depth_range_and_order", "transform_points_ndc_formula", "transform_points_screen_formula", "ndc_to_screen_formula", "screen_to_ndc_formula", "camera_center_is_origin_of_view", "override_is_local_refuted", "screen_space_transform_points_refuted", "fov_unproject_uses_kwargs_refuted", "unproject_flat_points_refuted", "fov_ortho_unproject_flat_fails"], "note": "All four camera classes. Exact reals. The round trip holds for batched points; for flat (P,3) points with several cameras it is refuted, as is the use of keyword overrides by FoVPerspectiveCameras.unproject_points."},
{"property": "C35", "status": "proved", "theorems": ["opencv_cameras_project_the_same", "opencv_to_cameras_and_back", "cameras_to_opencv_and_back", "opencv_from_screen_space_camera_refuted"], "note": "One camera at a time (the batch is elementwise). K of the form [[fx,0,cx],[0,fy,cy],[0,0,1]]."},
{"property": "C36", "status": "proved", "theorems": ["look_at_places_camera", "spherical_position_distance", "look_at_is_rotation_refuted", "look_at_parallel_up_degenerate", "eye_at_up_of_camera", "look_at_of_eye_at_up", "rotate_on_spot_turns_view", "rotate_on_spot_keeps_center"], "note": "The thresholds 1e-5 come from F.normalize(eps=1e-5); below them the result is not a rotation (refuted)."},
{"property": "C37", "status": "proved", "theorems": ["obj_reads", "obj_warns", "obj_materials", "obj_mixed_face_rejected", "obj_short_line_rejected", "obj_round_trip", "save_obj_shapes_rejected", "obj_tab_refuted", "obj_relative_index_refuted", "obj_minus_one_refuted", "obj_zero_index_refuted", "obj_missing_uv_round_trip_refuted", "obj_long_corner_rejected"], "note": "Line-level reader and writer: every file whose lines are v/vt/vn/f/usemtl/mtllib/other lines is read as the vertices, texture coordinates, normals and fan triangles it lists, with indices from the front or the end; materials per triangle; exact warning condition; inconsistent faces and short lines refused; save then load gives back faces, uv and normal indices exactly and coordinates rounded to the decimals. Refuted: tab after keyword, relative indices inside the file, -1/-1/-1 uv indices, index 0, padded uv indices on save."},
{"property": "C38", "status": "proved", "theorems": ["ply_binary_reads", "ply_text_reads", "ply_binary_extra", "ply_text_extra", "ply_binary_truncated", "ply_binary_small_polygon", "ply_text_small_polygon", "ply_comments_ignored", "ply_terminates", "ply_needs_end", "ply_always_terminates_refuted", "ply_binary_round_trip", "ply_text_round_trip", "ply_byte_colors", "save_load_ply", "ply_columns_by_name_refuted", "ply_empty_normals_refuted", "ply_text_types_refuted", "ply_text_long_row"], "note": "load_ply/save_ply: binary and text files of every layout of elements, properties and types; round trips; truncation; termination. Refuted parts: ply_always_terminates_refuted, ply_columns_by_name_refuted, ply_empty_normals_refuted, ply_text_types_refuted"},
{"property": "C39", "status": "proved", "theorems": ["off_round_trip", "off_polygons", "off_loaded_shape", "off_terminates_iff", "off_fuel_irrelevant", "off_always_terminates_refuted", "off_header_only_never_terminates", "off_any_index_refuted", "off_empty_mesh_refuted", "off_trailing_comment_refuted", "off_include_textures_refuted", "off_save_rejects", "off_texture_choice"], "note": "Round trip, polygon fans, shapes, rejection of wrong shapes and exact termination domain. Refuted: termination on every input, indices above 2^24, empty mesh, trailing comment, include_textures."},
{"property": "C40", "status": "proved", "theorems": ["io_load_last_registered", "io_load_determined", "io_save_last_registered", "io_save_refuses", "io_register_refuses", "builtin_mesh_formats", "builtin_mesh_stream", "save_include_textures_refuted", "str_and_path_agree_refuted", "builtin_mesh_formats_path"], "note": "Registry of mesh/pointcloud readers: last registered interpreter that accepts the path wins; refuted: include_textures on save, str vs Path"},
{"property": "C41", "status": "proved", "theorems": ["subdivide_splits_every_mesh", "subdivide_precomputed", "subdivided_counts", "subdivided_corners", "subdivided_quarters", "subdivide_without_faces_refuted"], "note": "Heterogeneous and precomputed SubdivideMeshes on every reachable Meshes object, with features; a batch without faces raises TypeError."},
{"property": "C42", "status": "proved", "theorems": ["cubify_surface", "cubify_empty_batch", "cubify_determined", "cubify_thin_grid_refuted", "cubify_threshold_refuted"], "note": "For every batch of grids with at least two values along each axis, every threshold, alignment and optional features. Grids with a side of length one raise (refuted), and a voxel equal to the threshold is filled contrary to the documentation (refuted). cubify_empty_batch and cubify_determined are corollaries."},
{"property": "C43", "status": "proved", "theorems": ["points_to_volumes_adds_votes", "aligned_points_are_regular", "points_to_volumes_cuda_is_cpu", "trilinear_votes_conserve_mass", "trilinear_votes_bounded", "trilinear_votes_outside", "all_cells_are_the_grid", "nearest_votes_one_voxel", "nearest_voxel_exists", "rescaled_features_are_means", "points_to_volumes_feature_gradient", "points_to_volumes_coordinate_gradient", "points_to_volumes_python_adds_votes", "points_to_volumes_paths_agree", "splat_border_weights_refuted", "splat_outside_refuted", "missing_features_refuted", "python_align_corners_refuted", "python_smaller_grid_refuted"], "note": "CPU, CUDA (any interleaving) and Python paths, forward and backward. Locations with a coordinate in (-2,-1) or (-1,0) are excluded for the default trilinear path, where the property is false (splat_border_weights_refuted, splat_outside_refuted); the Python path is right for all locations. Coordinate gradient away from integer locations."},
{"property": "C44", "status": "proved", "theorems": ["volumes_lists", "volumes_constructor", "volume_translation_one_number_refuted", "volumes_index", "volumes_index_nothing", "volumes_index_tuple_refuted", "volumes_index_align_refuted", "volumes_update", "volumes_update_wrong_size", "volumes_update_wrong_features", "volumes_update_own_padded_refuted", "volumes_local_to_world", "volumes_world_to_local", "volumes_transforms_inverse", "volumes_no_inverse", "volumes_grid_shape", "volumes_grid_covers", "volumes_local_grid", "volumes_world_grid", "volumes_world_grid_any", "volumes_spacing_refuted", "volumes_ragged_sides_refuted", "volumes_flat_grid_refuted"], "note": "Every history of constructor, indexing and update_padded. The false parts of the statement are refuted: indexing resets align_corners, update_padded refuses the padded densities of a ragged batch, ragged grids with align_corners=False are misplaced, sides of length one give nan."},
{"property": "C45", "status": "proved", "theorems": ["ea_raymarch_renders", "ea_raymarch_partition", "ea_raymarch_partition_exact", "ea_raymarch_weights_le_one_refuted", "ea_raymarch_zero_thickness_refuted", "absorption_only_matches"], "note": "Exact partition for eps=0; with eps>0 the identity carries the eps term and the sum can exceed one (refuted)."},
{"property": "C46", "status": "proved", "theorems": ["uniform_laplacian_entries", "uniform_laplacian_row_sums", "uniform_laplacian_annihilates_constants", "uniform_laplacian_edge_set", "uniform_laplacian_loop_refuted", "cot_laplacian_defined", "cot_laplacian_matrix", "cotan_is_the_cotangent", "norm_laplacian_matrix", "laplacian_packed_entries"], "note": "uniform, cotangent and norm Laplacians of any graph or triangle list; a self-loop edge changes the diagonal (refuted)"},
{"property": "C47", "status": "proved", "theorems": ["chamfer_is_nearest_distances", "chamfer_per_point", "chamfer_symmetric", "chamfer_ignores_order_and_padding", "chamfer_zero_iff", "chamfer_normals", "chamfer_normals_range", "chamfer_rejects_arguments", "chamfer_rejects_batches", "empty_target_refuted", "zero_weights_refuted", "chamfer_rejects_lengths"], "note": "chamfer_distance for every batch: value from nearest distances, normals, symmetry, order and padding independence, zero iff equal point sets, rejections; refuted: empty targets, all-zero weights"},
{"property": "C48", "status": "proved", "theorems": ["linear_with_repeat_is_linear_on_concat"], "note": ""},
{"property": "C49", "status": "proved", "theorems": ["harmonic_output_size", "harmonic_layout", "harmonic_append_input", "harmonic_decay", "harmonic_frequencies"], "note": ""},
{"property": "C50", "status": "proved", "theorems": ["scene_batch_bounded", "scene_batch_no_repeats", "scene_batch_composition", "scene_batch_full", "scene_batch_never_fails", "segments_split", "segments_exist", "every_frame_can_be_drawn", "annotated_frames_in_order", "annotated_well_formed", "filtered_frames_refuted", "negative_gap_refuted", "indices_are_integers_refuted", "scene_batch_categories_differ", "filtered_numbers_and_times"], "note": "SceneBatchSampler over every outcome of the random choices, and the frame order of annotated datasets; refuted: subset_filter misaligns indices, negative gap, empty sequences"},
{"property": "C51", "status": "proved", "theorems": ["average_meter_exact", "stats_epoch_averages", "stats_current_epoch", "stats_running_average", "stats_update_succeeds", "meter_average_is_epoch_average_refuted", "add_log_vars_keeps_counts_refuted", "add_log_vars_adds_refuted", "add_log_vars_tuple_refuted", "finished_epoch_reported_refuted"], "note": "AverageMeter and Stats over any history of calls; refuted: n\u22601, duplicate add_log_vars, finished epoch"},
{"property": "C52", "status": "proved", "theorems": ["interp_value", "interp_python_agrees", "interp_python_no_faces_refuted", "interp_affine_exact", "interp_backward_attrs", "interp_backward_bary"], "note": "The Python version agrees whenever there is at least one face; with no face it fails (refuted)."},
{"property": "C53", "status": "proved", "theorems": ["softmax_blend_convex", "softmax_blend_in_range", "softmax_blend_stable", "softmax_blend_empty", "hard_blend_nearest"], "note": "Exponentials over the reals."},
{"property": "C54", "status": "proved", "theorems": ["ray_depths_sorted_in_range", "jitter_stays_in_stratum"], "note": ""},
{"property": "C55", "status": "proved", "theorems": ["acc_raymarch_partition", "acc_raymarch_in_range", "acc_raymarch_blend_range_refuted", "acc_raymarch_thick_refuted"], "note": "blend_output=True attenuates twice and surface_thickness>=2 breaks the sum: both refuted."},
{"property": "C56", "status": "proved", "theorems": ["grid_stride_visits_once"], "note": ""},
{"property": "C57", "status": "proved", "theorems": ["masked_gather_pads_with_zero", "masked_gather_empty_refuted", "wmean_is_mean", "point_covariance_symmetric_psd"], "note": "masked_gather on an empty cloud fails (refuted)."},
{"property": "C58", "status": "proved", "theorems": ["cameras_getitem_selects", "cameras_getitem_in_bounds", "join_cameras_concatenates", "calls_keep_cameras", "override_is_local_refuted"], "note": "State change by R/T overrides is a finding."},
{"property": "C59", "status": "partial", "theorems": ["face_areas_normals_formula", "face_areas_normals_gradient_partial", "face_areas_normals_cpu_gradient_partial", "face_areas_normals_gradient_xy", "face_areas_normals_gradient_refuted"], "note": "The gradient is proved for all x and y coordinates and for z where the wrong term vanishes; the code's d normal_y / d v1_z uses cx in place of cy (refuted), so the full statement is false of the code. Degenerate faces (cross product shorter than 1e-6) excluded."},
{"property": "C60", "status": "proved", "theorems": ["joined_scene_samples", "join_scene_defined", "join_scene_needs_two", "join_scene_defined_refuted", "joined_nearest_refuted"], "note": "One channel, one map per mesh. The guards are needed: join_scene_defined_refuted (ZeroDivisionError) and joined_nearest_refuted (ties to even) give the witnesses."},
{"property": "C61", "status": "proved", "theorems": ["edge_loss_of_any_batch", "edge_loss_zero_iff", "edge_loss_rigid_motion", "mesh_edges_are_the_sides", "uniform_smoothing_loss", "cot_smoothing_loss", "cotcurv_smoothing_loss", "unknown_method_rejected", "smoothing_loss_zero_iff", "uniform_loss_rigid_motion", "cot_loss_rigid_motion", "cotcurv_loss_rigid_motion", "isolated_vertex_translation_refuted", "losses_without_faces"], "note": "Values for every reachable batch, zero sets, rigid invariance; refuted: uniform and cot losses with isolated vertices are not translation invariant."},
{"property": "C62", "status": "proved", "theorems": ["taubin_smooths_every_mesh", "taubin_keeps_sizes_and_faces", "taubin_rigid_motion", "taubin_isolated_vertex_refuted", "taubin_without_faces_refuted"], "note": "Value for every reachable batch without isolated vertices; refuted: isolated vertices become nan, a batch without faces loses its vertex lists."},
{"property": "C63", "status": "proved", "theorems": ["consistency_of_any_batch", "hinges_are_the_face_pairs", "bend_of_oriented_faces", "bend_of_unoriented_faces", "bend_between_0_and_2", "consistency_zero_iff_flat", "consistency_rigid_motion", "consistency_ignores_face_order_and_orientation", "consistency_without_faces"], "note": "Meshes objects by their histories; exact reals; autograd not modelled"},
{"property": "C64", "status": "proved", "theorems": ["marching_cubes_naive_level_mesh", "marching_cubes_cpp_level_mesh", "marching_cubes_implementations_agree", "marching_cubes_naive_any_samples", "marching_cubes_cpp_any_samples", "level_mesh_closed", "level_mesh_empty", "vertex_on_level", "local_coordinates_in_box", "default_level", "marching_tables_equal", "clear_crossing_kept_refuted", "link_keys_distinct_refuted"], "note": "Level set meshes for all grids and fields with clear crossings, both implementations; weaker facts for arbitrary samples. The hash keys of the C++ version are modelled with float32 rounding and shown to collide above 2^24 samples."},
{"property": "C65", "status": "proved", "theorems": ["block_argmin_any_schedule", "block_argmax_any_schedule", "block_reduction_deterministic", "block_reduction_finishes"], "note": "micro-step model of the shared-memory reductions; the racing tail of the warp step is shown harmless"},
{"property": "C66", "status": "proved", "theorems": ["cpu_nearest", "gpu_nearest", "cpu_nearest_with_empty_refuted", "edge_distance_cpu", "edge_distance_gpu", "face_distance_cpu", "face_distance_gpu", "different_batch_sizes", "nearest_edge_is_min", "distances_nonneg", "edge_distance_zero_iff", "one_side_empty", "backward_rows", "backward_cpu_gpu", "point_edge_backward", "edge_point_backward"], "note": "distances, losses and gradients of point clouds against meshes; that the face gradient of one pair is the derivative is not shown (only the edge gradient is), its accumulation is; the CPU kernel is wrong after an empty element (refuted)"},
{"property": "C67", "status": "proved", "theorems": ["samples_on_surface", "faces_chosen_by_area", "samples_cannot_be_drawn", "textures_of_empty_meshes_refuted", "uniform_in_face", "samples_rejected"], "note": "Samples, normals and vertex textures for every outcome of the random functions, face choice by area, uniformity inside a face, and the refusals. Findings: textures of a batch with an empty mesh raise instead of giving zeros; a mesh of total area zero raises."},
{"property": "C68", "status": "proved", "theorems": ["alignment_best_fit", "alignment_exact", "alignment_weighted_fit_refuted", "alignment_rejects_shapes", "alignment_rejects_weights", "svd_contract_met", "alignment_any_weights"], "note": "Best fit over all transforms of the requested kind for 0/1 weights, exact recovery, and what is minimised for other weights (every point counts with its squared weight: alignment_weighted_fit_refuted shows the documented weighted fit is not returned). torch.svd is a parameter with its documented contract."},
{"property": "C69", "status": "proved", "theorems": ["icp_runs_algorithm", "icp_errors_never_grow", "icp_more_iterations", "icp_perfect_fit_converges_refuted", "icp_padding_ignored_refuted", "icp_rejects"], "note": "The run of the algorithm, monotone errors, more iterations never worse. Findings: a perfect fit is never reported as converged (0/0 is NaN), and padded points take part when the clouds of each pair have equal sizes."},
{"property": "C70", "status": "proved", "theorems": ["symeig_orthonormal", "symeig_ordered", "symeig_diagonal", "symeig_accurate", "symeig_vectors_exact_refuted"], "note": "Over the reals; float eps is a parameter, argmax/argmin are arbitrary choices of an extremal index. symeig_vectors_exact_refuted records that the vectors are not exact eigenvectors."},
{"property": "C71", "status": "proved", "theorems": ["normals_refused", "local_frames_principal", "normals_are_first_axes", "frames_sign_determined", "normals_of_planes_undetermined"], "note": "torch.linalg.eigh is a parameter with the contract of an ascending orthonormal eigenbasis; symeig3x3 is the model of C70, for which only orthonormality is claimed. normals_of_planes_undetermined records that flat neighbourhoods are not disambiguated."},
{"property": "C72", "status": "proved", "theorems": ["clip_region", "clip_culled_gone", "clip_sources", "clip_orientation", "clip_convert", "clip_convert_empty", "clip_meshes", "clip_neighbours", "clip_total", "clip_nothing", "clip_empty_last_fails", "clip_culls_visible_refuted", "clip_keeps_outside_refuted"], "note": "Regions, orientation, order, meshes, neighbours and conversion for every batch; clip_culls_visible_refuted and clip_keeps_outside_refuted show that the documented meaning of culling is not what the code does."},
{"property": "C73", "status": "proved", "theorems": ["subdivide_keeps_closed", "ico_sphere_closed", "ico_sphere_refines", "ico_sphere_negative", "torus_closed", "torus_small", "torus_value_error", "torus_two_sides_refuted", "pillow_refuted"], "note": "Proved for all levels and sizes over real coordinates. With one or two sides or rings torus returns a mesh that is no closed surface (torus_two_sides_refuted); a face present in both orientations makes subdivision glue four faces to one edge (pillow_refuted)."},
{"property": "C74", "status": "proved", "theorems": ["rays_see_their_pixels", "rays_project_to_their_pixels", "unit_rays_measure_distance", "ndc_grid_is_pixel_centres", "sampler_full_grid", "sampler_per_image", "sampler_mask_only", "sampler_total", "sampler_counts_exclusive", "sampler_replaces_when_short_refuted", "monte_carlo_per_image", "monte_carlo_total", "monte_carlo_total_succeeds", "monte_carlo_counts_exclusive"], "note": "Real arithmetic; random draws and torch.multinomial are arguments under a contract stated in RaysSpec. Asking for more rays than grid entries fails (finding)."},
{"property": "C75", "status": "proved", "theorems": ["crop_keeps_pixels_and_camera", "crops_compose", "edits_keep_the_view", "resize_fits_and_pads", "resize_within_a_pixel", "resize_exact_refuted", "metadata_crop_only_first", "crop_box_accepted", "crop_depth_other_resolution_refuted", "mask_box_is_tight", "mask_box_terminates_refuted"], "note": "crop, resize and mask boxes of implicitron frames; findings: depth at another resolution is cropped by the inverse factor, one-pixel masks loop for ever, resize scales the camera and the picture by slightly different factors"},
{"property": "C76", "status": "proved", "theorems": ["aligned_cameras_see_the_same", "extrinsics_least_squares", "extrinsics_recover", "centers_least_squares", "seat_is_centre", "cameras_alignment_rejects", "extrinsics_no_reflection_refuted", "extrinsics_positive_scale_refuted"], "note": "both modes; findings: mode extrinsics can return a reflection or a negative scale although documented as a true similarity"},
{"property": "C77", "status": "proved", "theorems": ["diffuse_lambert", "specular_phong", "diffuse_extremes", "specular_extremes", "lights_constructed", "lighting_rigid", "specular_dark_refuted", "specular_refuses"], "note": "real numbers for floats; specular_dark_refuted: a shininess of zero lights points behind the light; cameras given by their centres"},
{"property": "C78", "status": "proved", "theorems": ["phong_pixel", "flat_pixel", "gouraud_pixel", "phong_materials_refuted", "gouraud_channels_refuted", "gouraud_refuses"], "note": "texels and fragments are inputs; phong_materials_refuted: per-mesh materials are mis-broadcast in phong and flat shading; gouraud_channels_refuted: one-channel colours"},
{"property": "C79", "status": "proved", "theorems": ["properties_built", "properties_refused", "assigned_read_back", "clone_same", "clone_untouched", "clone_alone", "clone_elements", "gather_rows", "element_alone_refuted", "object_alone_refuted", "length_refuted", "assigned_shape_refused"], "note": "memory blocks and views are modelled; isolation of element assignments is proved for clones and refuted for freshly constructed objects (element_alone_refuted, object_alone_refuted)"},
{"property": "C80", "status": "proved", "theorems": ["vert_align_packed", "vert_align_tensor", "vert_align_padded", "sample_at_pixel", "sample_between_pixels", "sample_in_range", "ndc_sample_at_pixel", "vert_align_refuses", "vert_align_clouds_refuted"], "note": "torch's grid_sample by its ATen definition (Textures.v); vert_align_clouds_refuted: packed results for point clouds contain padding"},
{"property": "C81", "status": "proved", "theorems": ["splatter_defined", "splatter_value_error", "splatter_opacity", "splatter_mixture", "splatter_range", "splatter_background", "splatter_local", "splatter_single_layer", "splatter_flat", "splatter_mirror_single", "splatter_mirror_refuted"], "note": "The mirror claim holds for one layer and is refuted for two or more (splatter_mirror_refuted): the occlusion layer of a neighbour is taken from the transposed neighbour."},
{"property": "C82", "status": "proved", "theorems": ["depth_errors", "depth_exact", "depth_only_valid", "depth_best_scale", "depth_scale_invariant", "depth_right_up_to_scale", "depth_best_scale_refuted"], "note": "The optimality of the estimated scale needs the mean square of the masked prediction to be at least the clamping threshold; the general claim is refuted in depth_best_scale_refuted."},
{"property": "C83", "status": "proved", "theorems": ["mse_masked", "mse_full_mask", "mse_exact", "psnr_ranks", "rgb_l1_is", "rgb_l1_masked", "rgb_l1_mean_refuted", "iou_in_range", "iou_symmetric", "iou_masked", "iou_of_masks", "iou_loss_perfect", "iou_loss_refuted", "huber_grows", "huber_below_distance", "huber_at_zero"], "note": "rgb_l1 is the number of channels times the documented mean (rgb_l1_mean_refuted); equal empty masks have IoU loss 1 (iou_loss_refuted)."},
{"property": "C84", "status": "proved", "theorems": ["log_lerp_laws", "bce_balanced", "bce_nonneg", "bce_masked", "bce_defined", "bce_logits_refuted", "beta_prior_binary", "beta_prior_cap"], "note": "The monotonicity in the logit is refuted for the default pred_eps (bce_logits_refuted)."},
{"property": "C85", "status": "proved", "theorems": ["cone_gaussians_are_moments", "cone_gaussian_shape", "cone_gaussian_disk", "cone_gaussian_defined", "cone_gaussian_refused", "cone_gaussian_short_refuted", "bundle_bins", "bundle_lengths", "bundle_refused"], "note": "The specification integrates over the cone in cylinder coordinates. Directions shorter than 1e-3 are refuted in cone_gaussian_short_refuted."},
{"property": "C86", "status": "proved", "theorems": ["refiner_refines", "refiner_inside", "refiner_keeps_ends", "blurpool_envelope", "blurpool_value", "refiner_blur_argument_refuted", "multipass_refines", "multipass_empty"], "note": "The implicit function with its raymarcher is an arbitrary function that returns nonnegative weights, one per point. That the call's blurpool_weights argument blurs is refuted in refiner_blur_argument_refuted."},
{"property": "C87", "status": "proved", "theorems": ["pool_batches", "pool_epoch_visits_all", "pool_is_balanced", "pool_refused_iff", "pool_without_first", "same_epoch", "same_fixed", "train_conditioning", "known_conditioning", "evaluation_batches", "no_dataset", "scenes_need_same", "scenes_use_their_sampler", "train_needs_frames", "known_epoch_visits_all_refuted", "train_never_conditions_on_itself_refuted"], "note": "Random generators are oracles constrained only to permutations and to range; SceneBatchSampler is a parameter here (C-area SceneSampler models it); workers and collation are not modelled. Two expectations are refuted: a KNOWN epoch need not visit every unseen frame, and TRAIN conditioning of the training set may condition a frame on itself."},
{"property": "C88", "status": "proved", "theorems": ["traced_iff_enters_sphere", "segment_is_inside_sphere", "tracer_returns", "rays_are_independent", "missed_points_are_independent_refuted", "found_is_surface", "found_distance", "thick_objects_are_found", "training_keeps_found", "training_lowest_candidate", "training_missed_nearest", "secant_stays", "found_in_sphere", "training_in_sphere", "training_not_in_front"], "note": "Real arithmetic; the signed distance function is evaluated point by point; argmin is any function returning an index of a least entry; thresholds are non-negative and at least two samples are taken. The point of a ray that misses the sphere depends in evaluation on the rest of the batch (refuted)."},
{"property": "C89", "status": "proved", "theorems": ["atlas_cells", "atlas_small_triangles", "atlas_cell_inside", "atlas_sample_point", "atlas_sample_cell", "atlas_edge_refuted", "atlas_background", "atlas_same_as_uv", "atlas_of_mesh", "atlas_wrap", "atlas_colours_between", "atlas_repeat_refuted", "atlas_sample_defined"], "note": "atlas_edge_refuted and atlas_repeat_refuted record where the code departs from what its documentation promises: the claim for points is proved off the edge opposite the last vertex."},
{"property": "C90", "status": "proved", "theorems": ["fisheye_ray", "fisheye_documented", "fisheye_centre", "fisheye_equidistant", "fisheye_jacobian", "fisheye_distorted", "fisheye_undistort_stops", "fisheye_angle", "fisheye_round_trip", "fisheye_round_trip_exact", "fisheye_centre_refuted", "fisheye_depth_refuted", "fisheye_no_radial_refuted"], "note": "Three theorems with the suffix _refuted record that the documented X = unproject(project(X)) fails at the principal point, loses the depth, and fails when use_radial is off."},
{"property": "C91", "status": "proved", "theorems": ["circle_area", "circle_area_rotate", "circle_defined", "circle_best", "circle_exact", "circle_order", "circle_generated", "circle_first", "circle_direction", "circle_angles", "circle_spacing_refuted", "circle3_plane", "circle3_generated", "circle3_exact", "circle3_offset"], "note": "circle_fitting.py; torch.linalg.lstsq and eigh enter through their contracts, assumed only for the inputs they get. circle_spacing_refuted records that the n points generated over a full turn repeat the first."},
{"property": "C92", "status": "proved", "theorems": ["checker_defined", "checker_squares", "checker_once", "checker_adjacent"], "note": "utils/checkerboard.py; colours of any type, the atlas of one cell per face is the list of its colours."},
{"property": "C93", "status": "proved", "theorems": ["views_pooled", "views_hidden", "views_blind", "views_max_refuted", "views_dim", "views_dim_refuted", "views_angle_weights", "views_angle_mean", "views_angle_blind", "views_angle_max_refuted"], "note": "reals; binary masks; angle weights for natural exponents and their means only; the identity aggregators and angle-weighted deviations are not treated"}
]}
