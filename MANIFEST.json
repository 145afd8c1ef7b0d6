{
 "claims": [
  {
   "property": "C01",
   "status": "proved",
   "theorems": [
    "C01_uv_cache_content",
    "C01_uv_cache_raises_iff",
    "C01_uv_cache_schedule_independent",
    "C01_uv_cache_computed",
    "C01_uv_cache_final_file",
    "C01_uv_cache_other_setup_raises",
    "C01_uv_cache_key_resolution"
   ],
   "note": "UvCacheProps.v. Content, raising condition, schedule independence, set of computed maps, final file."
  },
  {
   "property": "C02",
   "status": "proved",
   "theorems": [
    "C02_uv_cache_crash_resume",
    "C02_uv_cache_checkpointed_kept",
    "C02_uv_cache_lost_work_bound",
    "C02_uv_cache_crash_resume_duplicates_refuted"
   ],
   "note": "UvCacheProps.v. Crash after any prefix of effects; duplicate keys refuted separately."
  },
  {
   "property": "C03",
   "status": "proved",
   "theorems": [
    "C03_uv_cache_torn_write",
    "C03_uv_cache_torn_forever",
    "C03_uv_cache_crash_safety_refuted"
   ],
   "note": "UvCacheProps.v. Characterises exactly what a torn write leads to; the naive crash-safety claim is refuted."
  },
  {
   "property": "C04",
   "status": "proved",
   "theorems": [
    "C04_uv_grid_conserves",
    "C04_uv_grid_conserves_mirror",
    "C04_uv_grid_nonneg",
    "C04_uv_daily_total"
   ],
   "note": "UvGridProps.v."
  },
  {
   "property": "C05",
   "status": "proved",
   "theorems": [
    "C05_uv_grid_pixel_even",
    "C05_uv_grid_pixel_odd",
    "C05_uv_grid_pixel_mirror",
    "C05_uv_grid_odd_dc_refuted",
    "C05_uv_coverage_pixel",
    "C05_uv_daily_pixel",
    "C05_uv_old_daily_pixel",
    "C05_uv_old_daily_last"
   ],
   "note": "UvGridProps.v. Also the older numba implementation and the daily average; odd grids miss the DC pixel."
  },
  {
   "property": "C06",
   "status": "proved",
   "theorems": [
    "C06_uv_grid_mirror_symmetric",
    "C06_uv_grid_mirror_odd_refuted",
    "C06_uv_grid_mirror_nyquist_refuted"
   ],
   "note": "UvGridProps.v. Counterexamples for odd grids and the Nyquist row."
  },
  {
   "property": "C07",
   "status": "proved",
   "theorems": [
    "C07_rotation_preserves_dot",
    "C07_rotation_numba_preserves_dot",
    "C07_rotation_proper",
    "C07_uv_track_ellipse",
    "C07_rotation_hour_angle",
    "C07_rotation_daily_period",
    "C07_rotation_numba",
    "C07_rotation_single_baseline"
   ],
   "note": "RotProps.v. Uses the stdlib Reals axioms. Also: proper rotation, uv ellipse, 24 h period, and the two-antenna failure caused by squeeze()."
  },
  {
   "property": "C08",
   "status": "proved",
   "theorems": [
    "C08_baselines_all_pairs",
    "C08_baselines_translation_invariant",
    "C08_baselines_scale",
    "C08_all_ordered_baselines",
    "C08_stamped_baselines"
   ],
   "note": "AntProps.v."
  },
  {
   "property": "C09",
   "status": "proved",
   "theorems": [
    "C09_chunks_partition",
    "C09_chunks_shape"
   ],
   "note": "AntProps.v. Equality with the unchunked computation for every total and n_jobs; raises otherwise."
  },
  {
   "property": "C10",
   "status": "proved",
   "theorems": [
    "C10_cbin_round_trip",
    "C10_raw_round_trip",
    "C10_raw_other_shapes"
   ],
   "note": "BinProps.v. Floats are an arbitrary codec; the cube root in read_raw_binary is taken exactly."
  },
  {
   "property": "C11",
   "status": "proved",
   "theorems": [
    "C11_density_round_trip",
    "C11_clumping_round_trip",
    "C11_old_format"
   ],
   "note": "BinProps.v."
  },
  {
   "property": "C12",
   "status": "proved",
   "theorems": [
    "C12_xfrac_round_trip",
    "C12_wrong_precision_raises"
   ],
   "note": "BinProps.v. Equality of rationals; values representable in the file's float type."
  },
  {
   "property": "C13",
   "status": "proved",
   "theorems": [
    "C13_velocity_round_trip",
    "C13_other_shapes"
   ],
   "note": "BinProps.v."
  },
  {
   "property": "C14",
   "status": "proved",
   "theorems": [
    "C14_one_marker",
    "C14_one_marker_joblib",
    "C14_one_marker_torch",
    "C14_joblib_completes",
    "C14_cubemap",
    "C14_cubemap_joblib",
    "C14_cubemap_joblib_live",
    "C14_cubemap_torch",
    "C14_cubemap_joblib_negative"
   ],
   "note": ""
  },
  {
   "property": "C15",
   "status": "proved",
   "theorems": [
    "C15_euler",
    "C15_euler_backends",
    "C15_euler_translation",
    "C15_euler_complement"
   ],
   "note": ""
  },
  {
   "property": "C16",
   "status": "proved",
   "theorems": [
    "C16_betti_components",
    "C16_components_unique",
    "C16_euler_poincare",
    "C16_betti_empty_full",
    "C16_betti0_shift_refuted"
   ],
   "note": ""
  },
  {
   "property": "C17",
   "status": "proved",
   "theorems": [
    "C17_fof_search_shipped",
    "C17_fof_search_list",
    "C17_fof_search_queue_race_refuted",
    "C17_fof_sizes",
    "C17_fof_full_box"
   ],
   "note": ""
  },
  {
   "property": "C18",
   "status": "proved",
   "theorems": [
    "C18_lightcone_slices",
    "C18_lightcone_low_snapshot",
    "C18_velocity_slices",
    "C18_lightcone_raises",
    "C18_lightcone_slices_refuted",
    "C18_depth_mhz_raises",
    "C18_make_range",
    "C18_make_default"
   ],
   "note": ""
  },
  {
   "property": "C19",
   "status": "proved",
   "theorems": [
    "C19_lightcone_made",
    "C19_lightcone_cells",
    "C19_lightcone_range",
    "C19_between",
    "C19_linear",
    "C19_sigmoid",
    "C19_periodic_index",
    "C19_long_box_refuted"
   ],
   "note": ""
  },
  {
   "property": "C20",
   "status": "proved",
   "theorems": [
    "C20_step_transition",
    "C20_step_always_high",
    "C20_step_nearest_iff"
   ],
   "note": ""
  },
  {
   "property": "C21",
   "status": "proved",
   "theorems": [
    "C21_radial_average",
    "C21_one_bin",
    "C21_conservation",
    "C21_raises",
    "C21_integer_kbins",
    "C21_mixed_edges"
   ],
   "note": ""
  },
  {
   "property": "C22",
   "status": "proved",
   "theorems": [
    "C22_mu_binning",
    "C22_one_bin",
    "C22_top_edge",
    "C22_los_modes_dropped",
    "C22_weights_raise"
   ],
   "note": ""
  },
  {
   "property": "C23",
   "status": "proved",
   "theorems": [
    "C23_grid_3d_aligned",
    "C23_zero_mode",
    "C23_grid_half_offset",
    "C23_half_offset_iff"
   ],
   "note": ""
  },
  {
   "property": "C24",
   "status": "proved",
   "theorems": [
    "C24_nonneg",
    "C24_cross_symmetric",
    "C24_parseval",
    "C24_parseval_auto",
    "C24_all_cells",
    "C24_translation_invariant",
    "C24_point_symmetric",
    "C24_zero_mode",
    "C24_bilinear"
   ],
   "note": ""
  },
  {
   "property": "C25",
   "status": "proved",
   "theorems": [
    "C25_mask_axis0",
    "C25_mask_axis1",
    "C25_mask_axis2",
    "C25_exact_iff_even"
   ],
   "note": ""
  },
  {
   "property": "C26",
   "status": "proved",
   "theorems": [
    "C26_pooled",
    "C26_default_sizes_ignore_variances",
    "C26_population_variances",
    "C26_docstring_example_refuted"
   ],
   "note": "Over R. The docstring example states a mean of 3.2 while the formula gives 29/9."
  },
  {
   "property": "C27",
   "status": "proved",
   "theorems": [
    "C27_subtract_mean",
    "C27_slices",
    "C27_zero_mean",
    "C27_idempotent",
    "C27_overdensity",
    "C27_apply_func"
   ],
   "note": "Finding: signal_overdensity mishandles negative axes."
  },
  {
   "property": "C28",
   "status": "proved",
   "theorems": [
    "C28_denominator_zero_iff_constant",
    "C28_affine_invariance",
    "C28_kurtosis_lower_bound",
    "C28_standardised",
    "C28_symmetric_no_skew"
   ],
   "note": "Over R; x**(3/2) is x*sqrt(x)."
  },
  {
   "property": "C29",
   "status": "proved",
   "theorems": [
    "C29_contiguous_labels",
    "C29_returns_iff_contiguous",
    "C29_negative_labels_refuted",
    "C29_superpixel_map",
    "C29_mean_map_keeps_total",
    "C29_binary_stitch",
    "C29_stitch_any"
   ],
   "note": "Any argsort result is allowed. Findings: labels must be 0..k-1; thres=0 is ignored in binary_stitch."
  },
  {
   "property": "C30",
   "status": "proved",
   "theorems": [
    "C30_find_idx",
    "C30_raises_iff",
    "C30_integer_raises_iff",
    "C30_constant_nan",
    "C30_integer_values_refuted"
   ],
   "note": "Over Q. The clamped values are also what is left in the caller's array."
  },
  {
   "property": "C31",
   "status": "proved",
   "theorems": [
    "C31_interpolation_at_cells",
    "C31_histogram",
    "C31_crossing_rays_end",
    "C31_2d_complete",
    "C31_directions",
    "C31_directions_anisotropic",
    "C31_3d_rays_lost_refuted",
    "C31_no_region",
    "C31_curve"
   ],
   "note": "Rays are traced over rationals with the start cell and direction as arguments (random draws); 2-D and 3-D interpolation modelled as in mfp_np.py."
  },
  {
   "property": "C32",
   "status": "proved",
   "theorems": [
    "C32_dist_from_volumes",
    "C32_edges",
    "C32_get_distribution",
    "C32_geometric",
    "C32_distribution_bins",
    "C32_null_value",
    "C32_equal_edges"
   ],
   "note": "Over the reals; np.histogram's bin rule modelled directly."
  },
  {
   "property": "C33",
   "status": "proved",
   "theorems": [
    "C33_percolation",
    "C33_reported_iff_two_cells",
    "C33_spanning_refuted",
    "C33_flat_data_raise"
   ],
   "note": "skimage label modelled by the search of FofModel (raster order numbering)."
  },
  {
   "property": "C34",
   "status": "proved",
   "theorems": [
    "C34_unset_is_244",
    "C34_accepted_box",
    "C34_rejected_box",
    "C34_last_call_wins",
    "C34_mixed_state_refuted",
    "C34_grid_units"
   ],
   "note": "Module globals as a state machine over R; sessions are arbitrary call lists."
  },
  {
   "property": "C35",
   "status": "proved",
   "theorems": [
    "C35_setters",
    "C35_values",
    "C35_stale_iff",
    "C35_luminosity_distance"
   ],
   "note": "Same state machine; import-time values computed symbolically."
  },
  {
   "property": "C36",
   "status": "proved",
   "theorems": [
    "C36_inverse_pairs",
    "C36_angle_value",
    "C36_frequency_value",
    "C36_frequency_decreasing",
    "C36_virial",
    "C36_virial_domain",
    "C36_kelvin_jansky",
    "C36_factor",
    "C36_overdensity",
    "C36_einstein_de_sitter"
   ],
   "note": "Over R; numpy's NaN for fractional powers of negatives is None; the distance integral is an argument."
  },
  {
   "property": "C37",
   "status": "proved",
   "theorems": [
    "C37_full_catalogue_limit",
    "C37_halo_list",
    "C37_full_catalogue",
    "C37_mass_column",
    "C37_zero_upper_mass",
    "C37_rockstar_limit",
    "C37_reposition"
   ],
   "note": "Full catalogue semantics proved, with the column, zero-mass and Rockstar defects characterised."
  },
  {
   "property": "C38",
   "status": "proved",
   "theorems": [
    "C38_cube",
    "C38_cube_conserves",
    "C38_redshift_axis_refuted",
    "C38_velocity_axis_refuted",
    "C38_pv_box_component",
    "C38_light_cone",
    "C38_light_cone_conserves",
    "C38_periodic_shift",
    "C38_periodic_shift_refuted",
    "C38_balance",
    "C38_periodic_conserves",
    "C38_open_loses",
    "C38_no_velocity",
    "C38_shift_direction",
    "C38_lines_of_sight",
    "C38_by_axis",
    "C38_uniform_shift"
   ],
   "note": "Proved over exact reals, including the identity at zero velocity."
  },
  {
   "property": "C39",
   "status": "proved",
   "theorems": [
    "C39_depths",
    "C39_analytic_part",
    "C39_starts_at_zero_iff_flat",
    "C39_monotone",
    "C39_order_independent",
    "C39_map_agrees",
    "C39_map_unsorted_refuted",
    "C39_no_points"
   ],
   "note": "Proved; the num_points=0 and unsorted tau_map cases are refuted separately."
  },
  {
   "property": "C40",
   "status": "proved",
   "theorems": [
    "C40_circular_any",
    "C40_circular",
    "C40_constant",
    "C40_padded",
    "C40_raises",
    "C40_circular_impulse",
    "C40_circular_identity_iff",
    "C40_constant_impulse",
    "C40_padded_impulse",
    "C40_wrap_is_not_circular",
    "C40_circular_total",
    "C40_between",
    "C40_linear"
   ],
   "note": "In any number of dimensions, FFTs as their defining sums (convolution theorem proved). NumPy/JAX back ends; torch maps 'mirror' to a different padding and is not modelled."
  },
  {
   "property": "C41",
   "status": "proved",
   "theorems": [
    "C41_los_tophat",
    "C41_los_tophat_between",
    "C41_los_tophat_descending",
    "C41_gauss_kernel",
    "C41_gauss_shape",
    "C41_gauss_fwhm",
    "C41_tophat_block",
    "C41_tophat_corner",
    "C41_tophat_kernel",
    "C41_tophat_zero_width",
    "C41_sphere_kernel",
    "C41_smooth_gauss",
    "C41_gauss_point_source",
    "C41_smooth_tophat_odd",
    "C41_smooth_tophat_even",
    "C41_width_one_shifts",
    "C41_coeval_tophat",
    "C41_coeval_tophat_smooths_the_sky"
   ],
   "note": "Slices are square in the smoothing theorems. Lanczos kernel and spline interpolation not modelled."
  },
  {
   "property": "C42",
   "status": "proved",
   "theorems": [
    "C42_padded_slice",
    "C42_padded_slice_iff",
    "C42_crop_back",
    "C42_padding_lightcone"
   ],
   "note": "Padded size taken non-negative; np.pad wrap as periodic continuation."
  },
  {
   "property": "C43",
   "status": "proved",
   "theorems": [
    "C43_mpc",
    "C43_mpc_lengths",
    "C43_mpc_first_slice",
    "C43_frequency"
   ],
   "note": "one line of sight (the code acts on each pixel independently); cosmological distances and frequencies are given lists"
  },
  {
   "property": "C44",
   "status": "proved",
   "theorems": [
    "C44_files_read",
    "C44_wrong_pair",
    "C44_increasing",
    "C44_result",
    "C44_blend",
    "C44_density"
   ],
   "note": "Index arithmetic of the file choice proved for every listing; the right pair is never read."
  },
  {
   "property": "C45",
   "status": "proved",
   "theorems": [
    "C45_windows",
    "C45_partition",
    "C45_mean",
    "C45_raises",
    "C45_constant",
    "C45_scaling",
    "C45_sigma",
    "C45_auto",
    "C45_slide",
    "C45_slide_refuted"
   ],
   "note": "power_spectrum_1d is an argument"
  },
  {
   "property": "C46",
   "status": "proved",
   "theorems": [
    "C46_paint_kernel",
    "C46_paint_adds_refuted",
    "C46_batch",
    "C46_bubble_model",
    "C46_contains_start",
    "C46_no_error",
    "C46_wide_bubble",
    "C46_caller_array",
    "C46_non_overlapping",
    "C46_non_overlapping_refuted",
    "C46_fractional_start"
   ],
   "note": "integer radii; float cubes; random draws and the distance transform's table are arguments"
  },
  {
   "property": "C47",
   "status": "proved",
   "theorems": [
    "C47_grid",
    "C47_total_mass",
    "C47_read_mass",
    "C47_write_read",
    "C47_mass_round_trip",
    "C47_written_column"
   ],
   "note": "Gridding, reading and the (broken) mass round trip fully characterised."
  },
  {
   "property": "C48",
   "status": "proved",
   "theorems": [
    "C48_calc_lightcone",
    "C48_calc_lightcone_axis_refuted",
    "C48_calc_lightcone_raises",
    "C48_calc_full_lightcone_refuted",
    "C48_mean_signal",
    "C48_mean_value",
    "C48_calc_dt",
    "C48_linear",
    "C48_box_mean",
    "C48_negative_cell",
    "C48_lightcone",
    "C48_lightcone_axis_refuted",
    "C48_lightcone_redshifts",
    "C48_lightcone_cell",
    "C48_full",
    "C48_full_ionised",
    "C48_full_lightcone"
   ],
   "note": "Proved over reals with explicit infinities/NaN for the corrected spin temperature."
  },
  {
   "property": "C49",
   "status": "proved",
   "theorems": [
    "C49_dilation",
    "C49_erosion",
    "C49_erosion_variants",
    "C49_opening",
    "C49_anti_extensive",
    "C49_monotone",
    "C49_idempotent",
    "C49_asymmetric_refuted",
    "C49_disk",
    "C49_area",
    "C49_cdf",
    "C49_granulometry",
    "C49_pattern_sum",
    "C49_pattern_refuted"
   ],
   "note": "Convolutions are exact (no FFT rounding). Monotonicity of the area in the radius, which the pattern spectrum relies on, is refuted with a disc of radius 3. _granulometry needs numpy < 1.24 (np.int, np.float, np.bool)."
  },
  {
   "property": "C50",
   "status": "proved",
   "theorems": [
    "C50_fixed",
    "C50_fixed_partition",
    "C50_fixed_monotone",
    "C50_fixed_negate",
    "C50_triangle2D",
    "C50_slices",
    "C50_triangle3D",
    "C50_triangle_one_slice",
    "C50_kmeans_single",
    "C50_kmeans_two_values",
    "C50_kmeans_two_clusters",
    "C50_kmeans_two_clusters_refuted",
    "C50_kmeans_three_clusters",
    "C50_kmeans_n_clusters"
   ],
   "note": "triangle thresholds and k-means labels/centres are arguments of the model"
  },
  {
   "property": "C51",
   "status": "proved",
   "theorems": [
    "C51_stamps_at_pixel",
    "C51_stamps_collapse",
    "C51_stamps_agree_with_grid",
    "C51_stamps_odd_grid_refuted"
   ],
   "note": "AntProps.v."
  },
  {
   "property": "C52",
   "status": "proved",
   "theorems": [
    "C52_lagrangian_rows",
    "C52_lagrangian_documented_iff",
    "C52_lagrangian_identity_refuted"
   ],
   "note": "AntProps.v. Exact characterisation of when the documented correspondence holds."
  },
  {
   "property": "C53",
   "status": "proved",
   "theorems": [
    "C53_calibration_declination_ignored",
    "C53_calibration_declination_is_time_shift",
    "C53_calibration_rotation_refuted"
   ],
   "note": "RotProps.v."
  },
  {
   "property": "C54",
   "status": "proved",
   "theorems": [
    "C54_local_axes",
    "C54_xyz_axes",
    "C54_documented_axes_refuted",
    "C54_enu_to_ecef_isometry",
    "C54_enu_to_ecef_origin",
    "C54_ecef_to_xyz_isometry",
    "C54_geographic_on_sphere",
    "C54_geographic_longitude_invariant"
   ],
   "note": "RotProps.v."
  },
  {
   "property": "C55",
   "status": "proved",
   "theorems": [
    "C55_mesh_size",
    "C55_temper_mesh_size",
    "C55_temper_overflow"
   ],
   "note": "BinProps.v. Temperature file byte layout as in XfracFile (marker, mesh, two markers, Fortran data)."
  },
  {
   "property": "C56",
   "status": "proved",
   "theorems": [
    "C56_number",
    "C56_never",
    "C56_equal_frequency"
   ],
   "note": ""
  },
  {
   "property": "C57",
   "status": "proved",
   "theorems": [
    "C57_complete",
    "C57_step_length",
    "C57_equal_distance"
   ],
   "note": ""
  },
  {
   "property": "C58",
   "status": "proved",
   "theorems": [
    "C58_subvolume_range",
    "C58_subvolume_raises",
    "C58_depths",
    "C58_dims",
    "C58_slices",
    "C58_covers"
   ],
   "note": ""
  },
  {
   "property": "C59",
   "status": "proved",
   "theorems": [
    "C59_interior_bins",
    "C59_edge_counted_twice_refuted",
    "C59_first_bin",
    "C59_last_bin",
    "C59_log_first_bin",
    "C59_mu_index",
    "C59_against_ordinary",
    "C59_equal_off_edges"
   ],
   "note": ""
  },
  {
   "property": "C60",
   "status": "proved",
   "theorems": [
    "C60_binned_2d",
    "C60_automatic_bins",
    "C60_list_of_numbers_raises"
   ],
   "note": ""
  },
  {
   "property": "C61",
   "status": "proved",
   "theorems": [
    "C61_boxsize",
    "C61_volume",
    "C61_wavenumbers",
    "C61_number",
    "C61_box_dims"
   ],
   "note": ""
  },
  {
   "property": "C62",
   "status": "proved",
   "theorems": [
    "C62_formula",
    "C62_covariance",
    "C62_units",
    "C62_between",
    "C62_uniform_density"
   ],
   "note": "Over R."
  },
  {
   "property": "C63",
   "status": "proved",
   "theorems": [
    "C63_integer_redshift",
    "C63_there_and_back",
    "C63_integer_distance",
    "C63_integer_age_zero_refuted"
   ],
   "note": "The quadrature value is an argument."
  },
  {
   "property": "C64",
   "status": "proved",
   "theorems": [
    "C64_spectrum",
    "C64_shapes",
    "C64_symmetric",
    "C64_idempotent",
    "C64_complete",
    "C64_linear",
    "C64_energy",
    "C64_flux",
    "C64_coeval"
   ],
   "note": "Exact reals; FFT as its defining sum."
  },
  {
   "property": "C65",
   "status": "proved",
   "theorems": [
    "C65_weighting",
    "C65_scaling",
    "C65_four_times_longer",
    "C65_linear",
    "C65_unobserved",
    "C65_covariance",
    "C65_variance",
    "C65_image_sigma",
    "C65_sefd",
    "C65_sefd_table"
   ],
   "note": "Exact reals; numpy's normal draws enter as rms times standard variates; default uv_map_min, no smoothing of the uv map, fft_wrap=False."
  },
  {
   "property": "C66",
   "status": "proved",
   "theorems": [
    "C66_even",
    "C66_odd",
    "C66_radius",
    "C66_nested",
    "C66_symmetry_refuted"
   ],
   "note": "Includes the refutation of point symmetry."
  },
  {
   "property": "C67",
   "status": "proved",
   "theorems": [
    "C67_bandwidth",
    "C67_positive",
    "C67_band",
    "C67_cube_refuted"
   ],
   "note": "noise_cube_lightcone raising is proved from the parameter and argument lists."
  },
  {
   "property": "C68",
   "status": "proved",
   "theorems": [
    "C68_window",
    "C68_symmetric",
    "C68_centre"
   ],
   "note": "scipy's window is modelled by its cosine sum."
  },
  {
   "property": "C69",
   "status": "proved",
   "theorems": [
    "C69_domain",
    "C69_expected_power",
    "C69_even_cube",
    "C69_odd",
    "C69_odd_refuted",
    "C69_even_square",
    "C69_linear"
   ],
   "note": "Refuted for odd grids (C69_odd_refuted) and displaced in 2-D (C69_even_square); proved exactly for even 3-D grids and characterised for all others."
  },
  {
   "property": "C70",
   "status": "proved",
   "theorems": [
    "C70_bind",
    "C70_multipoles_refuted",
    "C70_multipoles_error",
    "C70_freq_box_refuted",
    "C70_uvmap_needed",
    "C70_uvmap_coeval_needed",
    "C70_uvmap_cause",
    "C70_multipoles_cause",
    "C70_halo3d",
    "C70_wedge_refuted"
   ],
   "note": "The named functions fail for all inputs; what earlier statements do is an argument. *args and **kwargs are not modelled."
  },
  {
   "property": "C71",
   "status": "proved",
   "theorems": [
    "C71_scale",
    "C71_scale_refuted",
    "C71_linear",
    "C71_bound",
    "C71_empty_bins",
    "C71_radii_domain",
    "C71_radii",
    "C71_edges_refuted",
    "C71_pair_count_blind",
    "C71_clustering_refuted",
    "C71_pair_count_refuted",
    "C71_order_refuted",
    "C71_cross_count",
    "C71_estimator",
    "C71_bins",
    "C71_landy_szalay"
   ],
   "note": "The documented formula and pair counts are refuted; what the code computes is characterised. Points are counted with an arbitrary distance function."
  },
  {
   "property": "C72",
   "status": "proved",
   "theorems": [
    "C72_convolve",
    "C72_linear",
    "C72_domain",
    "C72_mean_lost",
    "C72_limited",
    "C72_cut",
    "C72_cut_symmetric",
    "C72_cut_nested",
    "C72_radius",
    "C72_radius_monotone",
    "C72_threshold",
    "C72_threshold_argument",
    "C72_coeval_axes",
    "C72_coeval_no_limit"
   ],
   "note": "Map given by the caller; line-of-sight smoothing of the coeval version is an argument (see C41)."
  },
  {
   "property": "C73",
   "status": "proved",
   "theorems": [
    "C73_slice",
    "C73_lightcone",
    "C73_crop",
    "C73_back",
    "C73_resample"
   ],
   "note": ""
  },
  {
   "property": "C74",
   "status": "proved",
   "theorems": [
    "C74_undo",
    "C74_pointwise",
    "C74_range",
    "C74_operations",
    "C74_generators",
    "C74_closed_refuted",
    "C74_flip",
    "C74_flip_refuted",
    "C74_any_shape",
    "C74_any_shape_refuted"
   ],
   "note": ""
  },
  {
   "property": "C75",
   "status": "proved",
   "theorems": [
    "C75_window",
    "C75_bounds",
    "C75_uniform",
    "C75_one_cell",
    "C75_roll",
    "C75_long_refuted",
    "C75_axis",
    "C75_axis_refuted",
    "C75_methods",
    "C75_density",
    "C75_cells"
   ],
   "note": ""
  },
  {
   "property": "C76",
   "status": "proved",
   "theorems": [
    "C76_slices_axis",
    "C76_range",
    "C76_decreasing",
    "C76_centre",
    "C76_defined",
    "C76_sigmoid",
    "C76_values",
    "C76_2d_null",
    "C76_shapes",
    "C76_slices",
    "C76_one_redshift"
   ],
   "note": ""
  },
  {
   "property": "C77",
   "status": "proved",
   "theorems": [
    "C77_average",
    "C77_scales",
    "C77_scales_refuted",
    "C77_largest",
    "C77_monotone",
    "C77_counts",
    "C77_distribution",
    "C77_upper",
    "C77_shares",
    "C77_corner_refuted",
    "C77_interior",
    "C77_cylinder",
    "C77_window"
   ],
   "note": ""
  },
  {
   "property": "C78",
   "status": "proved",
   "theorems": [
    "C78_segmentation",
    "C78_clusters_only",
    "C78_radius",
    "C78_values",
    "C78_volume_blind",
    "C78_volume_refuted",
    "C78_defined",
    "C78_distribution"
   ],
   "note": ""
  },
  {
   "property": "C79",
   "status": "proved",
   "theorems": [
    "C79_cell",
    "C79_units",
    "C79_bin",
    "C79_conserved",
    "C79_occupied",
    "C79_box_ignored",
    "C79_spanning",
    "C79_box_refuted",
    "C79_history",
    "C79_values"
   ],
   "note": ""
  },
  {
   "property": "C80",
   "status": "proved",
   "theorems": [
    "C80_read",
    "C80_success",
    "C80_failure",
    "C80_layout_refuted",
    "C80_layout_single",
    "C80_history"
   ],
   "note": ""
  },
  {
   "property": "C81",
   "status": "proved",
   "theorems": [
    "C81_accepts",
    "C81_contrast",
    "C81_contrast_mean",
    "C81_read",
    "C81_history",
    "C81_failed_read",
    "C81_row",
    "C81_hubble_ignored",
    "C81_hubble",
    "C81_save_message",
    "C81_hmf",
    "C81_hmf_mass",
    "C81_hmf_bins"
   ],
   "note": ""
  },
  {
   "property": "C82",
   "status": "proved",
   "theorems": [
    "C82_sources",
    "C82_sources_distinct",
    "C82_sources_refuted",
    "C82_gaussian_is_step",
    "C82_step",
    "C82_sigmoid",
    "C82_cone",
    "C82_cone_inside",
    "C82_wavenumbers",
    "C82_accepts",
    "C82_image_accepts",
    "C82_barrel_never",
    "C82_even",
    "C82_even_identity",
    "C82_halved",
    "C82_odd",
    "C82_odd_refuted"
   ],
   "note": ""
  },
  {
   "property": "C83",
   "status": "proved",
   "theorems": [
    "C83_channel",
    "C83_local",
    "C83_keeps",
    "C83_flat_removed",
    "C83_monotone",
    "C83_spectrum",
    "C83_gain",
    "C83_preserved",
    "C83_redshift",
    "C83_buffer",
    "C83_accepts",
    "C83_slope_distance",
    "C83_slope"
   ],
   "note": ""
  },
  {
   "property": "C84",
   "status": "proved",
   "theorems": [
    "C84_triangles",
    "C84_closed",
    "C84_odd_refuted",
    "C84_cubic",
    "C84_symmetric",
    "C84_width_ignored",
    "C84_translation",
    "C84_component_mask",
    "C84_component_refuted",
    "C84_third_side",
    "C84_equilateral",
    "C84_bins"
   ],
   "note": ""
  },
  {
   "property": "C85",
   "status": "proved",
   "theorems": [
    "C85_comoving",
    "C85_luminosity_flat",
    "C85_zero_lambda",
    "C85_curvature",
    "C85_inverse_at_nodes",
    "C85_integer_refuted"
   ],
   "note": ""
  },
  {
   "property": "C86",
   "status": "proved",
   "theorems": [
    "C86_flux",
    "C86_magnitudes",
    "C86_magnitudes_inverse",
    "C86_field_of_view",
    "C86_particles",
    "C86_halo_refuted"
   ],
   "note": ""
  },
  {
   "property": "C87",
   "status": "proved",
   "theorems": [
    "C87_formula",
    "C87_scaling",
    "C87_positive"
   ],
   "note": ""
  },
  {
   "property": "C88",
   "status": "proved",
   "theorems": [
    "C88_prediction",
    "C88_nan",
    "C88_sticky",
    "C88_reorder_refuted",
    "C88_means",
    "C88_least_squares",
    "C88_order_free",
    "C88_counts",
    "C88_agree",
    "C88_few_points_refuted",
    "C88_held_out"
   ],
   "note": ""
  },
  {
   "property": "C89",
   "status": "proved",
   "theorems": [
    "C89_counts",
    "C89_counts_plain",
    "C89_counts_odd_refuted",
    "C89_unit_gains",
    "C89_gain_model",
    "C89_name_first",
    "C89_documented_refuted",
    "C89_polar_as_parts",
    "C89_polar_refuted",
    "C89_cells",
    "C89_conserved",
    "C89_mirror_symmetric",
    "C89_observation",
    "C89_timescale",
    "C89_redundant",
    "C89_factor",
    "C89_real_gains",
    "C89_perfect",
    "C89_response",
    "C89_response_mirrored",
    "C89_phase_refuted",
    "C89_pairs"
   ],
   "note": ""
  },
  {
   "property": "C90",
   "status": "proved",
   "theorems": [
    "C90_accepted",
    "C90_value",
    "C90_history",
    "C90_untouched",
    "C90_tapers",
    "C90_ends",
    "C90_repeat_refuted"
   ],
   "note": ""
  },
  {
   "property": "C91",
   "status": "proved",
   "theorems": [
    "C91_cauchy_schwarz",
    "C91_symmetric",
    "C91_sum_of_fields",
    "C91_scale",
    "C91_translation",
    "C91_mu_bins",
    "C91_mu_cross",
    "C91_mu_range",
    "C91_one_dimension",
    "C91_split",
    "C91_ratio_bounds",
    "C91_isotropic",
    "C91_ratio_finite",
    "C91_scale_invariant",
    "C91_ratio_real",
    "C91_dimensionless",
    "C91_interp_range",
    "C91_single_bin",
    "C91_dimensionless_bound",
    "C91_nan_segments",
    "C91_kbins_needs_array",
    "C91_partition",
    "C91_mu_partition",
    "C91_mu_edges",
    "C91_line_of_sight"
   ],
   "note": ""
  },
  {
   "property": "C92",
   "status": "proved",
   "theorems": [
    "C92_runs",
    "C92_redshift",
    "C92_basename",
    "C92_root",
    "C92_xfrac_name",
    "C92_temper_name",
    "C92_single_digit_refuted",
    "C92_no_extension_refuted",
    "C92_leading_names",
    "C92_listing_fields",
    "C92_listing_order",
    "C92_range",
    "C92_bracket",
    "C92_filetype",
    "C92_readable",
    "C92_given",
    "C92_default",
    "C92_array_refuted",
    "C92_save_extension",
    "C92_save_untyped",
    "C92_save_precedence_refuted",
    "C92_save_case",
    "C92_lightcone_text_refuted",
    "C92_lightcone_names",
    "C92_lightcone_array"
   ],
   "note": ""
  },
  {
   "property": "C93",
   "status": "proved",
   "theorems": [
    "C93_last_edge",
    "C93_bins",
    "C93_spectrum",
    "C93_origin_refuted",
    "C93_default_edges",
    "C93_observing_time_refuted",
    "C93_uniform_refuted",
    "C93_coverage",
    "C93_briggs_order",
    "C93_briggs_direction_refuted",
    "C93_briggs_noise",
    "C93_briggs_mean",
    "C93_wrap_refuted",
    "C93_uv_lightcone"
   ],
   "note": ""
  },
  {
   "property": "C94",
   "status": "proved",
   "theorems": [
    "C94_suppression",
    "C94_hydrogen",
    "C94_star_formation",
    "C94_default_grows",
    "C94_luminosity",
    "C94_HI_total",
    "C94_CII_total",
    "C94_HI_brighter",
    "C94_units_refuted",
    "C94_carbon_calls",
    "C94_dictionary_refuted",
    "C94_recipes"
   ],
   "note": ""
  },
  {
   "property": "C95",
   "status": "proved",
   "theorems": [
    "C95_iou",
    "C95_iou_masks",
    "C95_iou_graded_refuted",
    "C95_dice",
    "C95_dice_masks",
    "C95_precision",
    "C95_empty_prediction_refuted",
    "C95_perfect_mask",
    "C95_r2",
    "C95_loss",
    "C95_loss_nonnegative",
    "C95_loss_direction_refuted"
   ],
   "note": ""
  },
  {
   "property": "C96",
   "status": "proved",
   "theorems": [
    "C96_error_bounds",
    "C96_error_zero",
    "C96_pooled",
    "C96_pooled_std_refuted",
    "C96_mean_estimate",
    "C96_defaults_refuted",
    "C96_counts",
    "C96_see_label",
    "C96_fractions",
    "C96_threshold",
    "C96_falling_refuted",
    "C96_knee"
   ],
   "note": ""
  },
  {
   "property": "C97",
   "status": "proved",
   "theorems": [
    "C97_hole",
    "C97_exact",
    "C97_background",
    "C97_translation",
    "C97_rotation",
    "C97_quiet",
    "C97_box_refuted",
    "C97_axis_refuted"
   ],
   "note": ""
  },
  {
   "property": "C98",
   "status": "proved",
   "theorems": [
    "C98_smooth",
    "C98_smooth_shape",
    "C98_count_zero",
    "C98_count_one",
    "C98_cube_window",
    "C98_smooth_impulse",
    "C98_count_scale",
    "C98_ball_refuted",
    "C98_cylinder",
    "C98_renyi_raises",
    "C98_sphere",
    "C98_periodic_refuted",
    "C98_periodic_corner",
    "C98_beam_raises",
    "C98_response"
   ],
   "note": ""
  },
  {
   "property": "C99",
   "status": "proved",
   "theorems": [
    "C99_counts",
    "C99_cells",
    "C99_averages",
    "C99_centres",
    "C99_axis",
    "C99_edges_shape",
    "C99_edges_refuted",
    "C99_raises",
    "C99_taper_stays",
    "C99_dimensional"
   ],
   "note": ""
  },
  {
   "property": "C100",
   "status": "proved",
   "theorems": [
    "C100_point",
    "C100_point_2d",
    "C100_point_rejected",
    "C100_numpy_point_refuted",
    "C100_no_region",
    "C100_average",
    "C100_averaged",
    "C100_averaged_total",
    "C100_rebin",
    "C100_rebin_default",
    "C100_rebin_sizes",
    "C100_rebin_refuted",
    "C100_granulometry",
    "C100_h_transform",
    "C100_h_maximum",
    "C100_averaged_other"
   ],
   "note": ""
  },
  {
   "property": "C101",
   "status": "proved",
   "theorems": [
    "C101_zs",
    "C101_zs_order",
    "C101_coeval",
    "C101_mean_subtract",
    "C101_interpolation",
    "C101_overdens",
    "C101_coeval_overdens",
    "C101_vel_never",
    "C101_vel_raises",
    "C101_slices",
    "C101_slices_again",
    "C101_slices_ramp",
    "C101_fast",
    "C101_fast_only",
    "C101_fast_large_refuted",
    "C101_c2ray",
    "C101_c2ray_velocity_refuted",
    "C101_grizzly",
    "C101_halo",
    "C101_halo_mean",
    "C101_halo_raises",
    "C101_kms"
   ],
   "note": ""
  },
  {
   "property": "C102",
   "status": "proved",
   "theorems": [
    "C102_energy",
    "C102_identity",
    "C102_identity_even",
    "C102_odd_refuted",
    "C102_one_row",
    "C102_argument",
    "C102_amplitude_phase",
    "C102_sign_lost",
    "C102_ps_func",
    "C102_like_band",
    "C102_like_mean"
   ],
   "note": ""
  },
  {
   "property": "C103",
   "status": "proved",
   "theorems": [
    "C103_unbound",
    "C103_definite",
    "C103_returns",
    "C103_bispectrum_refuted",
    "C103_bispectrum_cause",
    "C103_coupling_refuted",
    "C103_halofile",
    "C103_parallel",
    "C103_equilateral"
   ],
   "note": ""
  },
  {
   "property": "C104",
   "status": "proved",
   "theorems": [
    "C104_quantile",
    "C104_nested",
    "C104_range",
    "C104_order_statistics",
    "C104_median_refuted",
    "C104_sort",
    "C104_ties_refuted",
    "C104_weights",
    "C104_units",
    "C104_pit",
    "C104_inverse",
    "C104_sigma_equal",
    "C104_sigma_nan",
    "C104_one_parameter_refuted",
    "C104_returns",
    "C104_cover",
    "C104_metrics",
    "C104_default_weights",
    "C104_add",
    "C104_labels",
    "C104_unlabelled",
    "C104_replaced",
    "C104_lost_refuted",
    "C104_plot",
    "C104_param_labels",
    "C104_grid",
    "C104_chain",
    "C104_widths",
    "C104_width_refuted",
    "C104_argsort"
   ],
   "note": ""
  },
  {
   "property": "C105",
   "status": "proved",
   "theorems": [
    "C105_particles",
    "C105_particles_raise",
    "C105_short",
    "C105_haloes",
    "C105_rows",
    "C105_extra_fields_refuted",
    "C105_velocity",
    "C105_geometric_mean",
    "C105_smooth",
    "C105_mark",
    "C105_redshift",
    "C105_table"
   ],
   "note": ""
  },
  {
   "property": "C106",
   "status": "proved",
   "theorems": [
    "C106_geographic",
    "C106_round_trip",
    "C106_accepts",
    "C106_refuses",
    "C106_file",
    "C106_layout",
    "C106_subarray",
    "C106_suppress",
    "C106_cube",
    "C106_antennas_ignored"
   ],
   "note": ""
  },
  {
   "property": "C107",
   "status": "proved",
   "theorems": [
    "C107_raises",
    "C107_steps",
    "C107_ends",
    "C107_monotone",
    "C107_order",
    "C107_uniform",
    "C107_smallest",
    "C107_order_refuted"
   ],
   "note": ""
  },
  {
   "property": "C108",
   "status": "proved",
   "theorems": [
    "C108_finite",
    "C108_power",
    "C108_scale",
    "C108_spectrum",
    "C108_frequency",
    "C108_multipole",
    "C108_order_refuted",
    "C108_call",
    "C108_draws"
   ],
   "note": ""
  },
  {
   "property": "C109",
   "status": "proved",
   "theorems": [
    "C109_read_header",
    "C109_read_file",
    "C109_save_needs_pyfits",
    "C109_round_trip",
    "C109_resource",
    "C109_cosmo",
    "C109_verbose",
    "C109_outputify"
   ],
   "note": ""
  },
  {
   "property": "C110",
   "status": "proved",
   "theorems": [
    "C110_bounds",
    "C110_symmetry",
    "C110_entries",
    "C110_faddeeva"
   ],
   "note": ""
  },
  {
   "property": "C111",
   "status": "proved",
   "theorems": [
    "C111_labels",
    "C111_coloured",
    "C111_channels",
    "C111_means",
    "C111_bubbles",
    "C111_bubbles_rows",
    "C111_bubbles_rows_refuted",
    "C111_boundaries"
   ],
   "note": ""
  },
  {
   "property": "C112",
   "status": "proved",
   "theorems": [
    "C112_missing",
    "C112_matter",
    "C112_matter_number",
    "C112_coeval",
    "C112_coeval_number"
   ],
   "note": ""
  },
  {
   "property": "C113",
   "status": "proved",
   "theorems": [
    "C113_file",
    "C113_truncated",
    "C113_catalogue",
    "C113_refused",
    "C113_units",
    "C113_full",
    "C113_full_position"
   ],
   "note": ""
  },
  {
   "property": "C114",
   "status": "proved",
   "theorems": [
    "C114_read",
    "C114_read_fails",
    "C114_construct",
    "C114_redshift",
    "C114_density_consistent",
    "C114_cgs_never_written",
    "C114_velocity_derived",
    "C114_write_nothing",
    "C114_write",
    "C114_write_wrong_shape",
    "C114_xfrac_read",
    "C114_xfrac_read_fails",
    "C114_xfrac_redshift",
    "C114_xfrac_write",
    "C114_xfrac_write_read"
   ],
   "note": ""
  },
  {
   "property": "C115",
   "status": "proved",
   "theorems": [
    "C115_read",
    "C115_limit_refuted",
    "C115_object",
    "C115_twice",
    "C115_wrong_format",
    "C115_missing_column",
    "C115_extension",
    "C115_get"
   ],
   "note": ""
  },
  {
   "property": "C116",
   "status": "proved",
   "theorems": [
    "C116_fof_volume",
    "C116_fof_curve",
    "C116_fof_total",
    "C116_slice",
    "C116_slice_scale",
    "C116_hist_refuted",
    "C116_legend",
    "C116_corner",
    "C116_forest",
    "C116_triangle_weights",
    "C116_triangle_default_refuted",
    "C116_triangle_corner",
    "C116_triangle_getdist",
    "C116_triangle_consumer",
    "C116_triangle_other",
    "C116_getdist_backend",
    "C116_triangle_labels"
   ],
   "note": ""
  },
  {
   "property": "C117",
   "status": "proved",
   "theorems": [
    "C117_drawn",
    "C117_right_iff_increasing",
    "C117_mirrored_refuted",
    "C117_wedge_never_returns",
    "C117_default_refuted",
    "C117_axes",
    "C117_no_axes",
    "C117_refused"
   ],
   "note": ""
  },
  {
   "property": "C118",
   "status": "proved",
   "theorems": [
    "C118_smooth_lightcone",
    "C118_range",
    "C118_orientation",
    "C118_lowest_redshift_refuted",
    "C118_lowest_redshift",
    "C118_raises",
    "C118_narrow_band_refuted"
   ],
   "note": ""
  }
 ]
}