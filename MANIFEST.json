{
 "claims": [
  {
   "property": "C01",
   "status": "proved",
   "theorems": [
    "C01_binning",
    "C01_flux_conserved",
    "C01_flux_lost_otherwise",
    "C01_zero_factor"
   ],
   "note": "all shapes and factors; pixel values exact reals"
  },
  {
   "property": "C02",
   "status": "proved",
   "theorems": [
    "C02_enlarge_flux",
    "C02_crop_enlarge",
    "C02_crop_enlarge_odd_refuted",
    "C02_enlarge_defined"
   ],
   "note": "integer factors for the round trip, rational factors for the flux; the odd case is proved to fail (finding)"
  },
  {
   "property": "C03",
   "status": "proved",
   "theorems": [
    "C03_roundtrip",
    "C03_sum_one",
    "C03_minmax"
   ],
   "note": "division by zero is an explicit NonFinite outcome"
  },
  {
   "property": "C04",
   "status": "proved",
   "theorems": [
    "C04_wavelength_vector",
    "C04_constructor_agrees",
    "C04_constructor_refuted",
    "C04_single_bin_refuted"
   ],
   "note": ""
  },
  {
   "property": "C05",
   "status": "proved",
   "theorems": [
    "C05_eqLayers",
    "C05_refused",
    "C05_identity",
    "C05_order"
   ],
   "note": "any exponent p>0"
  },
  {
   "property": "C06",
   "status": "proved",
   "theorems": [
    "C06_structure_function",
    "C06_even_grid_physical",
    "C06_phaseStructureFunction",
    "C06_linear",
    "C06_odd_grid_refuted"
   ],
   "note": "true on every even grid; the odd-grid case is refuted (finding)"
  },
  {
   "property": "C07",
   "status": "proved",
   "theorems": [
    "C07_otf_valid",
    "C07_strehl_range_3D",
    "C07_strehl_range_4D",
    "C07_strehl_monotone"
   ],
   "note": ""
  },
  {
   "property": "C08",
   "status": "proved",
   "theorems": [
    "C08_flux_3D",
    "C08_defined_3D",
    "C08_flux_4D",
    "C08_defined_4D"
   ],
   "note": ""
  },
  {
   "property": "C09",
   "status": "proved",
   "theorems": [
    "C09_split_multi",
    "C09_split_mono",
    "C09_defaults",
    "C09_short_multi",
    "C09_short_mono_refuted"
   ],
   "note": ""
  },
  {
   "property": "C10",
   "status": "proved",
   "theorems": [
    "C10_ensquared_energy",
    "C10_even_reaches_one",
    "C10_odd_refuted",
    "C10_offcentre_refuted"
   ],
   "note": "the unrestricted claim is refuted for odd sizes and off-centre peaks (findings)"
  },
  {
   "property": "C11",
   "status": "proved",
   "theorems": [
    "C11_ring_counts",
    "C11_adaptive_refuted",
    "C11_radius"
   ],
   "note": "the adaptive sampling claim is refuted (finding)"
  },
  {
   "property": "C12",
   "status": "proved",
   "theorems": [
    "C12_fftsym_refuted",
    "C12_fftsym_damage"
   ],
   "note": "the claim is false of the code: proved refutation for every size"
  },
  {
   "property": "C13",
   "status": "proved",
   "theorems": [
    "C13_rfft2_to_fft2"
   ],
   "note": ""
  },
  {
   "property": "C14",
   "status": "proved",
   "theorems": [
    "C14_freq_array",
    "C14_shift_array",
    "C14_odd_no_origin_refuted",
    "C14_piston_filter"
   ],
   "note": "Bessel function abstract"
  },
  {
   "property": "C15",
   "status": "proved",
   "theorems": [
    "C15_path_independent",
    "C15_reversible",
    "C15_seeing"
   ],
   "note": "every history of positive wavelengths"
  },
  {
   "property": "C16",
   "status": "proved",
   "theorems": [
    "C16_layers_share_strength",
    "C16_slab_fresh",
    "C16_slab_stale_refuted"
   ],
   "note": "stale layers after a wavelength change are a finding"
  },
  {
   "property": "C17",
   "status": "proved",
   "theorems": [
    "C17_spectrum_finite_L0",
    "C17_spectrum_infinite_L0",
    "C17_spectrum_r0"
   ],
   "note": "Gamma values abstract positive reals"
  },
  {
   "property": "C18",
   "status": "proved",
   "theorems": [
    "C18_angular_zero",
    "C18_temporal_zero",
    "C18_temporal_refuted",
    "C18_scalar_wind_refuted",
    "C18_structure_function",
    "C18_angular_structure",
    "C18_matern"
   ],
   "note": "temporal part refuted (finding)"
  },
  {
   "property": "C19",
   "status": "proved",
   "theorems": [
    "C19_defined_nonnegative",
    "C19_monotone",
    "C19_refused",
    "C19_pyramid_infinite_flux_refuted",
    "C19_science_wavelength"
   ],
   "note": "pyramid default flux refuted (finding)"
  },
  {
   "property": "C20",
   "status": "proved",
   "theorems": [
    "C20_full_list_kept",
    "C20_short_list_refuted",
    "C20_repeated_calls"
   ],
   "note": "short lists refuted (finding)"
  },
  {
   "property": "C21",
   "status": "proved",
   "theorems": [
    "C21_direction",
    "C21_broadcast",
    "C21_mismatch_accepted_refuted",
    "C21_multi_wavelength_broadcast_refuted",
    "C21_heights_refuted",
    "C21_azimuth_periodic"
   ],
   "note": "findings refuted"
  },
  {
   "property": "C22",
   "status": "proved",
   "theorems": [
    "C22_square_roundtrip",
    "C22_square_roundtrip_index",
    "C22_rectangular"
   ],
   "note": ""
  },
  {
   "property": "C23",
   "status": "proved",
   "theorems": [
    "C23_sampling",
    "C23_defined",
    "C23_expansion_refuted"
   ],
   "note": ""
  },
  {
   "property": "C24",
   "status": "proved",
   "theorems": [
    "C24_partition",
    "C24_meaning",
    "C24_embedding_size",
    "C24_embedding_aligned",
    "C24_integration_step",
    "C24_nTimes",
    "C24_cutoffs",
    "C24_nTimes_value"
   ],
   "note": ""
  },
  {
   "property": "C25",
   "status": "proved",
   "theorems": [
    "C25_filter_between_0_and_1",
    "C25_defined",
    "C25_optimal",
    "C25_noise_propagation",
    "C25_noise_spectrum",
    "C25_pyramid_gain"
   ],
   "note": ""
  },
  {
   "property": "C26",
   "status": "proved",
   "theorems": [
    "C26_total_is_the_sum",
    "C26_extra_error_of_source",
    "C26_total_nonnegative",
    "C26_scao_total_nonnegative",
    "C26_area_must_fit",
    "C26_normalisation_refuted",
    "C26_contributions_nonnegative",
    "C26_contributions_defined",
    "C26_weight_excess_refuted",
    "C26_servo_lag_is_on_axis",
    "C26_off_axis_error",
    "C26_outside_area",
    "C26_chromatism_unmasked_refuted",
    "C26_aliasing_orders"
   ],
   "note": ""
  },
  {
   "property": "C27",
   "status": "proved",
   "theorems": [
    "C27_quadratic_sum",
    "C27_strehl_decreasing",
    "C27_matches_the_psd",
    "C27_missing_terms"
   ],
   "note": ""
  },
  {
   "property": "C28",
   "status": "proved",
   "theorems": [
    "C28_extra_error",
    "C28_defined",
    "C28_low_order_interpolated",
    "C28_low_order_list_length",
    "C28_low_order_number"
   ],
   "note": ""
  },
  {
   "property": "C29",
   "status": "proved",
   "theorems": [
    "C29_chunk_independent",
    "C29_no_layer"
   ],
   "note": ""
  },
  {
   "property": "C30",
   "status": "proved",
   "theorems": [
    "C30_entries_nonnegative",
    "C30_peak_above_final",
    "C30_monotone",
    "C30_reduce_memory",
    "C30_double_precision",
    "C30_covers_psd",
    "C30_upper_bound_refuted"
   ],
   "note": ""
  },
  {
   "property": "C31",
   "status": "proved",
   "theorems": [
    "C31_fourier_bounds",
    "C31_psfao_bounds",
    "C31_psfr_bounds",
    "C31_update_bounds",
    "C31_update_layout_refuted"
   ],
   "note": ""
  },
  {
   "property": "C32",
   "status": "proved",
   "theorems": [
    "C32_accepted_is_valid",
    "C32_mandatory_key_refused",
    "C32_mandatory_section_refused",
    "C32_missing_strength",
    "C32_missing_lo_zenith_is_KeyError",
    "C32_defaults_are_documented",
    "C32_zenith_too_large",
    "C32_precision_unknown",
    "C32_file_missing",
    "C32_weights_not_normalised",
    "C32_profile_length",
    "C32_wind_direction_length",
    "C32_ho_star_length",
    "C32_opt_length",
    "C32_mirror_heights_needed",
    "C32_mirror_lengths",
    "C32_line_of_sight",
    "C32_airmass_positive",
    "C32_telescope_values",
    "C32_sensor_and_mirror_values",
    "C32_file0_accepted"
   ],
   "note": "defaults_are_documented compares the results, the map mutated by side effect is not compared there"
  },
  {
   "property": "C33",
   "status": "proved",
   "theorems": [
    "C33_fov_missing",
    "C33_fov_positive",
    "C33_fov_refused",
    "C33_fov_automatic",
    "C33_camera_fov"
   ],
   "note": ""
  },
  {
   "property": "C34",
   "status": "proved",
   "theorems": [
    "C34_reconfiguration_idempotent",
    "C34_reconfiguration_growth",
    "C34_reconfiguration_idempotent_refuted"
   ],
   "note": "the unconditional claim is refuted; the exact condition is proved"
  },
  {
   "property": "C35",
   "status": "proved",
   "theorems": [
    "C35_mode_of_file",
    "C35_mode_table"
   ],
   "note": ""
  },
  {
   "property": "C36",
   "status": "proved",
   "theorems": [
    "C36_paths_resolved",
    "C36_absolute_path_kept",
    "C36_existing_absolute_file_hidden_refuted",
    "C36_join"
   ],
   "note": ""
  },
  {
   "property": "C37",
   "status": "proved",
   "theorems": [
    "C37_noll_orders",
    "C37_injective",
    "C37_onto",
    "C37_mode_count",
    "C37_findNM_list",
    "C37_findNM_other_list_refuted"
   ],
   "note": "Square roots of the index formulas are exact."
  },
  {
   "property": "C38",
   "status": "proved",
   "theorems": [
    "C38_edge",
    "C38_orthonormal"
   ],
   "note": "Riemann integral over the disc in polar coordinates (Coquelicot is_RInt)."
  },
  {
   "property": "C39",
   "status": "proved",
   "theorems": [
    "C39_selection",
    "C39_bands_disjoint",
    "C39_elementwise",
    "C39_absolute_zero",
    "C39_default_infrared",
    "C39_default_visible",
    "C39_step",
    "C39_dry_ideal_gas",
    "C39_humidity_visible",
    "C39_pressure_infrared",
    "C39_chromatic",
    "C39_Q_band_refuted"
   ],
   "note": "All five coefficient tables are copied from the source digit by digit; exact reals."
  },
  {
   "property": "C40",
   "status": "proved",
   "theorems": [
    "C40_fixed_parameters_kept",
    "C40_free_parameters_bijection",
    "C40_starts_at_guess",
    "C40_integer_guess_refuted",
    "C40_bounds_respected",
    "C40_bounds_need_mask_refuted",
    "C40_other_methods_ignore_bounds_refuted",
    "C40_criterion",
    "C40_refusals",
    "C40_images",
    "C40_error_bars",
    "C40_error_bar_value",
    "C40_singular",
    "C40_guess_accepted"
   ],
   "note": "SciPy's least_squares is an arbitrary interaction strategy (any number of evaluations, each depending on the previous answers); numpy.linalg.inv is an arbitrary function that returns inverses or fails. Findings are the _refuted theorems."
  },
  {
   "property": "C41",
   "status": "proved",
   "theorems": [
    "C41_crop_exact_when_divides",
    "C41_crop_at_most_one_short",
    "C41_crop_refuted"
   ],
   "note": "binary64 arithmetic via Flocq; unrestricted claim refuted"
  },
  {
   "property": "C42",
   "status": "proved",
   "theorems": [
    "C42_shift_3D",
    "C42_shift_4D",
    "C42_shift_4D_refuted"
   ],
   "note": "kRef=2 in the 4-D function refuted (finding)"
  },
  {
   "property": "C43",
   "status": "proved",
   "theorems": [
    "C43_otf2psf_unit_sum",
    "C43_static_aberration",
    "C43_getStaticOTF"
   ],
   "note": "getStaticOTF without resampling (interpolation = identity)"
  },
  {
   "property": "C44",
   "status": "proved",
   "theorems": [
    "C44_default_stellar_refuted",
    "C44_monochromatic_shift_refuted",
    "C44_zero_jitter_refuted"
   ],
   "note": "refuted (findings)"
  },
  {
   "property": "C45",
   "status": "proved",
   "theorems": [
    "C45_psf_nonnegative"
   ],
   "note": ""
  },
  {
   "property": "C46",
   "status": "proved",
   "theorems": [
    "C46_fov_check_sound",
    "C46_fov_check_refuted"
   ],
   "note": ""
  },
  {
   "property": "C47",
   "status": "proved",
   "theorems": [
    "C47_mean_height_between_layers",
    "C47_tau0_scaling",
    "C47_theta0_scaling",
    "C47_equal_L0_list",
    "C47_single_L0_list_refuted"
   ],
   "note": "theta0 for infinite L0 only (finite L0 uses a numerical root search)"
  },
  {
   "property": "C48",
   "status": "proved",
   "theorems": [
    "C48_dm_lists",
    "C48_dm_accepted",
    "C48_dm_refused",
    "C48_radial_order",
    "C48_modes_exceed_actuators_refuted",
    "C48_repr_refuted"
   ],
   "note": ""
  },
  {
   "property": "C49",
   "status": "proved",
   "theorems": [
    "C49_bandwidth",
    "C49_low_order_loop",
    "C49_shown_delay_refuted"
   ],
   "note": ""
  },
  {
   "property": "C50",
   "status": "proved",
   "theorems": [
    "C50_rejection_plus_correction",
    "C50_mean_transfer",
    "C50_static_turbulence",
    "C50_rate_checked",
    "C50_open_loop_refuted",
    "C50_wind_angles"
   ],
   "note": ""
  },
  {
   "property": "C51",
   "status": "proved",
   "theorems": [
    "C51_layer_description"
   ],
   "note": ""
  },
  {
   "property": "C52",
   "status": "proved",
   "theorems": [
    "C52_cone_between_residual_and_turbulence",
    "C52_cone_vanishes"
   ],
   "note": ""
  },
  {
   "property": "C54",
   "status": "proved",
   "theorems": [
    "C54_flux_is_plain_sum",
    "C54_background_removed_refuted",
    "C54_normalise_by_flux"
   ],
   "note": "side conditions exact for even sides up to rounding: see C54_small_image for a 2x2 counterexample"
  },
  {
   "property": "C55",
   "status": "proved",
   "theorems": [
    "C55_distance",
    "C55_l2_le_l1",
    "C55_scale_free"
   ],
   "note": ""
  },
  {
   "property": "C56",
   "status": "proved",
   "theorems": [
    "C56_otf2psf_closed_form",
    "C56_real_otf_symmetric"
   ],
   "note": ""
  },
  {
   "property": "C57",
   "status": "proved",
   "theorems": [
    "C57_budget_identity",
    "C57_budget_fitting",
    "C57_budget_when",
    "C57_budget_servo",
    "C57_budget_cone",
    "C57_cone_sum_nonneg"
   ],
   "note": ""
  },
  {
   "property": "C58",
   "status": "proved",
   "theorems": [
    "C58_static_off_refused"
   ],
   "note": "the claim is false of the code: refuted for every cube"
  },
  {
   "property": "C59",
   "status": "proved",
   "theorems": [
    "C59_lo_threshold_ignored"
   ],
   "note": "the claim is false of the code: refuted for every section"
  },
  {
   "property": "C60",
   "status": "proved",
   "theorems": [
    "C60_coo_stars_azimuth_refuted",
    "C60_polar"
   ],
   "note": "the claim is false of the code"
  },
  {
   "property": "C61",
   "status": "proved",
   "theorems": [
    "C61_modes",
    "C61_tilt_sum"
   ],
   "note": ""
  },
  {
   "property": "C62",
   "status": "proved",
   "theorems": [
    "C62_unit_norm_single",
    "C62_user_coordinates_refuted",
    "C62_not_a_list",
    "C62_unit_norm_refuted"
   ],
   "note": ""
  },
  {
   "property": "C63",
   "status": "proved",
   "theorems": [
    "C63_variance",
    "C63_scaling",
    "C63_empty"
   ],
   "note": ""
  },
  {
   "property": "C64",
   "status": "proved",
   "theorems": [
    "C64_series",
    "C64_early_stop_refuted"
   ],
   "note": ""
  },
  {
   "property": "C65",
   "status": "proved",
   "theorems": [
    "C65_symmetric",
    "C65_exchange",
    "C65_shift",
    "C65_isotropic",
    "C65_anisokinetism",
    "C65_tilt_ignored_refuted",
    "C65_unknown_tilt",
    "C65_lag_shift_refuted",
    "C65_variance_nonneg",
    "C65_mixed_filter"
   ],
   "note": ""
  },
  {
   "property": "C66",
   "status": "proved",
   "theorems": [
    "C66_psf_parameters",
    "C66_no_jitter_refuted",
    "C66_fewer_reconstructed_layers_refuted",
    "C66_several_wavelengths_refuted"
   ],
   "note": "The positive statement is restricted to the layout for which the code is right; the refuted theorems give what it does otherwise."
  },
  {
   "property": "C67",
   "status": "proved",
   "theorems": [
    "C67_stacking",
    "C67_order",
    "C67_saturation",
    "C67_argument_unchanged",
    "C67_argument_saturated_refuted",
    "C67_image_unsaturated_refuted"
   ],
   "note": ""
  },
  {
   "property": "C68",
   "status": "proved",
   "theorems": [
    "C68_definitions",
    "C68_errors",
    "C68_scale",
    "C68_cube_refuted"
   ],
   "note": ""
  },
  {
   "property": "C69",
   "status": "proved",
   "theorems": [
    "C69_tiles",
    "C69_partition",
    "C69_flux",
    "C69_mosaic",
    "C69_roundtrip",
    "C69_mosaic_refused",
    "C69_extraction",
    "C69_extraction_all",
    "C69_edge_repeated_refuted",
    "C69_outside_refused"
   ],
   "note": "The repeated edge row is a refutation of the naive claim."
  },
  {
   "property": "C70",
   "status": "proved",
   "theorems": [
    "C70_selection",
    "C70_decision",
    "C70_all",
    "C70_window_in_tile",
    "C70_no_limit_refuted",
    "C70_unknown_criterion",
    "C70_odd_window_refuted"
   ],
   "note": "argsort is any function that returns a sorting permutation. KDTree distances are exact Euclidean distances."
  },
  {
   "property": "C71",
   "status": "proved",
   "theorems": [
    "C71_convex",
    "C71_inverse_distance",
    "C71_flux",
    "C71_parameters",
    "C71_on_position_refuted",
    "C71_bad_fits_favoured_refuted",
    "C71_lengths"
   ],
   "note": "Exact reals; a division by zero (inf/nan in NumPy) is the error NonFinite."
  },
  {
   "property": "C53",
   "status": "proved",
   "theorems": [
    "C53_minimum_error",
    "C53_never_worse",
    "C53_single_noise_correlated_refuted"
   ],
   "note": "Exact complex arithmetic (the code uses complex64). np.linalg.solve and pinv are parameters constrained to be exact; an instance is proved to exist."
  },
  {
   "property": "C72",
   "status": "proved",
   "theorems": [
    "C72_residual",
    "C72_noise",
    "C72_noise_gain",
    "C72_beyond_mirrors",
    "C72_noise_free_refuted",
    "C72_noise_free_sizes"
   ],
   "note": ""
  },
  {
   "property": "C73",
   "status": "proved",
   "theorems": [
    "C73_one_direction_exact",
    "C73_cutoff",
    "C73_regularised_least_squares",
    "C73_attenuation_refuted",
    "C73_not_hermitian_refuted"
   ],
   "note": "The least-squares optimality with several directions holds for real Gram matrices (one mirror, or directions symmetric about the axis), as stated; for others it is false of the code (plain transpose), as C73_not_hermitian_refuted shows."
  },
  {
   "property": "C74",
   "status": "proved",
   "theorems": [
    "C74_bounds",
    "C74_ground",
    "C74_beyond_cutoff",
    "C74_defined",
    "C74_layer_at_laser_refuted",
    "C74_several_mirrors_refuted"
   ],
   "note": "The two _refuted theorems record the cases where the claim fails in the code."
  },
  {
   "property": "C75",
   "status": "proved",
   "theorems": [
    "C75_total",
    "C75_power_bound",
    "C75_open_loop",
    "C75_slow_loop_refused",
    "C75_tilt_filter",
    "C75_focus_filter",
    "C75_bessel_recurrence",
    "C75_phase_cancellation_refuted",
    "C75_bessel_negative_refuted"
   ],
   "note": "SciPy's j0, j1 are arbitrary functions in the theorems."
  },
  {
   "property": "C76",
   "status": "proved",
   "theorems": [
    "C76_structure_function",
    "C76_formula",
    "C76_exchange",
    "C76_defined",
    "C76_laser_restored",
    "C76_laser_split",
    "C76_modes",
    "C76_laser_after_failure_refuted",
    "C76_two_lasers_refuted",
    "C76_off_axis_refuted",
    "C76_spectrum"
   ],
   "note": "_refuted theorems: cases where the claim fails. NumPy >= 1.24 for the ragged triple."
  },
  {
   "property": "C77",
   "status": "proved",
   "theorems": [
    "C77_focal_error",
    "C77_focal_monotone",
    "C77_anisokinetism",
    "C77_angular_error",
    "C77_unknown_method",
    "C77_two_formulas_refuted",
    "C77_units_refuted",
    "C77_weights_ignored_refuted",
    "C77_cross_term_refuted",
    "C77_kernel_negative_refuted"
   ],
   "note": "_refuted theorems: claims that fail in the code."
  },
  {
   "property": "C78",
   "status": "proved",
   "theorems": [
    "C78_residual",
    "C78_range",
    "C78_defined",
    "C78_null_covariance_refuted",
    "C78_transposed_refuted",
    "C78_noise_sign_refuted",
    "C78_Uij_refuted",
    "C78_overlap_size"
   ],
   "note": "_refuted theorems: claims that fail in the code. svd is a parameter constrained by its contract."
  },
  {
   "property": "C79",
   "status": "proved",
   "theorems": [
    "C79_jitter",
    "C79_jitter_range",
    "C79_jitter_angle",
    "C79_slopes_cov",
    "C79_pixel",
    "C79_fitting",
    "C79_fitting_seeing",
    "C79_aliasing",
    "C79_aliasing_atm",
    "C79_commands",
    "C79_commands_cov",
    "C79_commands_undefined",
    "C79_sum_onaxis",
    "C79_sum_aniso",
    "C79_sum_range",
    "C79_noise_subtraction_refuted",
    "C79_profile_length_refuted",
    "C79_pixel_symmetry"
   ],
   "note": "_refuted theorems: claims that fail in the code. Aliasing: AO and OTF grids of the same parity (no interpolation)."
  },
  {
   "property": "C80",
   "status": "proved",
   "theorems": [
    "C80_term",
    "C80_term_monotone",
    "C80_total",
    "C80_defined",
    "C80_params",
    "C80_roundtrip",
    "C80_aliasing_refuted",
    "C80_noise_exceeds_refuted",
    "C80_params_refuted",
    "C80_r0",
    "C80_static_term"
   ],
   "note": "_refuted theorems: claims that fail in the code. TIP-TILT-WFE and the split of the anisoplanatism (not in the total) are not modelled."
  },
  {
   "property": "C81",
   "status": "proved",
   "theorems": [
    "C81_structure_function",
    "C81_flux",
    "C81_strehl",
    "C81_defined",
    "C81_wfe",
    "C81_aniso_refuted",
    "C81_position",
    "C81_profile_shapes"
   ],
   "note": "_refuted theorem: claim that fails in the code."
  },
  {
   "property": "C82",
   "status": "proved",
   "theorems": [
    "C82_no_static",
    "C82_all_static",
    "C82_history_refuted"
   ],
   "note": "_refuted theorem: claim that fails in the code."
  },
  {
   "property": "C83",
   "status": "proved",
   "theorems": [
    "C83_source_wavelength",
    "C83_flux",
    "C83_defined",
    "C83_backgrounds_refuted",
    "C83_default_single_refuted",
    "C83_default_several_refuted",
    "C83_channel"
   ],
   "note": "_refuted theorems: claims that fail in the code."
  },
  {
   "property": "C84",
   "status": "proved",
   "theorems": [
    "C84_closed_loop",
    "C84_grid",
    "C84_first_frequency_refuted",
    "C84_noise_gain",
    "C84_noise_gain_refuted",
    "C84_gain_defined",
    "C84_pi_refuted"
   ],
   "note": ""
  },
  {
   "property": "C85",
   "status": "proved",
   "theorems": [
    "C85_autocorrelation",
    "C85_covariance",
    "C85_affine",
    "C85_history",
    "C85_methods_refuted",
    "C85_noise_variance",
    "C85_tiptilt_refuted",
    "C85_noiseless"
   ],
   "note": ""
  },
  {
   "property": "C86",
   "status": "proved",
   "theorems": [
    "C86_autocorrelation",
    "C86_autocorrelation_max",
    "C86_normalised",
    "C86_regression",
    "C86_exact",
    "C86_window",
    "C86_window_refuted",
    "C86_student",
    "C86_student_refuted",
    "C86_frozen_flow",
    "C86_scaling",
    "C86_mode"
   ],
   "note": ""
  },
  {
   "property": "C87",
   "status": "proved",
   "theorems": [
    "C87_radial_average",
    "C87_coherence_time",
    "C87_update",
    "C87_update_one"
   ],
   "note": ""
  },
  {
   "property": "C88",
   "status": "proved",
   "theorems": [
    "C88_segment",
    "C88_circle_refuted",
    "C88_assembly",
    "C88_order",
    "C88_flux",
    "C88_off_centre_refuted",
    "C88_obstruction"
   ],
   "note": "the polygon test of matplotlib is an argument; exact reals"
  },
  {
   "property": "C89",
   "status": "proved",
   "theorems": [
    "C89_remove",
    "C89_remove_order",
    "C89_last_wins",
    "C89_reflectivity",
    "C89_unit",
    "C89_built",
    "C89_gap_refuted",
    "C89_rotate_refuted"
   ],
   "note": "exact arithmetic: in floats |exp(i phi)| may differ from 1 and removal may then miss pixels"
  },
  {
   "property": "C90",
   "status": "proved",
   "theorems": [
    "C90_shift_zero",
    "C90_shift_back",
    "C90_shift_out_refuted",
    "C90_shift_lost_refuted",
    "C90_phase_history",
    "C90_phase_inconsistent",
    "C90_reflectivity_erases_refuted"
   ],
   "note": "the Zernike modes of the segment are an argument (C36-C37 cover them)"
  },
  {
   "property": "C91",
   "status": "proved",
   "theorems": [
    "C91_reset",
    "C91_reset_positions_refuted",
    "C91_zero_pad",
    "C91_pad_positions_refuted",
    "C91_border",
    "C91_border_refuted",
    "C91_zero_pad_any_refuted"
   ],
   "note": "segments that do not overlap (pristine) for the reset"
  },
  {
   "property": "C92",
   "status": "proved",
   "theorems": [
    "C92_filled",
    "C92_single_refuted",
    "C92_reference"
   ],
   "note": ""
  },
  {
   "property": "C93",
   "status": "proved",
   "theorems": [
    "C93_profile",
    "C93_range",
    "C93_encircled",
    "C93_square",
    "C93_encircled_refuted",
    "C93_inplace_refuted",
    "C93_small_refuted",
    "C93_maxradius",
    "C93_wedge_refuted",
    "C93_stddev",
    "C93_stddev_refuted"
   ],
   "note": "exact reals; argsort and the position angle are arguments with their contract"
  },
  {
   "property": "C94",
   "status": "proved",
   "theorems": [
    "C94_width",
    "C94_scale",
    "C94_border_refuted",
    "C94_steep_refuted",
    "C94_ratio",
    "C94_cutting",
    "C94_flat",
    "C94_contour_point",
    "C94_round_refuted",
    "C94_contour_order",
    "C94_gaussian_rebin_refuted",
    "C94_all_but_one",
    "C94_spike",
    "C94_contour_box",
    "C94_contour_circle"
   ],
   "note": "exact reals; resampling and the Gaussian fit are arguments"
  },
  {
   "property": "C95",
   "status": "proved",
   "theorems": [
    "C95_otf",
    "C95_symmetric",
    "C95_convolution_refuted",
    "C95_strehl",
    "C95_strehl_flux",
    "C95_odd_refuted",
    "C95_strehl_max",
    "C95_inplace_refuted"
   ],
   "note": "image of the size of the OTF (no interpolation); exact reals"
  },
  {
   "property": "C96",
   "status": "proved",
   "theorems": [
    "C96_map",
    "C96_range",
    "C96_stationary",
    "C96_quadrant_refuted",
    "C96_size",
    "C96_diags"
   ],
   "note": "exact reals"
  },
  {
   "property": "C97",
   "status": "proved",
   "theorems": [
    "C97_focal",
    "C97_on_axis",
    "C97_centre",
    "C97_off_axis_refuted",
    "C97_filter_identity",
    "C97_filter_scale"
   ],
   "note": "without spatial filter and at the natural map size"
  },
  {
   "property": "C98",
   "status": "proved",
   "theorems": [
    "C98_pupil",
    "C98_symmetric",
    "C98_obstruction",
    "C98_full_disc",
    "C98_odd_centre_refuted",
    "C98_empty_pupil_refuted",
    "C98_ncpa",
    "C98_ncpa_none",
    "C98_files",
    "C98_rectangular_refuted",
    "C98_stat_modes",
    "C98_cube_refuted",
    "C98_orthonormal_refuted",
    "C98_pupil_rms_refuted",
    "C98_outside_refuted",
    "C98_fits_path"
   ],
   "note": "rotate and interpolateSupport(kind='linear') are arguments; the _refuted theorems record where the code departs from the expected behaviour"
  },
  {
   "property": "C99",
   "status": "proved",
   "theorems": [
    "C99_mask",
    "C99_symmetric",
    "C99_direction_refuted",
    "C99_thin",
    "C99_mismatch",
    "C99_deferred",
    "C99_deferred_refuted",
    "C99_keck_refuted",
    "C99_petals"
   ],
   "note": "hypothesis polygon_test (matplotlib's test is right strictly inside/outside convex polygons), inhabited by ref_test_ok; scipy's label is described by the hypothesis of C99_petals"
  },
  {
   "property": "C100",
   "status": "proved",
   "theorems": [
    "C100_detector",
    "C100_refused",
    "C100_short_scales",
    "C100_extra_scales_refuted",
    "C100_print"
   ],
   "note": ""
  },
  {
   "property": "C101",
   "status": "proved",
   "theorems": [
    "C101_modelled",
    "C101_uncompressed",
    "C101_wind_pairing_refuted",
    "C101_single_layer_refuted",
    "C101_stretch_ngs",
    "C101_stretch_lgs",
    "C101_succeeds",
    "C101_zero_height_refuted",
    "C101_above_refuted"
   ],
   "note": "the _refuted theorems record defects of the code"
  },
  {
   "property": "C102",
   "status": "proved",
   "theorems": [
    "C102_error_flag",
    "C102_side_effects",
    "C102_noise",
    "C102_noise_refuted",
    "C102_rerun",
    "C102_several_sensors_refuted",
    "C102_fov_refuted"
   ],
   "note": "the _refuted theorems record defects of the code"
  },
  {
   "property": "C103",
   "status": "proved",
   "theorems": [
    "C103_reported",
    "C103_encircled",
    "C103_ensquared_refuted",
    "C103_ensquared"
   ],
   "note": "C103_ensquared_refuted records a defect of the code"
  },
  {
   "property": "C104",
   "status": "proved",
   "theorems": [
    "C104_defaults",
    "C104_flux_multi",
    "C104_frames_refuted",
    "C104_nyquist_refuted",
    "C104_strehl",
    "C104_pixel_strehl",
    "C104_history",
    "C104_static_stays_refuted"
   ],
   "note": "the _refuted theorems record defects of the code"
  },
  {
   "property": "C105",
   "status": "proved",
   "theorems": [
    "C105_noise_mean_refuted",
    "C105_noise_variance",
    "C105_noise_caller",
    "C105_noise_fails",
    "C105_centre_flux",
    "C105_centre_moves",
    "C105_centre_refuted",
    "C105_centre_rect",
    "C105_dead_pixels_refuted",
    "C105_dead_pixels_fails",
    "C105_gauss_max",
    "C105_gauss_half",
    "C105_profile_2d",
    "C105_profile_1d"
   ],
   "note": "the _refuted theorems record defects of the code; splines are arguments"
  },
  {
   "property": "C106",
   "status": "proved",
   "theorems": [
    "C106_fraunhofer",
    "C106_pupil_psf",
    "C106_piston",
    "C106_psd_value",
    "C106_psd_sum",
    "C106_psd_negative_refuted",
    "C106_undersampled_refuted"
   ],
   "note": "the _refuted theorems record defects or limits of the code"
  },
  {
   "property": "C107",
   "status": "proved",
   "theorems": [
    "C107_number",
    "C107_refusals",
    "C107_tie_refuted",
    "C107_split",
    "C107_total"
   ],
   "note": "_refuted: refused requests that could be met"
  },
  {
   "property": "C108",
   "status": "proved",
   "theorems": [
    "C108_values",
    "C108_secondary",
    "C108_accepted",
    "C108_rounding_refuted"
   ],
   "note": "_refuted: the rounded edges leave the bounds"
  },
  {
   "property": "C109",
   "status": "proved",
   "theorems": [
    "C109_r0_refuted",
    "C109_spectrum",
    "C109_image",
    "C109_total",
    "C109_noise",
    "C109_test_count",
    "C109_static_coefficients"
   ],
   "note": "_refuted: r0 labels images it does not influence"
  },
  {
   "property": "C110",
   "status": "proved",
   "theorems": [
    "C110_universal_time",
    "C110_month_end_refuted",
    "C110_hours",
    "C110_nearest",
    "C110_answers",
    "C110_midnight_refuted",
    "C110_far_record_refuted",
    "C110_combine",
    "C110_r0",
    "C110_append"
   ],
   "note": "downloads and parsing are not modelled; the parsed rows are arguments"
  },
  {
   "property": "C111",
   "status": "proved",
   "theorems": [
    "C111_delay",
    "C111_stage",
    "C111_airmass",
    "C111_noise",
    "C111_duplicates",
    "C111_triple_refuted",
    "C111_profile",
    "C111_regression",
    "C111_sampling",
    "C111_scale",
    "C111_instrument_angle"
   ],
   "note": "np.polyfit is modelled as the exact least-squares line"
  },
  {
   "property": "C112",
   "status": "proved",
   "theorems": [
    "C112_value",
    "C112_otf",
    "C112_symmetric",
    "C112_piston",
    "C112_no_mask_refuted"
   ],
   "note": "_refuted: without a mask only the first n actuators' covariances matter; interpolation to another size is an argument of the model; np.object raises AttributeError on NumPy >= 1.24"
  },
  {
   "property": "C113",
   "status": "proved",
   "theorems": [
    "C113_spectrum",
    "C113_refused",
    "C113_open_loop_refuted"
   ],
   "note": "_refuted: the frame shifts of the open-loop slopes"
  },
  {
   "property": "C114",
   "status": "proved",
   "theorems": [
    "C114_screening_refuted",
    "C114_answers",
    "C114_sensor",
    "C114_tables",
    "C114_window_refuted"
   ],
   "note": "_refuted: screening moves only folders without SPARTA file; window 1.5 unreachable; FWHM and header values are inputs of the model"
  },
  {
   "property": "C115",
   "status": "proved",
   "theorems": [
    "C115_filter",
    "C115_projection",
    "C115_refused",
    "C115_coefficients",
    "C115_lwe_value",
    "C115_lwe_tilt_free",
    "C115_lwe_zero_refuted"
   ],
   "note": "pinv is an argument satisfying the four Penrose conditions (pinv2_exists: such a function exists)"
  },
  {
   "property": "C116",
   "status": "proved",
   "theorems": [
    "C116_sorted",
    "C116_date",
    "C116_recentred",
    "C116_accepted",
    "C116_small_frame_refuted"
   ],
   "note": "_refuted: frame smaller than the window; order in which dates are visited is not modelled (dates are distinct)"
  },
  {
   "property": "C117",
   "status": "proved",
   "theorems": [
    "C117_names",
    "C117_guess",
    "C117_fixed",
    "C117_row",
    "C117_fwhmy_refuted",
    "C117_no_strehl_refuted"
   ],
   "note": "the fit is an argument that keeps the number of parameters; without static modes the code runs it twice"
  },
  {
   "property": "C118",
   "status": "proved",
   "theorems": [
    "C118_bilinear",
    "C118_range",
    "C118_superposition",
    "C118_common",
    "C118_centre",
    "C118_decimation",
    "C118_even",
    "C118_even_refuted",
    "C118_nearest",
    "C118_nearest_centre_refuted",
    "C118_refused",
    "C118_shannon"
   ],
   "note": "the FITPACK spline is an argument required only to pass through its samples"
  },
  {
   "property": "C119",
   "status": "proved",
   "theorems": [
    "C119_petal",
    "C119_pistons",
    "C119_twice_refuted",
    "C119_dropped",
    "C119_negative_refuted",
    "C119_nothing",
    "C119_rotation",
    "C119_angle_refuted",
    "C119_resize",
    "C119_resize_back_refuted",
    "C119_reset_refuted"
   ],
   "note": "scipy's rotation is an argument; resizing with the nearest kind"
  },
  {
   "property": "C120",
   "status": "proved",
   "theorems": [
    "C120_breakdown",
    "C120_answers",
    "C120_total",
    "C120_achromatic",
    "C120_faster",
    "C120_few_actuators_refuted",
    "C120_second_order_refuted"
   ],
   "note": "the mean wind and the noise variances are those of the atmosphere and sensor models"
  },
  {
   "property": "C121",
   "status": "proved",
   "theorems": [
    "C121_read",
    "C121_labels",
    "C121_refused",
    "C121_metrics",
    "C121_perfect",
    "C121_affine",
    "C121_undefined",
    "C121_units",
    "C121_p2x",
    "C121_diff",
    "C121_mse",
    "C121_accuracy",
    "C121_last_line_refuted",
    "C121_repeat_refuted",
    "C121_last_mode_refuted",
    "C121_mean_bias_refuted"
   ],
   "note": "text is tokenised by the environment: a token is a number or a word"
  },
  {
   "property": "C122",
   "status": "proved",
   "theorems": [
    "C122_recover",
    "C122_recover_refused",
    "C122_file",
    "C122_file_refused",
    "C122_static",
    "C122_verify",
    "C122_counts",
    "C122_single_refuted",
    "C122_out_of_range_refuted",
    "C122_last_rank_refuted"
   ],
   "note": "rounding of the lower bound is a parameter; the fits of verification 3 are an outcome (fit_ok)"
  },
  {
   "property": "C123",
   "status": "proved",
   "theorems": [
    "C123_open_loop",
    "C123_infinite_scale",
    "C123_one_plane_refuted"
   ],
   "note": "the Bessel function of the piston filter is abstract"
  },
  {
   "property": "C124",
   "status": "proved",
   "theorems": [
    "C124_covariance",
    "C124_no_piston",
    "C124_zero_mean",
    "C124_static",
    "C124_scale",
    "C124_weights",
    "C124_integer_delay_refuted",
    "C124_roll_refuted",
    "C124_no_interpolation",
    "C124_tiptilt_refuted",
    "C124_select",
    "C124_select_valid",
    "C124_one_diameter_refuted",
    "C124_photons"
   ],
   "note": "the matrix from commands to Zernike coefficients (pseudo-inverse) is an arbitrary function of its inputs"
  },
  {
   "property": "C125",
   "status": "proved",
   "theorems": [
    "C125_all_detected",
    "C125_undetected_ignored",
    "C125_too_few_refuted",
    "C125_one_missing_refuted",
    "C125_guess",
    "C125_fits",
    "C125_points",
    "C125_points_refuted",
    "C125_counts",
    "C125_default_limits_refuted",
    "C125_flux",
    "C125_radial"
   ],
   "note": "star detection (photutils), the minimiser and the PSF model are arbitrary functions; np.argsort any sorting function"
  },
  {
   "property": "C126",
   "status": "proved",
   "theorems": [
    "C126_catalog",
    "C126_bad_line",
    "C126_skip_zero_refuted",
    "C126_skip_many_refuted"
   ],
   "note": ""
  },
  {
   "property": "C127",
   "status": "proved",
   "theorems": [
    "C127_symmetry",
    "C127_aliasing_orders",
    "C127_aliasing_axis",
    "C127_aliasing_refuted"
   ],
   "note": "the expectation that the aliasing spectrum is symmetric as well is refuted (C127_aliasing_refuted, on the axis without the 1e-10 offset); C127_aliasing_orders is exact for every offset"
  },
  {
   "property": "C128",
   "status": "proved",
   "theorems": [
    "C128_r0",
    "C128_ratio",
    "C128_open_loop",
    "C128_wavefront_error"
   ],
   "note": ""
  },
  {
   "property": "C129",
   "status": "proved",
   "theorems": [
    "C129_bound",
    "C129_invariance",
    "C129_refraction"
   ],
   "note": ""
  },
  {
   "property": "C130",
   "status": "proved",
   "theorems": [
    "C130_window",
    "C130_photons",
    "C130_no_table",
    "C130_statistics",
    "C130_header",
    "C130_temperature",
    "C130_date",
    "C130_missing_refuted",
    "C130_order_refuted"
   ],
   "note": "the findings are the two _refuted theorems"
  },
  {
   "property": "C131",
   "status": "proved",
   "theorems": [
    "C131_runs",
    "C131_listing_order",
    "C131_row",
    "C131_columns_refuted",
    "C131_database",
    "C131_one_failure",
    "C131_incomplete",
    "C131_merge",
    "C131_merge_again",
    "C131_patterns",
    "C131_true_r0",
    "C131_true_column_refuted",
    "C131_tau0_unit_refuted",
    "C131_seeing_factor",
    "C131_capitals",
    "C131_strehl_columns"
   ],
   "note": "the findings are the _refuted theorems"
  },
  {
   "property": "C132",
   "status": "proved",
   "theorems": [
    "C132_zero_mean",
    "C132_wfe",
    "C132_wfe_offset",
    "C132_wfe_still",
    "C132_wfe_scale",
    "C132_fill",
    "C132_rate",
    "C132_decimate",
    "C132_decimated_mean_refuted",
    "C132_servo",
    "C132_tiptilt",
    "C132_crop",
    "C132_crop_edge_refuted",
    "C132_saturation",
    "C132_weights",
    "C132_hours",
    "C132_influence_refuted",
    "C132_tilt_unit"
   ],
   "note": "the findings are the _refuted theorems"
  },
  {
   "property": "C133",
   "status": "proved",
   "theorems": [
    "C133_residual",
    "C133_offset",
    "C133_wfe",
    "C133_atmosphere"
   ],
   "note": ""
  },
  {
   "property": "C134",
   "status": "proved",
   "theorems": [
    "C134_symmetric_3D",
    "C134_symmetric_4D",
    "C134_static_tilt_refuted",
    "C134_binned_refuted"
   ],
   "note": "the findings are the _refuted theorems"
  },
  {
   "property": "C135",
   "status": "proved",
   "theorems": [
    "C135_fitting",
    "C135_outer_scale",
    "C135_regularisation_bias",
    "C135_noise_bias",
    "C135_regularisation_noise"
   ],
   "note": ""
  },
  {
   "property": "C136",
   "status": "proved",
   "theorems": [
    "C136_unknown_key_ignored",
    "C136_misspelt"
   ],
   "note": "the table known_table of P_Config9.v is the specification"
  },
  {
   "property": "C137",
   "status": "proved",
   "theorems": [
    "C137_stat_modes_no_effect",
    "C137_unknown_mode",
    "C137_adjusted_system",
    "C137_adjusted_unchanged",
    "C137_broadband_refused",
    "C137_unknown_mask",
    "C137_date",
    "C137_dictionary",
    "C137_short_table_refused",
    "C137_draw",
    "C137_table",
    "C137_table_readback",
    "C137_names",
    "C137_other_mode_count",
    "C137_all_files_refuted",
    "C137_nonvacuous",
    "C137_table_nonvacuous"
   ],
   "note": "text of a NumPy array read back by eval: only its being a list or not is modelled"
  },
  {
   "property": "C138",
   "status": "proved",
   "theorems": [
    "C138_psd",
    "C138_structure_function",
    "C138_images",
    "C138_defined",
    "C138_budget"
   ],
   "note": "Scope: one natural guide star, no laser guide star, closed loop, normalizePSD, TiltFilter, getPSDatNGSpositions and nyquistSampling off, no wind-shake file; telescope OTFs (static, diffraction-limited) are arguments with the bound of C07 as hypothesis; exact reals."
  },
  {
   "property": "C139",
   "status": "proved",
   "theorems": [
    "C139_file_is_physical",
    "C139_read",
    "C139_psd",
    "C139_images"
   ],
   "note": "Scope of M_Chain: one natural guide star; the noise variances are given in the file. Case: C139_nonvacuous (file accepted, read and physical)."
  },
  {
   "property": "C140",
   "status": "proved",
   "theorems": [
    "C140_blur",
    "C140_blur_4D",
    "C140_blur_width_refuted",
    "C140_blur_3D_4D",
    "C140_blur_strehl",
    "C140_blur_angle",
    "C140_blur_monotone",
    "C140_spot_strehl"
   ],
   "note": "The width found is 8 ln2/pi times the requested one (C140_blur_width_refuted: the factor exceeds 1). C140_blur, C140_blur_4D: jitter angle 0; C140_blur_angle, C140_blur_strehl, C140_blur_monotone, C140_spot_strehl (composed computation): any angle. Cases: C140_nonvacuous, C140_strehl_nonvacuous, C140_spot_nonvacuous."
  },
  {
   "property": "C141",
   "status": "proved",
   "theorems": [
    "C141_source_alone",
    "C141_images"
   ],
   "note": "Composed computation of C138 (one natural guide star, closed loop, normalizePSD=False). Case: C141_nonvacuous."
  },
  {
   "property": "C142",
   "status": "proved",
   "theorems": [
    "C142_residual_phase",
    "C142_pixel",
    "C142_pixel_strehl"
   ],
   "note": "Composed computation of C138 (one natural guide star, closed loop). Case: C142_nonvacuous; with a spot: C140_spot_nonvacuous."
  }
 ]
}