{
 "claims": [
  {
   "property": "C01",
   "status": "proved",
   "theorems": [
    "C01_cart_sph_cart",
    "C01_sph_cart_sph",
    "C01_ranges",
    "C01_dir_functions"
   ],
   "note": ""
  },
  {
   "property": "C02",
   "status": "proved",
   "theorems": [
    "C02_haversine_is_central_angle",
    "C02_haversine_metric",
    "C02_angle_between"
   ],
   "note": ""
  },
  {
   "property": "C03",
   "status": "proved",
   "theorems": [
    "C03_rotation_euler_is_rotation",
    "C03_rotation_matrix_orthogonal",
    "C03_rotation_euler_meaning"
   ],
   "note": ""
  },
  {
   "property": "C04",
   "status": "proved",
   "theorems": [
    "C04_rodrigues_turns_about_axis",
    "C04_rodrigues_small_or_negative_is_identity",
    "C04_rodrigues_negative_angle_refuted"
   ],
   "note": "The rotation law is proved for theta > 1e-9; for other angles the code returns the identity, so undoing a rotation with a negative angle is refuted by a witness."
  },
  {
   "property": "C05",
   "status": "proved",
   "theorems": [
    "C05_rotation_vecvec",
    "C05_rotation_vecvec_accuracy",
    "C05_rotation_vecvec_same_vector_raises"
   ],
   "note": "Exact for angles above 1e-9, within 1e-9 otherwise; parallel vectors raise (proved)."
  },
  {
   "property": "C06",
   "status": "proved",
   "theorems": [
    "C06_deg_rad"
   ],
   "note": ""
  },
  {
   "property": "C07",
   "status": "proved",
   "theorems": [
    "C07_from_db_db",
    "C07_db_from_db",
    "C07_db_laws",
    "C07_value"
   ],
   "note": ""
  },
  {
   "property": "C08",
   "status": "proved",
   "theorems": [
    "C08_interleave",
    "C08_interleave_rejects"
   ],
   "note": ""
  },
  {
   "property": "C09",
   "status": "proved",
   "theorems": [
    "C09_stack_wide",
    "C09_stack_tall",
    "C09_stack_rejects_other_shapes",
    "C09_stack_shared_dimension_refuted",
    "C09_stack_vectors"
   ],
   "note": "Behaviour for every pair of 2-D shapes is proved; the docstring's promise for arrays sharing one dimension is refuted."
  },
  {
   "property": "C10",
   "status": "proved",
   "theorems": [
    "C10_asarray_1d",
    "C10_asarray_1d_idempotent"
   ],
   "note": ""
  },
  {
   "property": "C11",
   "status": "proved",
   "theorems": [
    "C11_rotates_the_field",
    "C11_rotate_sh_moves_directions",
    "C11_block_diagonal",
    "C11_rotate_sh_applies_matrix",
    "C11_rejects",
    "C11_order_0_raises",
    "C11_every_order_refuted"
   ],
   "note": "For N >= 1 and directions with zenith in [0, pi]; order 0 raises (proved), which refutes the claim for that order."
  },
  {
   "property": "C12",
   "status": "proved",
   "theorems": [
    "C12_unit_gain",
    "C12_unit_gain_weights",
    "C12_prepared_weights",
    "C12_pattern",
    "C12_errors"
   ],
   "note": "Also gives the whole beam pattern in Legendre polynomials."
  },
  {
   "property": "C13",
   "status": "proved",
   "theorems": [
    "C13_roundtrip",
    "C13_non_square",
    "C13_two_three_channels"
   ],
   "note": "Signals with 2 or 3 channels pass through unchanged and other non-square channel counts raise (both proved)."
  },
  {
   "property": "C14",
   "status": "proved",
   "theorems": [
    "C14_value",
    "C14_roundtrip",
    "C14_zero_weight",
    "C14_plane_wave"
   ],
   "note": "np.linalg.inv enters by its contract (inverse if one exists, else LinAlgError)."
  },
  {
   "property": "C15",
   "status": "proved",
   "theorems": [
    "C15_sht_value",
    "C15_sht_given_value",
    "C15_inverse_value",
    "C15_inverse_given_value",
    "C15_sht_inverts_inverse_sht",
    "C15_default_weights",
    "C15_exact_grids",
    "C15_designs",
    "C15_linear",
    "C15_surplus_ignored",
    "C15_too_few"
   ],
   "note": "Real harmonics, both for grids with an orthonormal SH matrix and for all grids exact to degree 2N."
  },
  {
   "property": "C16",
   "status": "proved",
   "theorems": [
    "C16_perfect_reconstruction",
    "C16_energy_multiple",
    "C16_designs_qualify",
    "C16_other_modes_rejected",
    "C16_matrices"
   ],
   "note": "For real harmonics; the pinv mode is analysed in C107."
  },
  {
   "property": "C17",
   "status": "proved",
   "theorems": [
    "C17_addition_theorem",
    "C17_peak",
    "C17_default_weights",
    "C17_wrong_weights"
   ],
   "note": ""
  },
  {
   "property": "C18",
   "status": "proved",
   "theorems": [
    "C18_repeat_per_order",
    "C18_sh_matrix_columns",
    "C18_acn_bijective"
   ],
   "note": ""
  },
  {
   "property": "C19",
   "status": "proved",
   "theorems": [
    "C19_value",
    "C19_convex_combination",
    "C19_silent_row",
    "C19_rows"
   ],
   "note": ""
  },
  {
   "property": "C20",
   "status": "proved",
   "theorems": [
    "C20_first_order_field"
   ],
   "note": ""
  },
  {
   "property": "C21",
   "status": "proved",
   "theorems": [
    "C21_equal_angle",
    "C21_gauss",
    "C21_equal_polar_angle",
    "C21_equal_angle_points",
    "C21_equal_angle_weights",
    "C21_gauss_points"
   ],
   "note": "Stronger than stated: equal_angle and gauss integrate every spherical harmonic up to order 2n+1. leggauss enters by its documented contract (exact for powers up to 2n+1), which C112 proves of numpy's algorithm."
  },
  {
   "property": "C22",
   "status": "proved",
   "theorems": [
    "C22_n_design_gap",
    "C22_n_design_gap_low",
    "C22_lebedev_gap",
    "C22_gaps_attained",
    "C22_n_design",
    "C22_lebedev",
    "C22_out_of_range",
    "C22_t_design",
    "C22_Fliege_Maier",
    "C22_maxDet_refuted"
   ],
   "note": "Which degrees exist is read off the data files; the tables themselves are parameters. load_maxDet raises for every degree since its file is missing (proved)."
  },
  {
   "property": "C23",
   "status": "proved",
   "theorems": [
    "C23_weights_exact",
    "C23_bad_arguments",
    "C23_search"
   ],
   "note": "np.linalg.pinv enters by the Penrose equations. The weights are also shown to have the least norm of all exact weights."
  },
  {
   "property": "C24",
   "status": "proved",
   "theorems": [
    "C24_gains",
    "C24_filterbank_complementary",
    "C24_filterbank_default_limit",
    "C24_band_limits_tile",
    "C24_terminates",
    "C24_nonpositive_f_low_never_returns",
    "C24_transition_beyond_spectrum",
    "C24_default_limit_fails_refuted"
   ],
   "note": "Conditions (transitions separated and inside the spectrum) are stated in real numbers; outside them ValueError is proved, and a witness shows the default upper limit can fail. C24_gains gives every gain and every band limit."
  },
  {
   "property": "C25",
   "status": "proved",
   "theorems": [
    "C25_exact_on_polynomials",
    "C25_unit_dc_gain",
    "C25_integer_delay"
   ],
   "note": ""
  },
  {
   "property": "C26",
   "status": "proved",
   "theorems": [
    "C26_gain_clipping"
   ],
   "note": ""
  },
  {
   "property": "C27",
   "status": "proved",
   "theorems": [
    "C27_match_loudness",
    "C27_silent_input"
   ],
   "note": "For non-silent input and target; a silent input gives NaN (proved)."
  },
  {
   "property": "C28",
   "status": "proved",
   "theorems": [
    "C28_exact_weights",
    "C28_local_weighted_mean",
    "C28_within_window_extremes",
    "C28_zero_smoothing_rejected"
   ],
   "note": ""
  },
  {
   "property": "C29",
   "status": "proved",
   "theorems": [
    "C29_half_sided_Hann",
    "C29_too_short"
   ],
   "note": ""
  },
  {
   "property": "C30",
   "status": "proved",
   "theorems": [
    "C30_energy_decay",
    "C30_undefined_iff_silent_or_short"
   ],
   "note": ""
  },
  {
   "property": "C31",
   "status": "proved",
   "theorems": [
    "C31_independent_of_pause",
    "C31_pulse_train",
    "C31_normalized_peak",
    "C31_pause_duration_refuted"
   ],
   "note": "Independence of t_pause and the exact pulse train are proved; the promised pause duration is refuted by a witness."
  },
  {
   "property": "C32",
   "status": "proved",
   "theorems": [
    "C32_jobs_equivalent",
    "C32_no_jobs_gives_zeros",
    "C32_zero_jobs_refuted"
   ],
   "note": "For jobs_count = 1 and > 1, every chunk size and completion order; jobs_count <= 0 returns zeros (proved), which refutes the claim for those values. The row-wise independence of resampy is a hypothesis."
  },
  {
   "property": "C33",
   "status": "proved",
   "theorems": [
    "C33_values",
    "C33_parallel",
    "C33_no_deadlock",
    "C33_unvisited",
    "C33_last_window_refuted",
    "C33_window_one",
    "C33_checks",
    "C33_after_trim",
    "C33_trim_refuted"
   ],
   "note": "Worker processes as interleaved stores into the shared buffer; the skipped last window and the stale channels after trim are refuted with witnesses. filtfilt is an uninterpreted function here and modelled in C104."
  },
  {
   "property": "C34",
   "status": "proved",
   "theorems": [
    "C34_parallel",
    "C34_no_deadlock",
    "C34_separate_locks_refuted"
   ],
   "note": "Interleaving semantics at the granularity of one load or store; separate locks lose updates (refuted with a schedule)."
  },
  {
   "property": "C35",
   "status": "proved",
   "theorems": [
    "C35_output",
    "C35_linear",
    "C35_one_direction",
    "C35_empty_grid"
   ],
   "note": ""
  },
  {
   "property": "C36",
   "status": "proved",
   "theorems": [
    "C36_sum",
    "C36_rejects",
    "C36_default",
    "C36_signal_and_noise",
    "C36_eigenvectors",
    "C36_zero_cut",
    "C36_zero_cut_refuted"
   ],
   "note": "eigh enters by its contract (orthogonal eigenvectors, ascending eigenvalues); every accepted split point, negative ones included. The default-split defect is a theorem plus a refutation of a zero signal part."
  },
  {
   "property": "C37",
   "status": "proved",
   "theorems": [
    "C37_range",
    "C37_from_covariance",
    "C37_low_variance",
    "C37_first_jump",
    "C37_no_jump",
    "C37_errors",
    "C37_scale_refuted"
   ],
   "note": "Complete case analysis of the count; scale invariance is refuted with a witness."
  },
  {
   "property": "C38",
   "status": "proved",
   "theorems": [
    "C38_distortionless",
    "C38_optimal",
    "C38_exists",
    "C38_singular"
   ],
   "note": "inv enters by its contract; optimality and uniqueness against every competitor for symmetric positive definite covariance."
  },
  {
   "property": "C39",
   "status": "proved",
   "theorems": [
    "C39_constraints",
    "C39_optimal",
    "C39_exists",
    "C39_no_repeated_direction"
   ],
   "note": "inv enters by its contract; exact constraints, optimality, uniqueness and existence for independent steering vectors."
  },
  {
   "property": "C40",
   "status": "proved",
   "theorems": [
    "C40_output",
    "C40_windows",
    "C40_taps",
    "C40_rates",
    "C40_sizes_exist",
    "C40_96k_refuted",
    "C40_identity",
    "C40_boost",
    "C40_tail_unnoticed_refuted",
    "C40_false_alarm_refuted"
   ],
   "note": "Sampling rates 32 kHz to 1 MHz. scipy.signal.firwin2 is a parameter here: any function that returns the requested number of taps; C40_identity also assumes it is linear in the gains and turns constant gains into a unit impulse. C117 defines it and shows that it does. The parts of the claim that fault the code are the _refuted theorems."
  },
  {
   "property": "C41",
   "status": "proved",
   "theorems": [
    "C41_output",
    "C41_identity",
    "C41_no_boost",
    "C41_smoothing_weights",
    "C41_odd_blocks_rejected",
    "C41_order_rejected"
   ],
   "note": "Sampling rates from 32 kHz; block sizes for which the filter bank transitions do not overlap. scipy.signal.firwin2 is a parameter that returns the requested number of taps; C117 defines it, shows this, and shows that its filters are never power complementary."
  },
  {
   "property": "C42",
   "status": "proved",
   "theorems": [
    "C42_gains",
    "C42_sum",
    "C42_sides",
    "C42_elevation_ignored"
   ],
   "note": ""
  },
  {
   "property": "C43",
   "status": "proved",
   "theorems": [
    "C43_value",
    "C43_bounds",
    "C43_peak",
    "C43_signal_space",
    "C43_finds_sources",
    "C43_no_noise_space"
   ],
   "note": "eigh enters by its contract; C115 shows that the contract can be met."
  },
  {
   "property": "C44",
   "status": "proved",
   "theorems": [
    "C44_gains_point_at_source",
    "C44_active_inside",
    "C44_scale_invariant",
    "C44_two_norm"
   ],
   "note": "lstsq of each 3x3 base enters by its contract; hull faces are assumed in range and linearly independent."
  },
  {
   "property": "C45",
   "status": "proved",
   "theorems": [
    "C45_any_interleaving",
    "C45_fair_schedules_complete"
   ],
   "note": "Every interleaving of the workers' single-element writes that lets all workers finish; a counting condition that guarantees this is proved too."
  },
  {
   "property": "C46",
   "status": "proved",
   "theorems": [
    "C46_history_independent",
    "C46_stale_cache",
    "C46_history_independence_refuted"
   ],
   "note": "History independence for unchanged simplices, the exact behaviour with a stale cache, and a refutation of history independence with a witness."
  },
  {
   "property": "C47",
   "status": "proved",
   "theorems": [
    "C47_nonnegative_unit_norm",
    "C47_unit_norm_when_active",
    "C47_values",
    "C47_intensity",
    "C47_unequal_distances_refuted"
   ],
   "note": "Relative to the VBAP call it makes. C47_unequal_distances_refuted: the gains of VBAP contain the compensation for distance before the root is taken."
  },
  {
   "property": "C48",
   "status": "proved",
   "theorems": [
    "C48_pops_remove_exactly",
    "C48_idempotent",
    "C48_simplex_valid_is_membership",
    "C48_empty_blacklist_removes_all",
    "C48_limits_wrap_around",
    "C48_constructor_triangulates"
   ],
   "note": "Limits are compared in radians modulo a full turn like the code does; 360 degrees acts as 0 (proved)."
  },
  {
   "property": "C49",
   "status": "proved",
   "theorems": [
    "C49_rim_edges",
    "C49_rim_vertices_even",
    "C49_outcome",
    "C49_two_rims_undetected_refuted"
   ],
   "note": "Rim edges, parity at rim vertices and the outcome of find_imaginary_loudspeaker on surfaces where each edge lies in at most two triangles; a witness shows that two separate rims are not detected."
  },
  {
   "property": "C50",
   "status": "proved",
   "theorems": [
    "C50_panning_function",
    "C50_decoder_is_panner",
    "C50_allrad2",
    "C50_allrap2_value",
    "C50_allrad_value",
    "C50_errors"
   ],
   "note": "lstsq enters by its contract. The decoder/panner equality holds for every cache state and every schedule of the worker pools that lets all workers finish."
  },
  {
   "property": "C51",
   "status": "proved",
   "theorems": [
    "C51_harmonics_at_loudspeakers",
    "C51_epad_energy",
    "C51_epad_plane_wave",
    "C51_uniform_layouts",
    "C51_mode_matching",
    "C51_default_order",
    "C51_too_few_channels",
    "C51_sad_value",
    "C51_mad_best_fit",
    "C51_epad_few"
   ],
   "note": "svd and pinv enter by their defining equations; EPAD is also shown to be the isometric polar factor, MAD the least-norm solution."
  },
  {
   "property": "C52",
   "status": "proved",
   "theorems": [
    "C52_nearest_only",
    "C52_row_per_source"
   ],
   "note": "For layouts without a loudspeaker at the origin."
  },
  {
   "property": "C53",
   "status": "proved",
   "theorems": [
    "C53_energy",
    "C53_unit_energy_refuted"
   ],
   "note": "The energy is shown constant and below 1 for all sources; unit energy is refuted with a witness."
  },
  {
   "property": "C54",
   "status": "proved",
   "theorems": [
    "C54_sort_vertices",
    "C54_normals_do_not_point_inward",
    "C54_normal_or_reverse",
    "C54_normal_length",
    "C54_normal_orthogonal"
   ],
   "note": "For all point sets and faces."
  },
  {
   "property": "C55",
   "status": "proved",
   "theorems": [
    "C55_shifts_in_place",
    "C55_array_listener",
    "C55_history",
    "C55_history_array_listener",
    "C55_frame",
    "C55_no_offset",
    "C55_from_sph",
    "C55_failed_call",
    "C55_integer_arrays",
    "C55_arrays_kept_refuted"
   ],
   "note": "Exact effect on a heap of arrays, for every number of constructions; that the caller's arrays survive is refuted with a witness and shown true without an offset, for lists and for from_sph. Views share the location of their base."
  },
  {
   "property": "C56",
   "status": "proved",
   "theorems": [
    "C56_directions",
    "C56_superposition",
    "C56_gate_error",
    "C56_linear",
    "C56_wrong_rate",
    "C56_wrong_count"
   ],
   "note": "For layouts without a loudspeaker at the listener's position."
  },
  {
   "property": "C57",
   "status": "proved",
   "theorems": [
    "C57_convolution",
    "C57_linear",
    "C57_single_channel_or_tap",
    "C57_asserts"
   ],
   "note": "oaconvolve is modelled by exact sums."
  },
  {
   "property": "C58",
   "status": "proved",
   "theorems": [
    "C58_mono_trim",
    "C58_multi_trim_and_trim_audio",
    "C58_negative_start_refuted"
   ],
   "note": ""
  },
  {
   "property": "C59",
   "status": "proved",
   "theorems": [
    "C59_multi_consistent",
    "C59_conv_with_too_few_filters_refuted",
    "C59_single_channel_resample_splits",
    "C59_ambib_after_init",
    "C59_ambib_after_resample",
    "C59_ambib_stale_refuted",
    "C59_conv_values",
    "C59_resample_values"
   ],
   "note": ""
  },
  {
   "property": "C60",
   "status": "proved",
   "theorems": [
    "C60_nearest_is_first_closest"
   ],
   "note": ""
  },
  {
   "property": "C61",
   "status": "proved",
   "theorems": [
    "C61_apply_ignores_the_signal",
    "C61_multi_apply_same_in_all_channels",
    "C61_apply_to_signal_refuted",
    "C61_apply_values"
   ],
   "note": ""
  },
  {
   "property": "C62",
   "status": "proved",
   "theorems": [
    "C62_saved",
    "C62_saves",
    "C62_no_hull",
    "C62_integer_gains",
    "C62_too_few_gains",
    "C62_loaded",
    "C62_integer",
    "C62_file_order",
    "C62_no_entries",
    "C62_missing_key",
    "C62_roundtrip",
    "C62_resave",
    "C62_resave_refuted",
    "C62_gains_misassigned_refuted",
    "C62_integer_gains_refuted"
   ],
   "note": "In exact arithmetic; loading means the entries of the JSON document (names, NaN and non-numbers are left out). Faults of the code are stated: an azimuth that rounds to 360 is re-saved as 0 (C62_resave_refuted), gains stay in file order (C62_gains_misassigned_refuted), integer gains cannot be saved (C62_integer_gains_refuted)."
  },
  {
   "property": "C63",
   "status": "proved",
   "theorems": [
    "C63_load",
    "C63_rates_disagree",
    "C63_rate_argument",
    "C63_missing_file",
    "C63_no_files",
    "C63_roundtrip",
    "C63_roundtrip_ambi",
    "C63_roundtrip_mono",
    "C63_single_channel",
    "C63_array",
    "C63_array_needs_rate",
    "C63_fs_ignored",
    "C63_fs_contradiction_refuted",
    "C63_ragged",
    "C63_silence"
   ],
   "note": "soundfile is modelled as a disk of (rate, frames x channels) files; the conversion of samples to the sample format is an arbitrary function (stored), as is what the format accepts. C63_fs_contradiction_refuted faults the code: an fs that contradicts the signal's own is ignored silently."
  },
  {
   "property": "C64",
   "status": "proved",
   "theorems": [
    "C64_loudspeaker",
    "C64_loudspeaker_succeeds",
    "C64_superposition",
    "C64_jobs",
    "C64_no_workers",
    "C64_no_workers_refuted",
    "C64_sdm",
    "C64_sdm_values",
    "C64_file_name"
   ],
   "note": "For jobs_count >= 1 (or None). Pool results arrive in any order. jobs_count <= 0 writes silence (C64_no_workers, C64_no_workers_refuted). NaN responses give no file content claim."
  },
  {
   "property": "C65",
   "status": "proved",
   "theorems": [
    "C65_dummy",
    "C65_any_rate",
    "C65_raises",
    "C65_tight"
   ],
   "note": "C65_any_rate covers every sampling rate, C65_tight shows that 327999 Hz is the last one for a grid with a lateral direction."
  },
  {
   "property": "C66",
   "status": "proved",
   "theorems": [
    "C66_itd_of_pure_delay"
   ],
   "note": "Resampling and band-pass filtering are not modelled; the claim starts at the filtered responses."
  },
  {
   "property": "C67",
   "status": "proved",
   "theorems": [
    "C67_real_harmonics",
    "C67_complex_harmonics"
   ],
   "note": ""
  },
  {
   "property": "C68",
   "status": "proved",
   "theorems": [
    "C68_orthogonal",
    "C68_composition"
   ],
   "note": ""
  },
  {
   "property": "C69",
   "status": "proved",
   "theorems": [
    "C69_least_squares"
   ],
   "note": "np.linalg.lstsq enters by its contract (normal equations)."
  },
  {
   "property": "C70",
   "status": "proved",
   "theorems": [
    "C70_product_of_functions"
   ],
   "note": "grids.load_t_design enters as a parameter that returns an exact design of unit vectors; that the bundled tables are designs is data and not proved."
  },
  {
   "property": "C71",
   "status": "proved",
   "theorems": [
    "C71_projection"
   ],
   "note": ""
  },
  {
   "property": "C72",
   "status": "proved",
   "theorems": [
    "C72_equal_angle",
    "C72_gauss"
   ],
   "note": "leggauss enters by its documented contract."
  },
  {
   "property": "C73",
   "status": "proved",
   "theorems": [
    "C73_order_positive",
    "C73_no_value_error",
    "C73_least_order",
    "C73_setup",
    "C73_none_kernel_raises",
    "C73_none_kernel_refuted"
   ],
   "note": "Positivity and the setup facts hold for every layout; the characterisation of the order assumes regular triangles after projection. Exact arithmetic: rounding could push an energy vector above length 1."
  },
  {
   "property": "C74",
   "status": "proved",
   "theorems": [
    "C74_signals",
    "C74_wrong_loudspeakers",
    "C74_wrong_length"
   ],
   "note": "All shapes."
  },
  {
   "property": "C75",
   "status": "proved",
   "theorems": [
    "C75_sector_patterns"
   ],
   "note": "For the designs load_t_design returns where they are exact; the exactness of the shipped tables is an assumption on data files."
  },
  {
   "property": "C76",
   "status": "proved",
   "theorems": [
    "C76_direction",
    "C76_loud_samples",
    "C76_encoded_source"
   ],
   "note": "Exact arithmetic; no band-pass (the filter itself is C104)."
  },
  {
   "property": "C77",
   "status": "proved",
   "theorems": [
    "C77_superposition",
    "C77_one_loudspeaker_at_a_time",
    "C77_checks"
   ],
   "note": "post_eq_func=None; the default equaliser and other functions are in C125."
  },
  {
   "property": "C78",
   "status": "proved",
   "theorems": [
    "C78_rate",
    "C78_file",
    "C78_one_direction",
    "C78_default_rates",
    "C78_default_kept"
   ],
   "note": ""
  },
  {
   "property": "C79",
   "status": "proved",
   "theorems": [
    "C79_loaded",
    "C79_missing_key",
    "C79_no_nan"
   ],
   "note": ""
  },
  {
   "property": "C80",
   "status": "proved",
   "theorems": [
    "C80_loaded",
    "C80_one_measurement",
    "C80_missing_key",
    "C80_to_sh",
    "C80_elevation_refuted"
   ],
   "note": "sofa_to_sh with sh_type='real'. C80_elevation_refuted faults the check of the zenith."
  },
  {
   "property": "C81",
   "status": "proved",
   "theorems": [
    "C81_bessel",
    "C81_hankel",
    "C81_rigid",
    "C81_rigid_size",
    "C81_order_zero",
    "C81_rigid_at_zero",
    "C81_open",
    "C81_unknown"
   ],
   "note": "spherical_jn and spherical_yn are the functions themselves (closed forms and recurrence), real arguments."
  },
  {
   "property": "C82",
   "status": "proved",
   "theorems": [
    "C82_pressure",
    "C82_weights_short",
    "C82_gain",
    "C82_boost",
    "C82_unity",
    "C82_cut",
    "C82_taper_short",
    "C82_empty",
    "C82_unsorted_refuted"
   ],
   "note": "C82_unsorted_refuted: frequencies out of order."
  },
  {
   "property": "C83",
   "status": "proved",
   "theorems": [
    "C83_result",
    "C83_too_few_bins",
    "C83_order_zero",
    "C83_unknown",
    "C83_short",
    "C83_no_rate",
    "C83_odd_taps",
    "C83_default_192kHz",
    "C83_length_refuted"
   ],
   "note": "np.linalg.pinv is any function giving Moore-Penrose inverses. C83_length_refuted: odd lengths above 1024."
  },
  {
   "property": "C84",
   "status": "proved",
   "theorems": [
    "C84_magnitude",
    "C84_common_delay",
    "C84_pulses"
   ],
   "note": ""
  },
  {
   "property": "C85",
   "status": "proved",
   "theorems": [
    "C85_result",
    "C85_correction",
    "C85_flat",
    "C85_scaled",
    "C85_weights_scaled",
    "C85_ears",
    "C85_wrong_weights",
    "C85_no_rate",
    "C85_negative_energy",
    "C85_silent",
    "C85_short_not_finite",
    "C85_all_zero_refuted"
   ],
   "note": "scipy.signal.minimum_phase is a parameter here, defined in C118. C85_all_zero_refuted, C85_short_not_finite: faults of the code."
  },
  {
   "property": "C86",
   "status": "proved",
   "theorems": [
    "C86_full",
    "C86_same",
    "C86_valid",
    "C86_rejected",
    "C86_default",
    "C86_spectrum",
    "C86_pulse"
   ],
   "note": ""
  },
  {
   "property": "C87",
   "status": "proved",
   "theorems": [
    "C87_even_length",
    "C87_error",
    "C87_equal_rates",
    "C87_too_short",
    "C87_odd_length_refuted"
   ],
   "note": "resampy.resample is a parameter. C87_odd_length_refuted: a fault of the code."
  },
  {
   "property": "C88",
   "status": "proved",
   "theorems": [
    "C88_spectrum",
    "C88_tuple_labels",
    "C88_freq_resp_tuple",
    "C88_octave_label_wrong",
    "C88_mixed_lengths_refuted"
   ],
   "note": "C88_mixed_lengths_refuted, C88_octave_label_wrong: faults of the code."
  },
  {
   "property": "C89",
   "status": "proved",
   "theorems": [
    "C89_map",
    "C89_map_list",
    "C89_integer_azimuths_refuted",
    "C89_doa",
    "C89_doa_number",
    "C89_doa_zero_rate",
    "C89_doa_third_turn_refuted",
    "C89_ild_itd",
    "C89_ild_itd_refuted"
   ],
   "note": "C89_integer_azimuths_refuted, C89_doa_third_turn_refuted, C89_ild_itd_refuted: faults of the code."
  },
  {
   "property": "C90",
   "status": "proved",
   "theorems": [
    "C90_rms",
    "C90_plane_wave",
    "C90_all_samples",
    "C90_default_limits",
    "C90_default_limits_refuted",
    "C90_tail_refuted"
   ],
   "note": "Real signals. C90_default_limits_refuted, C90_tail_refuted: faults of the code."
  },
  {
   "property": "C91",
   "status": "proved",
   "theorems": [
    "C91_vbip",
    "C91_sums",
    "C91_silent",
    "C91_vector",
    "C91_ranges",
    "C91_cone",
    "C91_single",
    "C91_grid",
    "C91_performance",
    "C91_nearest",
    "C91_vbap",
    "C91_unit_gain_refuted"
   ],
   "note": "C91_unit_gain_refuted: the plotted amplitude and energy are not those at the listener."
  },
  {
   "property": "C92",
   "status": "proved",
   "theorems": [
    "C92_transfer",
    "C92_mismatch",
    "C92_polar",
    "C92_transfer_refuted"
   ],
   "note": "C92_transfer_refuted: a fault of the code."
  },
  {
   "property": "C93",
   "status": "proved",
   "theorems": [
    "C93_hull_drawn",
    "C93_hull_faces",
    "C93_hull_colors",
    "C93_hull_color_mismatch",
    "C93_hull_limits",
    "C93_aspect",
    "C93_balloon",
    "C93_balloon_grid",
    "C93_balloon_steps",
    "C93_function",
    "C93_bars",
    "C93_bars_general",
    "C93_hull_colors_refuted",
    "C93_bars_dropped_refuted"
   ],
   "note": "C93_hull_colors_refuted, C93_bars_dropped_refuted: faults of the code."
  },
  {
   "property": "C94",
   "status": "proved",
   "theorems": [
    "C94_copy",
    "C94_no_interference",
    "C94_histories",
    "C94_trim_audio"
   ],
   "note": "Arrays are 1-D float arrays; copy.deepcopy with its memo."
  },
  {
   "property": "C95",
   "status": "proved",
   "theorems": [
    "C95_sound",
    "C95_start",
    "C95_only_writes",
    "C95_methods",
    "C95_runs"
   ],
   "note": "The resampler is any function whose result length depends on the rates and the length only."
  },
  {
   "property": "C96",
   "status": "proved",
   "theorems": [
    "C96_array_is_kept",
    "C96_list_is_copied",
    "C96_window",
    "C96_channels",
    "C96_file_channels",
    "C96_attributes",
    "C96_signals_new",
    "C96_ownership_refuted"
   ],
   "note": "C96_ownership_refuted: a signal does not own its samples."
  },
  {
   "property": "C97",
   "status": "proved",
   "theorems": [
    "C97_difference_equation",
    "C97_lfilter_result",
    "C97_impulse_response",
    "C97_linear",
    "C97_lfilter_errors",
    "C97_b_format",
    "C97_only_four",
    "C97_filtered",
    "C97_channels_unfiltered",
    "C97_capsules",
    "C97_stereo_panned",
    "C97_stereo",
    "C97_filters_reach_channels_refuted"
   ],
   "note": "C97_filters_reach_channels_refuted: a fault of the code. a = [0.] is outside the model."
  },
  {
   "property": "C98",
   "status": "proved",
   "theorems": [
    "C98_default_set",
    "C98_rate_unused",
    "C98_errors",
    "C98_label_refuted"
   ],
   "note": "resampy.resample and the FABIAN file are parameters; C98_label_refuted: with a file of another rate the 44.1 kHz set is labelled wrongly."
  },
  {
   "property": "C99",
   "status": "proved",
   "theorems": [
    "C99_roots",
    "C99_no_roots",
    "C99_transfer_function",
    "C99_decay",
    "C99_poles_inside_stable",
    "C99_stable_pole_inside",
    "C99_stable_iff",
    "C99_origin_refuted"
   ],
   "note": "np.linalg.eigvals is a parameter (solves_for); C119 shows that the contract can always be met and determines the roots. C99_origin_refuted: not all zeros of the transfer function are drawn."
  },
  {
   "property": "C100",
   "status": "proved",
   "theorems": [
    "C100_overlay",
    "C100_overlay_colours",
    "C100_complex_balloon",
    "C100_subplot",
    "C100_subplot_axes",
    "C100_subplot_empty",
    "C100_subplot_one_refuted",
    "C100_mixed_overlay_refuted",
    "C100_colours_refuted"
   ],
   "note": "C100_mixed_overlay_refuted, C100_subplot_one_refuted, C100_colours_refuted: faults of the code."
  },
  {
   "property": "C101",
   "status": "proved",
   "theorems": [
    "C101_difference",
    "C101_metric",
    "C101_sizes",
    "C101_one_element",
    "C101_normals",
    "C101_zero_refuted",
    "C101_entries_refuted",
    "C101_compare_refuted"
   ],
   "note": "C101_compare_refuted: compare_ambi always raises; C101_zero_refuted, C101_entries_refuted: what the number does not say."
  },
  {
   "property": "C102",
   "status": "proved",
   "theorems": [
    "C102_filtfilt",
    "C102_defined",
    "C102_unique",
    "C102_linear",
    "C102_constant",
    "C102_offset",
    "C102_sosfiltfilt",
    "C102_sections",
    "C102_zero_phase_fir",
    "C102_zero_phase",
    "C102_zero_phase_sections"
   ],
   "note": "zero_phase: the constant depends on the filter and the radius only."
  },
  {
   "property": "C103",
   "status": "proved",
   "theorems": [
    "C103_defined",
    "C103_coefficients",
    "C103_gain",
    "C103_butterworth",
    "C103_band",
    "C103_poles",
    "C103_stable",
    "C103_sections",
    "C103_filters",
    "C103_zero_phase",
    "C103_offset"
   ],
   "note": "zero_phase: the constants depend on the filter only."
  },
  {
   "property": "C104",
   "status": "proved",
   "theorems": [
    "C104_ild",
    "C104_ild_defined",
    "C104_ild_band_error",
    "C104_ild_short_error",
    "C104_ild_default_band_refuted",
    "C104_ild_swap",
    "C104_ild_gain",
    "C104_ild_offset",
    "C104_ild_copy",
    "C104_itd",
    "C104_itd_defined",
    "C104_itd_band_error",
    "C104_itd_bound",
    "C104_itd_gain",
    "C104_itd_swap",
    "C104_itd_copy",
    "C104_itd_silence_refuted",
    "C104_intensity",
    "C104_intensity_defined",
    "C104_intensity_errors",
    "C104_intensity_direction",
    "C104_intensity_offset"
   ],
   "note": "resampy is a parameter. C104_ild_default_band_refuted, C104_itd_silence_refuted: faults of the code."
  },
  {
   "property": "C105",
   "status": "proved",
   "theorems": [
    "C105_mono",
    "C105_multi",
    "C105_ambi",
    "C105_file",
    "C105_signals",
    "C105_item",
    "C105_sh_to_b",
    "C105_sh_to_b_mono"
   ],
   "note": "sf.read is the disk; sh_to_b itself is characterised in the spherical-harmonics claims."
  },
  {
   "property": "C106",
   "status": "proved",
   "theorems": [
    "C106_basis",
    "C106_orthonormal",
    "C106_inverts",
    "C106_inverts_default",
    "C106_parseval",
    "C106_linear",
    "C106_value",
    "C106_real_functions",
    "C106_symmetry",
    "C106_same_value",
    "C106_synthesis",
    "C106_sources",
    "C106_sources_value",
    "C106_least_squares",
    "C106_least_squares_real"
   ],
   "note": "np.linalg.lstsq is a parameter with the normal equations as contract; C106_least_squares_nonvacuous: it can be met."
  },
  {
   "property": "C107",
   "status": "proved",
   "theorems": [
    "C107_perfect",
    "C107_energy",
    "C107_matrices",
    "C107_other_modes",
    "C107_pinv",
    "C107_pinv_sectors",
    "C107_pinv_real",
    "C107_sofa",
    "C107_product",
    "C107_factor"
   ],
   "note": "np.linalg.pinv is a parameter with the Penrose equations as contract, used on the matrix at hand only."
  },
  {
   "property": "C108",
   "status": "proved",
   "theorems": [
    "C108_kept",
    "C108_upright",
    "C108_inside_dropped_refuted",
    "C108_outside_kept_refuted"
   ],
   "note": "C108_inside_dropped_refuted, C108_outside_kept_refuted: faults of the code. scipy's ConvexHull is a parameter."
  },
  {
   "property": "C109",
   "status": "proved",
   "theorems": [
    "C109_init",
    "C109_unequal_ears_refuted",
    "C109_getitem",
    "C109_update",
    "C109_updates",
    "C109_nearest",
    "C109_nearest_empty",
    "C109_nearest_hrirs"
   ],
   "note": "C109_unequal_ears_refuted: fault of the code."
  },
  {
   "property": "C110",
   "status": "proved",
   "theorems": [
    "C110_rms",
    "C110_rms_laws",
    "C110_area",
    "C110_levels",
    "C110_levels_errors",
    "C110_levels_axis_refuted",
    "C110_resample",
    "C110_resample_first_axis"
   ],
   "note": "resampy is a parameter. C110_levels_axis_refuted: fault of the code."
  },
  {
   "property": "C111",
   "status": "proved",
   "theorems": [
    "C111_rows",
    "C111_errors",
    "C111_energy",
    "C111_at_imaginary",
    "C111_after_setup",
    "C111_vbip_silent_refuted"
   ],
   "note": "C111_vbip_silent_refuted: the remark in the docstring of vbip is wrong of the code. np.linalg.lstsq on 3x3 matrices is a parameter; hulls by their faces."
  },
  {
   "property": "C112",
   "status": "proved",
   "theorems": [
    "C112_leggauss",
    "C112_sharp",
    "C112_divisors",
    "C112_degree_zero",
    "C112_series",
    "C112_contract_met",
    "C112_grid",
    "C112_legendre_determined"
   ],
   "note": "np.linalg.eigvalsh is a parameter with the spectral theorem as contract; C112_contract_met shows that the contract can be met and has one solution for every degree. leggauss, legval, legder and legcompanion are modelled after numpy, whose source is not in the repository."
  },
  {
   "property": "C113",
   "status": "proved",
   "theorems": [
    "C113_hypercardioid",
    "C113_cardioid",
    "C113_longest",
    "C113_max_rE",
    "C113_butterworth",
    "C113_unity_gain"
   ],
   "note": "Energies are integrals over the sphere defined through antiderivatives, beams are what bandlimited_dirac returns; nothing about the optimum is taken from the definition of the weights."
  },
  {
   "property": "C114",
   "status": "proved",
   "theorems": [
    "C114_svd_exists",
    "C114_pinv_exists",
    "C114_pinv_unique",
    "C114_mad_determined",
    "C114_epad_determined",
    "C114_epad_determined_refuted"
   ],
   "note": "The unrestricted claim that EPAD depends on the layout only is refuted (C114_epad_determined_refuted); C114_epad_determined gives the exact condition."
  },
  {
   "property": "C115",
   "status": "proved",
   "theorems": [
    "C115_eigh_exists",
    "C115_eigenvalues_unique",
    "C115_spectral_functions",
    "C115_separate_determined",
    "C115_count_determined",
    "C115_music_determined",
    "C115_music_determined_refuted"
   ],
   "note": "The unrestricted claim that sh_music depends on the covariance only is refuted (C115_music_determined_refuted); C115_music_determined gives the exact condition."
  },
  {
   "property": "C116",
   "status": "proved",
   "theorems": [
    "C116_independent",
    "C116_circle_dependent",
    "C116_spectrum",
    "C116_separate_sources",
    "C116_music_exact",
    "C116_music_ghosts",
    "C116_music_exact_refuted",
    "C116_lcmv_iff",
    "C116_lcmv_distinct",
    "C116_lcmv_circle"
   ],
   "note": "The limit of 2N sources is sharp: C116_music_exact_refuted and C116_music_ghosts show peaks away from the sources for 2N+1 sources."
  },
  {
   "property": "C117",
   "status": "proved",
   "theorems": [
    "C117_design",
    "C117_symmetric",
    "C117_errors",
    "C117_linear",
    "C117_power",
    "C117_first_identity",
    "C117_second_filters",
    "C117_second_identity_refuted"
   ],
   "note": "scipy.signal.firwin2 is defined as the post equalizers call it (gains on an even grid, Hamming window). C117_second_identity_refuted: sdm_post_equalization2 does not return a matching impulse unchanged."
  },
  {
   "property": "C118",
   "status": "proved",
   "theorems": [
    "C118_response",
    "C118_determined",
    "C118_gain",
    "C118_flat",
    "C118_pulse",
    "C118_gains_only",
    "C118_scaled",
    "C118_errors",
    "C118_flat_equaliser",
    "C118_flat_equalised",
    "C118_trim",
    "C118_equaliser_gains",
    "C118_flat_unchanged_refuted"
   ],
   "note": "scipy.signal.minimum_phase (homomorphic) is defined, for SciPy before and from 1.14; arguments len(h) > 2 as SciPy demands. The filter is described before its truncation; what the truncation of a filter that is not a single sample does is not bounded. C118_flat_unchanged_refuted: a set with one pulse per direction is scaled by sqrt(1+1e-7) instead of being returned unchanged."
  },
  {
   "property": "C119",
   "status": "proved",
   "theorems": [
    "C119_roots_exist",
    "C119_solver_exists",
    "C119_roots_unique",
    "C119_drawing_determined",
    "C119_drawn_points",
    "C119_symmetric",
    "C119_distances",
    "C119_companion",
    "C119_stability"
   ],
   "note": "Fundamental theorem of algebra, proved from the least modulus of a polynomial. It shows that the contract of np.linalg.eigvals assumed in C99 can be met for every list; floating point eigenvalues are idealised."
  },
  {
   "property": "C120",
   "status": "proved",
   "theorems": [
    "C120_variance",
    "C120_gate",
    "C120_noise_only",
    "C120_quiet",
    "C120_quiet_orders",
    "C120_order_12",
    "C120_exact",
    "C120_iff",
    "C120_missed",
    "C120_one_source",
    "C120_overcount_refuted"
   ],
   "note": "exact eigenvalues (exact_eigvalsh; they exist by C115). Correlated sources or measured covariances are not covered. C120_overcount_refuted: the count is not bounded by the number of sources."
  },
  {
   "property": "C121",
   "status": "proved",
   "theorems": [
    "C121_init",
    "C121_write_seen",
    "C121_item",
    "C121_update",
    "C121_equaliser",
    "C121_equaliser_pure",
    "C121_copy",
    "C121_copy_independent",
    "C121_nearest_copies",
    "C121_frame",
    "C121_counts",
    "C121_taps",
    "C121_shared_refuted",
    "C121_half_equalised_refuted",
    "C121_taps_refuted",
    "C121_one_array_refuted"
   ],
   "note": "A heap of 2-D and 1-D arrays and sets; the values agree with the value models of C86 and C109. Views of parts of arrays are left out except the rows h[k]; what an empty operand of the equaliser leaves in the set is not modelled. The _refuted theorems show shared arrays, the half equalised set and the two ears that are one array."
  },
  {
   "property": "C122",
   "status": "proved",
   "theorems": [
    "C122_covers",
    "C122_convex",
    "C122_active",
    "C122_performance",
    "C122_allrap2",
    "C122_retain",
    "C122_unique",
    "C122_face_order",
    "C122_hole_refuted",
    "C122_face_order_refuted"
   ],
   "note": "No condition of convexity for the covering of all directions; the listener is the origin, as in vbap. Faces are given (ConvexHull is a parameter); C123 derives closedness and convexity for exact hulls of points in general position. C122_hole_refuted and C122_face_order_refuted show that closedness and non-negative rows are needed."
  },
  {
   "property": "C123",
   "status": "proved",
   "theorems": [
    "C123_closes_up",
    "C123_sorted",
    "C123_setup",
    "C123_centred",
    "C123_same_sound",
    "C123_dropped_refuted"
   ],
   "note": "ConvexHull is a parameter with the contract exact_hull: its triangles are the triples of points whose plane has all other points strictly below it. Points in general position only; Qhull's tolerances are not modelled. C123_dropped_refuted: the constructor drops a face of a tetrahedron around the listener and the source below it is silent."
  },
  {
   "property": "C124",
   "status": "proved",
   "theorems": [
    "C124_continuous",
    "C124_setup",
    "C124_continuous_refuted"
   ],
   "note": "Real arithmetic. Rows without negative gains; C124_continuous_refuted shows the jump that the tolerance of -1e-5 makes otherwise."
  },
  {
   "property": "C125",
   "status": "proved",
   "theorems": [
    "C125_default",
    "C125_source_at_rest",
    "C125_lowered",
    "C125_rate_96k",
    "C125_none",
    "C125_function",
    "C125_checks"
   ],
   "note": "Real arithmetic; firwin2 as modelled in M_firwin.v. The claim on sources at rest needs spectra of the blocks that are zero or at least 1e-9, the floor in the code."
  },
  {
   "property": "C126",
   "status": "proved",
   "theorems": [
    "C126_all_directions",
    "C126_continuous",
    "C126_performance",
    "C126_setup",
    "C126_continuous_refuted"
   ],
   "note": "Real arithmetic; lstsq by its contract; ConvexHull by the contract of C123. C126_continuous_refuted: jumps of 0.003 at the tolerance."
  },
  {
   "property": "C127",
   "status": "proved",
   "theorems": [
    "C127_rms",
    "C127_unknown_type",
    "C127_plane_wave",
    "C127_same_map",
    "C127_real",
    "C127_dtype_refuted"
   ],
   "note": "Real arithmetic; the design is a parameter. Extends C90 to complex arrays and every sh_type. C127_dtype_refuted: real coefficients in a complex array are drawn with the wrong harmonics."
  },
  {
   "property": "C128",
   "status": "proved",
   "theorems": [
    "C128_order",
    "C128_quadrature",
    "C128_designs",
    "C128_designs_found",
    "C128_few_points",
    "C128_every_order",
    "C128_result_refuted",
    "C128_contract"
   ],
   "note": "Real arithmetic; np.linalg.pinv by the Penrose equations and np.linalg.cond by its extremal property (above 200 if singular), both shown to be met by some function. C128_result_refuted: on some large grids the search finds no order and TypeError is raised."
  },
  {
   "property": "C129",
   "status": "proved",
   "theorems": [
    "C129_message",
    "C129_grids",
    "C129_designs",
    "C129_silent",
    "C129_order_zero",
    "C129_few_points",
    "C129_complex",
    "C129_same",
    "C129_contract"
   ],
   "note": "Real arithmetic; np.linalg.cond by its extremal property for real and complex arrays, met by some function. C129_order_zero: at order 0 the message is printed for every grid, against its wording."
  },
  {
   "property": "C130",
   "status": "proved",
   "theorems": [
    "C130_noise",
    "C130_size",
    "C130_designs",
    "C130_distance",
    "C130_best"
   ],
   "note": "Real arithmetic; np.linalg.lstsq by the normal equations (met by some function, C69). Real harmonics."
  },
  {
   "property": "C131",
   "status": "proved",
   "theorems": [
    "C131_order",
    "C131_found",
    "C131_designs",
    "C131_one_point"
   ],
   "note": "Real arithmetic; contracts of np.linalg.pinv and np.linalg.cond as in C128. The warning is a flag beside the weights."
  }
 ]
}