{
 "claims": [
  {
   "property": "C01",
   "status": "proved",
   "theorems": [
    "unfold_windows_correct",
    "unfold_windows_succeeds_iff",
    "unfold_windows_cover"
   ],
   "note": ""
  },
  {
   "property": "C02",
   "status": "proved",
   "theorems": [
    "slice_kernels_1d",
    "slice_kernels_2d_coincident",
    "slice_kernels_2d_independent",
    "slice_kernels_3d",
    "slice_kernels_rejects"
   ],
   "note": ""
  },
  {
   "property": "C03",
   "status": "proved",
   "theorems": [
    "sample_kernels_1d",
    "sample_kernels_2d_coincident",
    "sample_kernels_2d_independent",
    "sample_kernels_3d",
    "sample_kernels_rejects"
   ],
   "note": ""
  },
  {
   "property": "C04",
   "status": "proved",
   "theorems": [
    "center_offset_meaning",
    "center_offset_zero_contains_center_refuted",
    "sample_kernels_2d_coincident",
    "sample_kernels_2d_independent",
    "sample_kernels_3d"
   ],
   "note": "the documented containment of the centre is refuted by a boundary draw; the true bounds are proved"
  },
  {
   "property": "C05",
   "status": "proved",
   "theorems": [
    "sample_kernels_reachable_starts",
    "sample_kernels_never_last",
    "sample_kernels_full_length_raises",
    "any_starts_1d",
    "any_starts_2d",
    "any_starts_2d_independent",
    "any_starts_3d",
    "starts_never_last",
    "full_length_raises"
   ],
   "note": ""
  },
  {
   "property": "C06",
   "status": "proved",
   "theorems": [
    "imd_coincident_epoch",
    "imd_noncoincident_shuffled_epoch",
    "imd_noncoincident_sequential_epoch",
    "imd_sequential_float32_refuted",
    "imd_create_rejects"
   ],
   "note": "sequential non-coincident mode moves only the last channel, and its indices are rounded to float32"
  },
  {
   "property": "C07",
   "status": "proved",
   "theorems": [
    "imd_coincident_epoch"
   ],
   "note": ""
  },
  {
   "property": "C08",
   "status": "proved",
   "theorems": [
    "imd_coincident_epoch",
    "f32_round_ieee"
   ],
   "note": ""
  },
  {
   "property": "C09",
   "status": "proved",
   "theorems": [
    "chunked_iter_windows",
    "chunked_iter_raises",
    "chunked_iter_nonuniform_refuted"
   ],
   "note": ""
  },
  {
   "property": "C10",
   "status": "proved",
   "theorems": [
    "hdf5_coincident_batch",
    "hdf5_files_batch",
    "hdf5_independent_batch",
    "hdf5_cells_written_once",
    "hdf5_short_channel_refuted"
   ],
   "note": "file sizes are read from the first channel only: a shorter other channel makes some draws raise"
  },
  {
   "property": "C11",
   "status": "proved",
   "theorems": [
    "hdf5_worker_split",
    "hdf5_iter_yields"
   ],
   "note": ""
  },
  {
   "property": "C12",
   "status": "proved",
   "theorems": [
    "hdf5_create_rejects",
    "hdf5_create_cases",
    "hdf5_reachable_starts",
    "hdf5_coincident_batch",
    "hdf5_files_batch",
    "hdf5_independent_batch",
    "hdf5_duplicate_fnames_raise",
    "hdf5_kernel_sized_files_raise"
   ],
   "note": ""
  },
  {
   "property": "C13",
   "status": "proved",
   "theorems": [
    "snapshotter_stream",
    "snapshotter_create_rejects",
    "snapshotter_batch1_oversize"
   ],
   "note": ""
  },
  {
   "property": "C14",
   "status": "proved",
   "theorems": [
    "snapshotter_rebatch"
   ],
   "note": ""
  },
  {
   "property": "C15",
   "status": "proved",
   "theorems": [
    "online_averager_stream",
    "online_averager_constant"
   ],
   "note": ""
  },
  {
   "property": "C16",
   "status": "proved",
   "theorems": [
    "online_averager_rebatch",
    "online_averager_offset0_refuted"
   ],
   "note": "with offset=0 every call raises"
  },
  {
   "property": "C17",
   "status": "proved",
   "theorems": [
    "autoencoder_no_skip_decode",
    "autoencoder_no_skip_forward",
    "autoencoder_decode_checks"
   ],
   "note": ""
  },
  {
   "property": "C18",
   "status": "proved",
   "theorems": [
    "autoencoder_decode_pairing",
    "autoencoder_forward_pairing",
    "autoencoder_mirrored_refuted"
   ],
   "note": "the pairing is not the mirrored one at any depth >= 2"
  },
  {
   "property": "C19",
   "status": "proved",
   "theorems": [
    "match_size_pad",
    "match_size_crop1",
    "match_size_crop_empty",
    "match_size_crop_refuted",
    "match_size_nd_3d",
    "match_size_few_axes",
    "match_size_nd_pad",
    "match_size_many_axes_refuted"
   ],
   "note": "cropping returns an empty tensor"
  },
  {
   "property": "C20",
   "status": "proved",
   "theorems": [
    "concat_skip_forward",
    "concat_skip_forward1",
    "concat_skip_layout_iff",
    "concat_skip_indivisible",
    "skip_out_channels"
   ],
   "note": ""
  },
  {
   "property": "C61",
   "status": "proved",
   "theorems": [
    "conv_autoencoder_forward_refuted",
    "conv_autoencoder_single"
   ],
   "note": "with activation classes forward never returns"
  },
  {
   "property": "C21",
   "status": "proved",
   "theorems": [
    "groupnorm1d_textbook",
    "groupnorm1d_affine",
    "gnorm_forward_ndim"
   ],
   "note": ""
  },
  {
   "property": "C22",
   "status": "proved",
   "theorems": [
    "gnorm_create_spec",
    "gnorm_getter_spec",
    "gnorm_getter_refuted",
    "gnorm2d_getter_spec"
   ],
   "note": ""
  },
  {
   "property": "C23",
   "status": "proved",
   "theorems": [
    "inverter_in_place",
    "reverser_in_place",
    "signal_inverter_spec",
    "signal_reverser_spec",
    "augmentation_scalar",
    "augmentation_extremes",
    "augmentation_involutive"
   ],
   "note": ""
  },
  {
   "property": "C24",
   "status": "proved",
   "theorems": [
    "cosine_rsample_spec",
    "cosine_rsample_mono",
    "sine_rsample_spec"
   ],
   "note": ""
  },
  {
   "property": "C25",
   "status": "proved",
   "theorems": [
    "cosine_log_prob_integral",
    "cosine_log_prob_normalised_iff",
    "cosine_log_prob_default_refuted",
    "sine_log_prob_integral"
   ],
   "note": "log_prob omits the normalisation"
  },
  {
   "property": "C26",
   "status": "proved",
   "theorems": [
    "loguniform_rsample_spec",
    "loguniform_density_spec",
    "powerlaw_rsample_spec",
    "powerlaw_index0_rejected",
    "powerlaw_density_spec",
    "powerlaw_normalised",
    "delta_rsample_spec"
   ],
   "note": ""
  },
  {
   "property": "C27",
   "status": "proved",
   "theorems": [
    "interp_mono",
    "interp_knot",
    "interp_range",
    "interp_inverse",
    "ucv_create_valueerror",
    "ucv_grids",
    "ucv_comoving_distance",
    "ucv_pdf_spec",
    "ucv_cdf_spec",
    "ucv_rsample_spec",
    "ucv_log_prob_outside",
    "ucv_log_prob_finite",
    "ucv_log_prob_value",
    "ucv_log_prob_knot",
    "ucv_log_prob_first_cell_refuted"
   ],
   "note": "NaN log_prob in the first grid cell when minimum <= 0"
  },
  {
   "property": "C28",
   "status": "proved",
   "theorems": [
    "antenna_responses_spec",
    "antenna_psi_rotation",
    "antenna_psi_symmetries",
    "antenna_unknown_mode",
    "antenna_no_modes",
    "pol_frame_orthonormal"
   ],
   "note": ""
  },
  {
   "property": "C29",
   "status": "proved",
   "theorems": [
    "shift_responses_spec",
    "shift_responses_permutation",
    "shift_responses_origin",
    "delay_bound",
    "rtrunc_spec"
   ],
   "note": ""
  },
  {
   "property": "C30",
   "status": "proved",
   "theorems": [
    "observed_strain_spec",
    "observed_strain_linear",
    "observed_strain_single_sky_refuted"
   ],
   "note": ""
  },
  {
   "property": "C31",
   "status": "proved",
   "theorems": [
    "ifo_snr_spec",
    "network_snr_spec",
    "snr_homogeneous",
    "reweight_snrs_hits_target"
   ],
   "note": ""
  },
  {
   "property": "C32",
   "status": "proved",
   "theorems": [
    "snr_shift_invariant",
    "snr_out_of_band",
    "snr_band_additive",
    "snr_mask_additive",
    "snr_of_shifted_responses",
    "ifo_snr_mask_error"
   ],
   "note": ""
  },
  {
   "property": "C62",
   "status": "proved",
   "theorems": [
    "get_ifo_geometry_spec",
    "get_ifo_geometry_errors",
    "ifo_antenna_bound"
   ],
   "note": ""
  },
  {
   "property": "C33",
   "status": "proved",
   "theorems": [
    "validate_shapes_spec",
    "unbatched_multichannel_y_refuted"
   ],
   "note": ""
  },
  {
   "property": "C34",
   "status": "proved",
   "theorems": [
    "spectral_density_spec",
    "welch_nonneg",
    "welch_affine",
    "welch_scale",
    "welch_window_scale",
    "welch_parseval",
    "quantile_half_spec",
    "median_bias_bounds",
    "aggregate_perm",
    "aggregate_spec"
   ],
   "note": ""
  },
  {
   "property": "C35",
   "status": "proved",
   "theorems": [
    "whiten_spec",
    "whiten_too_short",
    "truncate_spec",
    "filtered_linear",
    "filtered_offset",
    "filtered_gain",
    "filtered_shift",
    "whitened_psd_scale",
    "filtered_local",
    "whiten_white_noise",
    "hann_spec"
   ],
   "note": ""
  },
  {
   "property": "C36",
   "status": "proved",
   "theorems": [
    "whiten_pad0_refuted",
    "normalize_pad0_empty"
   ],
   "note": ""
  },
  {
   "property": "C63",
   "status": "proved",
   "theorems": [
    "fast_spectral_density_spec",
    "fast_csd_swap",
    "fast_csd_self_real_nonneg",
    "fast_csd_affine",
    "fast_csd_coherence",
    "fast_agrees_where_window_vanishes",
    "fast_agrees_hann",
    "fast_agrees_boxcar",
    "fast_matches_exact",
    "fast_differs_at_dc"
   ],
   "note": ""
  },
  {
   "property": "C37",
   "status": "proved",
   "theorems": [
    "fittable_shapes_invariant",
    "fittable_call_iff",
    "fittable_run_calls",
    "build_values",
    "load_strict_values",
    "load_empty_marks_built_refuted",
    "failed_rebuild_refuted"
   ],
   "note": "history theorem plus two proved deviations"
  },
  {
   "property": "C38",
   "status": "proved",
   "theorems": [
    "scaler_fit_values",
    "scaler_forward_values",
    "scaler_round_trip",
    "scaler_standardises",
    "scaler_1d",
    "scaler_errors",
    "scaler_unfitted"
   ],
   "note": ""
  },
  {
   "property": "C39",
   "status": "proved",
   "theorems": [
    "snr_rescaler_forward",
    "snr_rescaler_permutes",
    "snr_rescaler_fit",
    "snr_rescaler_unfitted",
    "snr_rescaler_measures"
   ],
   "note": "any permutation, f32 rounding of the buffer is a parameter"
  },
  {
   "property": "C64",
   "status": "proved",
   "theorems": [
    "normalize_psd_frequency",
    "normalize_psd_time",
    "normalize_psd_zero_overlap_refuted",
    "normalize_psd_flattens"
   ],
   "note": ""
  },
  {
   "property": "C65",
   "status": "proved",
   "theorems": [
    "whiten_module_spec",
    "whiten_module_eq",
    "whiten_module_white_noise",
    "whiten_module_negative_fduration"
   ],
   "note": ""
  },
  {
   "property": "C66",
   "status": "proved",
   "theorems": [
    "fixed_whiten_create",
    "fixed_whiten_spec",
    "fixed_whiten_is_whiten",
    "fixed_whiten_float32_crop_refuted",
    "fixed_whiten_errors"
   ],
   "note": "float32 rounding is a parameter"
  },
  {
   "property": "C67",
   "status": "proved",
   "theorems": [
    "spectral_density_create",
    "spectral_density_module",
    "spectral_density_module_fast"
   ],
   "note": ""
  },
  {
   "property": "C40",
   "status": "proved",
   "theorems": [
    "pearson_spec",
    "pearson_errors",
    "pearson_bounded",
    "pearson_affine",
    "pearson_one_iff",
    "pearson_detects_shift"
   ],
   "note": ""
  },
  {
   "property": "C41",
   "status": "proved",
   "theorems": [
    "decimator_create",
    "decimator_concat",
    "decimator_split",
    "decimator_length",
    "decimator_gap_refuted",
    "decimator_single_sample_refuted",
    "decimator_late_start_refuted"
   ],
   "note": "includes three proved deviations"
  },
  {
   "property": "C42",
   "status": "proved",
   "theorems": [
    "tophat_spec",
    "tophat_window_spec",
    "tophat_constant",
    "tophat_causal"
   ],
   "note": ""
  },
  {
   "property": "C43",
   "status": "proved",
   "theorems": [
    "leaky_spec",
    "leaky_scalar",
    "leaky_zero_bound",
    "leaky_bounded",
    "leaky_resume",
    "leaky_negative_bound_refuted",
    "leaky_create_iff",
    "leaky_recursion"
   ],
   "note": ""
  },
  {
   "property": "C44",
   "status": "proved",
   "theorems": [
    "heterodyne_create",
    "heterodyne_freq",
    "heterodyne_time_shape",
    "heterodyne_modulus",
    "heterodyne_dechirps",
    "heterodyne_time_even",
    "heterodyne_odd_length_refuted",
    "heterodyne_length_error",
    "heterodyne_unbatched_refuted",
    "heterodyne_rank_error"
   ],
   "note": ""
  },
  {
   "property": "C45",
   "status": "proved",
   "theorems": [
    "waveform_sampler_create",
    "waveform_sampler_aligned",
    "waveform_sampler_reachable",
    "waveform_sampler_all",
    "waveform_sampler_errors",
    "waveform_sampler_degenerate",
    "waveform_sampler_repeats",
    "projector_spec",
    "projector_errors",
    "index_rows_spec"
   ],
   "note": ""
  },
  {
   "property": "C46",
   "status": "proved",
   "theorems": [
    "qtile_count",
    "qtile_window",
    "qtile_padding",
    "qtile_fits",
    "qtile_mismatch_half",
    "qtile_bins",
    "qtile_energy",
    "qtile_errors",
    "qtile_normalised",
    "normalised_is_one",
    "qtile_scaling",
    "qtile_parseval"
   ],
   "note": ""
  },
  {
   "property": "C47",
   "status": "proved",
   "theorems": [
    "qtr_frequencies",
    "qtr_frequency_range",
    "max_q_meaning",
    "qtr_construction",
    "qtr_shared_frange",
    "qtiles_spec",
    "qtiles_errors",
    "interp_same",
    "interp_const",
    "bilinear_range",
    "bicubic_range_refuted",
    "spectrogram_spec",
    "one_more_dimension_refuted",
    "interpolate_before_compute",
    "qtransform_default",
    "spline_groups"
   ],
   "note": "the spline method is C75"
  },
  {
   "property": "C48",
   "status": "proved",
   "theorems": [
    "search_range",
    "search_to_top_refuted",
    "max_energy",
    "max_energy_errors"
   ],
   "note": ""
  },
  {
   "property": "C49",
   "status": "proved",
   "theorems": [
    "q_planes",
    "q_planes_error",
    "qscan_construction",
    "qscan_default_range",
    "qscan_selects",
    "qscan_errors",
    "qscan_default"
   ],
   "note": ""
  },
  {
   "property": "C50",
   "status": "proved",
   "theorems": [
    "kwargs_spec",
    "kwargs_refused",
    "kwargs_degenerate",
    "kwargs_set_order_refuted",
    "set_order_cases",
    "mrs_construction",
    "mrs_construction_errors",
    "mrs_forward_spec",
    "mrs_single",
    "mrs_length_error",
    "mrs_bins"
   ],
   "note": "each torchaudio Spectrogram is an arbitrary function of the input with the documented output size"
  },
  {
   "property": "C51",
   "status": "proved",
   "theorems": [
    "basis_support",
    "basis_partition",
    "basis_identity",
    "basis_at_end",
    "fit_knots_spec",
    "fit_knots_clamped",
    "fit_interpolates",
    "fit_unique",
    "fit_regularised",
    "fit_repeated",
    "fit_line",
    "fit_outside",
    "fit_degree_one",
    "spline1_create_spec",
    "spline1_spec",
    "spline1_reproduces",
    "spline1_errors",
    "override_persists_refuted",
    "spline2_create_spec",
    "spline2_spec",
    "spline2_reproduces",
    "spline2_errors",
    "rejected_keeps_state",
    "schoenberg_whitney",
    "fit_exists",
    "spline_is_spline",
    "spline1_total",
    "spline2_total"
   ],
   "note": "torch.linalg.solve is exact Gaussian elimination; uses Coq.Logic.Classical (excluded middle)"
  },
  {
   "property": "C52",
   "status": "proved",
   "theorems": [
    "components_spec",
    "components_unique"
   ],
   "note": ""
  },
  {
   "property": "C53",
   "status": "proved",
   "theorems": [
    "spins_spec",
    "spins_magnitudes",
    "spins_aligned",
    "spins_f_ref",
    "spins_f_ref_error"
   ],
   "note": "J = 0 (a division by zero in the code) is excluded by hypothesis"
  },
  {
   "property": "C54",
   "status": "proved",
   "theorems": [
    "sg_weights",
    "sg_sample_spec",
    "sg_linear",
    "sg_circular",
    "sg_symmetries",
    "sg_forward_spec",
    "sg_forward_error",
    "batch_sizes",
    "sg_energy"
   ],
   "note": ""
  },
  {
   "property": "C55",
   "status": "proved",
   "theorems": [
    "rd_sample_spec",
    "rd_scaling",
    "rd_face_on",
    "rd_forward_spec",
    "remnant_pos"
   ],
   "note": "the cross factor is 2 sin i where circular polarisation would need 2 cos i"
  },
  {
   "property": "C56",
   "status": "proved",
   "theorems": [
    "tf2_phase_derivative",
    "tf2_nonspinning",
    "tf2_spin_coefficients",
    "tf2_exchange",
    "tf2_amplitude_spec",
    "tf2_htilde_spec",
    "tf2_polarisations",
    "tf2_distance",
    "tf2_forward_spec"
   ],
   "note": ""
  },
  {
   "property": "C68",
   "status": "proved",
   "theorems": [
    "chirp_time_spec",
    "chirp_time_above_newtonian",
    "chirp_time_spin",
    "start_frequency_spec",
    "start_below_f_min",
    "start_frequency_decreasing",
    "final_spin_range",
    "final_spin_values",
    "ringdown_time_pos",
    "merge_time_linear",
    "isco_spec"
   ],
   "note": ""
  },
  {
   "property": "C59",
   "status": "proved",
   "theorems": [
    "resnet_create_iff",
    "resnet_stride_error",
    "resnet_block_error",
    "resnet_one_stage",
    "resnet_dilation_error",
    "resnet_stride_type_error",
    "resnet_forward_spec",
    "resnet_channel_error",
    "resnet_depth",
    "resnet_depth_documented",
    "resnet_zero_init",
    "resnet_block_nonneg",
    "csize_same"
   ],
   "note": "layer arithmetic is an arbitrary function of the input; shapes, padding, ReLU and residual additions are modelled"
  },
  {
   "property": "C60",
   "status": "proved",
   "theorems": [
    "s4_forward_spec",
    "s4_forward_untransposed",
    "s4_zero_order_hold",
    "s4_causal",
    "s4_stable",
    "s4_kernel_decay",
    "s4_create_spec",
    "s4_init",
    "s4_single_channel",
    "s4_channel_error",
    "s4_empty"
   ],
   "note": ""
  },
  {
   "property": "C69",
   "status": "proved",
   "theorems": [
    "s4model_spec",
    "s4model_channel_error",
    "s4model_no_layers",
    "block_normalised",
    "sigmoid_logistic",
    "lnorm_spec",
    "s4model_create_spec"
   ],
   "note": ""
  },
  {
   "property": "C57",
   "status": "proved",
   "theorems": [
    "qnm_frequency_increases",
    "qnm_damping_decreases",
    "qnm_schwarzschild",
    "pd_params_published",
    "pd_pn_amplitude",
    "pd_inspiral_amplitude",
    "pd_amplitude_published",
    "pd_inspiral_coefficients",
    "pd_phase_slopes",
    "pd_peak_stationary",
    "pd_fits_published",
    "pd_chi_pn",
    "pd_final_spin_published",
    "pd_radiated_energy_published",
    "pd_forward_spec",
    "pd_phase_C1",
    "pd_amp_C1",
    "pd_joins",
    "pd_ringdown",
    "pd_final_spin_range",
    "pd_radiated_energy_range",
    "pd_masses",
    "pd_eta_spec",
    "pd_htilde_spec",
    "pd_polarisations",
    "pd_reference",
    "pd_coalescence_phase",
    "pd_distance",
    "pd_amp_ringdown",
    "pd_peak_slope",
    "phase_returned_slope",
    "ins_phase_tf2",
    "amp_collocation",
    "interp1_node",
    "interp1_segment",
    "on_grid_iff",
    "pd_equal_mass_exchange"
   ],
   "note": "the fits and tables are translated literally from the source; the decimal literals are taken as exact rationals"
  },
  {
   "property": "C70",
   "status": "proved",
   "theorems": [
    "pp_forward_spec",
    "pp_chip_range",
    "pp_final_spin_range",
    "pp_final_spin_magnitude",
    "pp_ringdown",
    "pp_joins",
    "pp_phase_C1",
    "pp_amp_C1",
    "pp_ringdown_slope",
    "pp_interp_spec",
    "pp_interp_first_node_refuted",
    "pp_one_form"
   ],
   "note": ""
  },
  {
   "property": "C71",
   "status": "proved",
   "theorems": [
    "pp_precession_angles",
    "pp_leading_precession",
    "pp_geometry",
    "pp_thetaJN",
    "pp_phi_aligned",
    "T2m_closed",
    "Tm2m_closed",
    "twist_moduli",
    "pp_intensity",
    "pp_intensity_bound",
    "pp_reference_inclination",
    "swsh_values",
    "swsh_bad_order",
    "swsh_other_modes_refuted",
    "swsh_addition",
    "wigner_spec"
   ],
   "note": ""
  },
  {
   "property": "C72",
   "status": "proved",
   "theorems": [
    "pp_distance",
    "pp_covariance",
    "pp_aligned_form",
    "pp_params_aligned",
    "pp_angles_aligned",
    "pp_aligned_vs_D",
    "pp_aligned_same",
    "swap_amplitude",
    "pp_aligned_amplitude_refuted",
    "pp_phic_ignored_refuted",
    "pp_time",
    "pp_tc_seconds_refuted"
   ],
   "note": "inputs of equal batch size; float NaN from the unclamped sqrt(1-4 eta) is outside real arithmetic"
  },
  {
   "property": "C73",
   "status": "proved",
   "theorems": [
    "lfilter_difference",
    "lfilter_unique",
    "lfilter_causal",
    "lfilter_linear",
    "lfilter_delay",
    "lfilter_convolution",
    "filtfilt_form",
    "filtfilt_symmetric",
    "filtfilt_nonneg",
    "filtfilt_definite",
    "filtfilt_linear",
    "iir_forward_spec"
   ],
   "note": "scipy's coefficient design is not modelled: a and b are arbitrary; torchaudio's lfilter/filtfilt are modelled by their documented difference equation"
  },
  {
   "property": "C58",
   "status": "proved",
   "theorems": [
    "gen_forward_spec",
    "taper_spec",
    "cond_entry_spec",
    "time_shift",
    "scaling",
    "stage2_spec",
    "gains",
    "resolution",
    "taper_nonempty",
    "fmin_range",
    "fstart_range",
    "row_time_long",
    "even_samples",
    "even_frequency",
    "pd_rowwise"
   ],
   "note": "real arithmetic; the approximant is any row-wise function of positive frequencies; the filter coefficients (scipy) are arbitrary"
  },
  {
   "property": "C74",
   "status": "proved",
   "theorems": [
    "gen_forward_total",
    "gen_empty",
    "gen_approximant_errors",
    "gen_filter_mismatch",
    "out_length",
    "out_length_size",
    "grid_frequency",
    "grid_exact_iff",
    "enough_samples",
    "cutoff_spec"
   ],
   "note": "the Butterworth gain is the textbook formula for the design scipy is asked for, not a model of scipy"
  },
  {
   "property": "C75",
   "status": "proved",
   "theorems": [
    "qsp_construction",
    "qsp_interpolate_spec",
    "qsp_before_compute",
    "default_frequency_count",
    "qsp_default",
    "row_value_spec",
    "qscan_sp_selects",
    "qscan_sp_construction"
   ],
   "note": "torch.linalg.solve is exact Gaussian elimination; uses Coq.Logic.Classical (excluded middle)"
  },
  {
   "property": "C76",
   "status": "proved",
   "theorems": [
    "gen_transfer",
    "generated_distance",
    "generated_inclination",
    "generated_edge_on",
    "generated_phase",
    "generated_distance_p"
   ],
   "note": "the generator of C58/C74 composed with the approximants of C56, C57, C70"
  },
  {
   "property": "C77",
   "status": "proved",
   "theorems": [
    "loguniform_accepts_iff",
    "loguniform_zero_low_refuted",
    "loguniform_log_prob_total",
    "lognormal_accepts_iff",
    "lognormal_low_refuted",
    "lognormal_log_prob_refuted",
    "lognormal_unchecked_density",
    "lognormal_mass",
    "powerlaw_log_prob_total",
    "powerlaw_reversed_bounds_refuted",
    "powerlaw_zero_minimum",
    "eadd_spec",
    "esub_spec",
    "emul_spec",
    "ediv_spec",
    "ediv_zero",
    "ele_spec",
    "elt_spec",
    "eneg_spec",
    "eabs_spec",
    "eexp_spec",
    "elog_spec",
    "epow_spec"
   ],
   "note": "torch.distributions (Uniform, Normal, TransformedDistribution) is modelled from its documentation; idealised arithmetic with infinities and NaN; negative PowerLaw bounds are outside the model"
  },
  {
   "property": "C78",
   "status": "proved",
   "theorems": [
    "components_relabel",
    "tf2_relabel",
    "tf2_relabel_batch",
    "pd_relabel_equal_spins",
    "pd_relabel_refuted"
   ],
   "note": "real arithmetic; the models of C55, C56 and C57"
  },
  {
   "property": "C79",
   "status": "proved",
   "theorems": [
    "fl_nearest",
    "samples64_pow2",
    "samples64_bounds",
    "samples64_near",
    "samples64_short_refuted",
    "half64_spec",
    "default_overlap64",
    "cut64_pow2",
    "cut64_near",
    "highpass_bin_refuted"
   ],
   "note": "IEEE binary64 rounding from Flocq, without overflow"
  },
  {
   "property": "C80",
   "status": "proved",
   "theorems": [
    "pipeline_stream",
    "pipeline_identity"
   ],
   "note": "composition of the models of C13 and C15; real arithmetic in the averager"
  },
  {
   "property": "C81",
   "status": "proved",
   "theorems": [
    "window_law_mass",
    "window_law_prob",
    "window_law_uniform_refuted",
    "file_share_refuted",
    "file_pair_all",
    "file_pair_one"
   ],
   "note": "finite distributions with real weights; numpy's choice(replace=False) as successive draws"
  },
  {
   "property": "C82",
   "status": "proved",
   "theorems": [
    "pd_tf2_low_frequency",
    "pd_tf2_reference"
   ],
   "note": "real arithmetic; the models of C56 and C57"
  },
  {
   "property": "C83",
   "status": "proved",
   "theorems": [
    "poles_inside_stable",
    "filtfilt_sinusoid",
    "filtfilt_gain",
    "iir_forward_gain"
   ],
   "note": "real arithmetic; scipy's design enters only through the poles"
  },
  {
   "property": "C84",
   "status": "proved",
   "theorems": [
    "tone_spectral_density",
    "tone_cross_density",
    "tone_power",
    "welch_tone",
    "fast_csd_tone"
   ],
   "note": "real arithmetic; the fast version for bins >= 2"
  },
  {
   "property": "C85",
   "status": "proved",
   "theorems": [
    "chirp_phase_leading",
    "tf2_psi_chirp",
    "heterodyne_taylorf2",
    "corrections_small",
    "taylorf2_series_exists"
   ],
   "note": "real arithmetic"
  },
  {
   "property": "C86",
   "status": "proved",
   "theorems": [
    "noise_spectral_density",
    "welch_white",
    "fast_white",
    "welch_stationary",
    "fast_uncorrelated",
    "hann_spectrum",
    "white_noise_exists"
   ],
   "note": "real arithmetic; finite distributions (expectation only uses second moments)"
  },
  {
   "property": "C87",
   "status": "proved",
   "theorems": [
    "whitened_noise",
    "whitened_noise_close",
    "whitened_white_noise",
    "whitened_covariance_bound",
    "filtered_noise",
    "periodogram",
    "noise_with_spectrum_exists"
   ],
   "note": "real arithmetic; finite distributions; circular stationarity"
  },
  {
   "property": "C88",
   "status": "proved",
   "theorems": [
    "chunked_trace_iter",
    "chunked_trace_prefix",
    "chunked_trace_first",
    "chunk_batch_other_length"
   ],
   "note": "the generator is modelled as the list of batches it yields and the exception that ends it"
  },
  {
   "property": "C89",
   "status": "proved",
   "theorems": [
    "resnet_batch_independent",
    "resnet1d_batch_independent",
    "resnet_parameters",
    "maxpool1d_spec"
   ],
   "note": "convolution, pooling and linear layers of torch are modelled from their documentation; BatchNorm in training mode is not batch-independent and is not covered"
  },
  {
   "property": "C90",
   "status": "proved",
   "theorems": [
    "sample_kernels_joint_law",
    "sample_kernels_uniform",
    "sample_kernels_start_law",
    "center_position_refuted",
    "inverter_law",
    "reverser_law",
    "imd_shuffled_row_law",
    "imd_shuffled_order_law",
    "imd_noncoincident_law",
    "chunk_windows_law",
    "chunk_labelled",
    "waveform_sampler_law",
    "snr_rescaler_law"
   ],
   "note": "torch.randint = one uniform machine word modulo the range, torch.rand = a uniform multiple of 1/N, torch.randperm = uniform permutation, all independent"
  },
  {
   "property": "C91",
   "status": "proved",
   "theorems": [
    "uniform_cdf",
    "cosine_cdf",
    "sine_cdf",
    "loguniform_cdf",
    "powerlaw_cdf",
    "ucv_cdf"
   ],
   "note": "torch.rand = independent uniform multiples of 1/N (N = 2^24 in float32); real arithmetic afterwards; Normal-based LogNormal not covered"
  },
  {
   "property": "C92",
   "status": "proved",
   "theorems": [
    "mrs_nfft",
    "frame_samples",
    "default_whole",
    "mrs_energy",
    "mrs_scale",
    "noise_level",
    "noise_level_unnormalized",
    "mrs_noise",
    "tone_level",
    "mrs_short_refused",
    "spectrogram_value",
    "spectrogram_size",
    "spectrogram_options",
    "spectrogram_unknown",
    "spectrogram_bad_norm",
    "klookup_spec"
   ],
   "note": "torchaudio's Spectrogram (torch.stft, Hann window, reflection) is modelled, for the keywords n_fft, win_length, hop_length, pad, power, normalized; noise, tones and scaling for n_fft alone, values and refusals for all these keywords"
  },
  {
   "property": "C93",
   "status": "proved",
   "theorems": [
    "whitened_energy",
    "whitened_energy_bound",
    "flat_truncated",
    "filtered_energy"
   ],
   "note": ""
  },
  {
   "property": "C94",
   "status": "proved",
   "theorems": [
    "qtiles_noise",
    "qtiles_tone",
    "row_tone",
    "tile_centre_refuted",
    "window_energy",
    "qtiles_row"
   ],
   "note": ""
  },
  {
   "property": "C95",
   "status": "proved",
   "theorems": [
    "projected_snr",
    "snr_psi",
    "generated_snr",
    "reweighting_is_distance",
    "scaled_snr",
    "factor_bound"
   ],
   "note": ""
  },
  {
   "property": "C96",
   "status": "proved",
   "theorems": [
    "decimator_spectrum",
    "decimator_alias_refuted",
    "fold_spectrum",
    "sampling",
    "tone_alias"
   ],
   "note": ""
  },
  {
   "property": "C97",
   "status": "proved",
   "theorems": [
    "units_psd",
    "units_whiten",
    "units_whiten_module",
    "units_fixed_whiten",
    "units_pipeline",
    "units_snr"
   ],
   "note": ""
  },
  {
   "property": "C98",
   "status": "proved",
   "theorems": [
    "augment_whiten",
    "augment_whiten_module",
    "augment_fixed_whiten",
    "augment_snr",
    "augment_psd",
    "reversal_psd_refuted"
   ],
   "note": ""
  },
  {
   "property": "C99",
   "status": "proved",
   "theorems": [
    "fixed_whiten_history",
    "fixed_whiten_load",
    "fixed_whiten_checkpoint",
    "fixed_whiten_checkpoint_other",
    "fixed_whiten_failed_load_refuted",
    "fixed_whiten_unfitted_refuted",
    "snr_rescaler_history",
    "snr_rescaler_checkpoint",
    "snr_rescaler_unfitted_refuted",
    "scaler_history",
    "scaler_checkpoint",
    "scaler_unfitted_refuted",
    "spectral_density_checkpoint"
   ],
   "note": ""
  },
  {
   "property": "C100",
   "status": "proved",
   "theorems": [
    "resnet_small_inputs_constant",
    "resnet1d_short_constant",
    "resnet1d_amplitude"
   ],
   "note": ""
  },
  {
   "property": "C101",
   "status": "proved",
   "theorems": [
    "s4_unbatched",
    "s4_one_dim",
    "s4_scalar_error",
    "s4model_unbatched_error",
    "s4model_unbatched_silent",
    "s4model_unbatched_constant_refuted"
   ],
   "note": ""
  },
  {
   "property": "C102",
   "status": "proved",
   "theorems": [
    "frame_exists",
    "frame_one",
    "frame_smallest",
    "gen_row_local",
    "gen_reordered",
    "gen_companion_fits",
    "generated_row_local",
    "gen_companion_refuted"
   ],
   "note": ""
  },
  {
   "property": "C103",
   "status": "proved",
   "theorems": [
    "qtiles_gain",
    "qtiles_delay",
    "qtiles_reverse",
    "qtransform_gain",
    "qscan_gain",
    "default_made"
   ],
   "note": ""
  },
  {
   "property": "C104",
   "status": "proved",
   "theorems": [
    "qtransform_row_local",
    "qscan_loud_companion",
    "qscan_row_local_refuted"
   ],
   "note": ""
  },
  {
   "property": "C105",
   "status": "proved",
   "theorems": [
    "truncate_nonpositive",
    "whiten_nonpositive",
    "whiten_zero_dc",
    "whiten_x_positive",
    "impl_exists"
   ],
   "note": ""
  },
  {
   "property": "C106",
   "status": "proved",
   "theorems": [
    "imd_iterators_independent",
    "chunked_iterators_independent",
    "chunked_oneshot_shares",
    "chunked_oneshot_second_epoch",
    "imd_workers_repeat"
   ],
   "note": ""
  },
  {
   "property": "C107",
   "status": "proved",
   "theorems": [
    "leaky32_exact",
    "leaky32_error",
    "leaky32_threshold",
    "leaky32_cpu_possible",
    "leaky32_lost_refuted",
    "leaky32_multiplied_refuted",
    "summed_error",
    "summed_int",
    "fl32_nearest"
   ],
   "note": ""
  },
  {
   "property": "C108",
   "status": "proved",
   "theorems": [
    "online_averager_float32",
    "online_averager_float32_simple",
    "rounding_factor",
    "oa_run_g_exact"
   ],
   "note": ""
  },
  {
   "property": "C109",
   "status": "proved",
   "theorems": [
    "tophat32_error",
    "tophat32_error_simple",
    "tophat32_silent",
    "tophat32_nonneg",
    "tophat32_runs",
    "tophat_g_exact",
    "conv32_left",
    "dotted_error"
   ],
   "note": "direct convolution algorithms only; FFT or Winograd convolutions and TensorFloat-32 are outside the model"
  },
  {
   "property": "C110",
   "status": "proved",
   "theorems": [
    "rate_pdf",
    "rate_cdf",
    "rate_rsample",
    "rate_log_prob",
    "rate_cutoff_refuted"
   ],
   "note": "log_prob of a cut-off rate is NaN where -inf is meant; a rate that is zero at all grid points but the first (0/0 densities) is not covered"
  },
  {
   "property": "C111",
   "status": "proved",
   "theorems": [
    "solar_length_time",
    "solar_kg_seconds",
    "megaparsec",
    "pi_literal",
    "euler_gamma_literal",
    "parsec_literal",
    "mass_in_seconds",
    "chirp_time_scaling",
    "start_frequency_scaling",
    "merge_time_spec",
    "ringdown_time_spec",
    "isco_scaling"
   ],
   "note": "real arithmetic"
  },
  {
   "property": "C112",
   "status": "proved",
   "theorems": [
    "tf2_mass_scaling",
    "pd_mass_scaling",
    "pp_mass_scaling",
    "tf2_batch_scaling",
    "pd_batch_scaling",
    "pp_batch_scaling",
    "slower_filter",
    "generator_scaling",
    "generated_mass",
    "generated_mass_p"
   ],
   "note": "real arithmetic; scipy's filter design is any function of the cut-off relative to the sample rate"
  },
  {
   "property": "C113",
   "status": "proved",
   "theorems": [
    "inverter_in_place",
    "reverser_in_place",
    "slice_kernels_fresh",
    "unfold_windows_sharing",
    "snapshotter_refines",
    "snapshotter_separates",
    "snapshotter_isolated",
    "snapshot_state_shared",
    "snapshot_overwritten",
    "snapshotter_isolated_refuted",
    "averager_refines",
    "averager_separates",
    "averager_isolated",
    "dataset_isolated",
    "augmented_epoch"
   ],
   "note": "storage model: buffers as functions of indices, views as index maps; which torch operations copy is part of the trusted base"
  },
  {
   "property": "C114",
   "status": "proved",
   "theorems": [
    "load_ok_iff",
    "projector_checkpoint",
    "sampler_checkpoint",
    "iir_checkpoint",
    "heterodyne_checkpoint",
    "tophat_checkpoint",
    "averager_checkpoint",
    "spectral_density_checkpoint_other",
    "decimator_checkpoint",
    "decimator_checkpoint_refuted",
    "sb_refines",
    "sb_forward_refines",
    "spline_history",
    "spline_checkpoint",
    "spline_no_memory",
    "spline_nonstrict_mixture"
   ],
   "note": "buffers of one class have one dtype, so that copying on load does not round"
  },
  {
   "property": "C115",
   "status": "proved",
   "theorems": [
    "local_pipeline",
    "causal_pipeline",
    "local_select",
    "causal_extends",
    "local_lift",
    "tophat_local",
    "tophat_is_causal",
    "leaky_local",
    "leaky_is_causal",
    "iir_local",
    "iir_causal_refuted",
    "decimator_local",
    "gnorm_local",
    "heterodyne_local",
    "s4_local",
    "s4_local_untransposed",
    "s4_is_causal",
    "s4model_local",
    "scaler_local",
    "spectral_density_local",
    "fast_spectral_density_local",
    "whiten_local",
    "whiten_module_local",
    "fixed_whiten_local",
    "spline_local",
    "mrs_local",
    "mrs_torchaudio_local"
   ],
   "note": "real arithmetic: a floating-point library may reduce in an order that depends on the batch size"
  },
  {
   "property": "C116",
   "status": "proved",
   "theorems": [
    "snapshotter_any_length",
    "snapshotter_wrong_channels",
    "snapshotter_aligned_iff",
    "snapshotter_lost_samples",
    "snapshotter_rebatch_refuted",
    "online_averager_any_update",
    "online_averager_rank"
   ],
   "note": "updates of more than 3 axes to the OnlineAverager, and the 1D empty tensor torch.cat ignores, are not covered"
  },
  {
   "property": "C117",
   "status": "proved",
   "theorems": [
    "sky_moments",
    "sky_mean_expectation",
    "sky_mean_unique",
    "sky_mean_power",
    "sky_moments_builtin"
   ],
   "note": "exact real arithmetic; means as iterated integrals, against the density and over the sampled angles"
  },
  {
   "property": "C118",
   "status": "proved",
   "theorems": [
    "sky_snr",
    "sky_mean_expectation"
   ],
   "note": "exact real arithmetic; squared SNRs, a batch of one waveform; the means are iterated integrals as in C117"
  },
  {
   "property": "C119",
   "status": "proved",
   "theorems": [
    "cosine_expectation",
    "sine_expectation",
    "loguniform_expectation",
    "powerlaw_expectation",
    "uniform_expectation",
    "sky_mean_expectation"
   ],
   "note": "torch.rand as an exactly uniform real number; PowerLaw with minimum 0 is not covered"
  },
  {
   "property": "C120",
   "status": "proved",
   "theorems": [
    "generated_any_inclination",
    "incl_moments",
    "isotropic_binary_snr"
   ],
   "note": "real arithmetic; the averages for IMRPhenomD and a batch of one binary"
  },
  {
   "property": "C121",
   "status": "proved",
   "theorems": [
    "autoencoder_itemwise",
    "skip_itemwise",
    "itemwise_alone",
    "conv_autoencoder_itemwise",
    "conv_autoencoder_eval_itemwise",
    "conv_autoencoder_train_refuted"
   ],
   "note": "real arithmetic; torch's ValueError for one value per channel in training mode is not modelled"
  },
  {
   "property": "C122",
   "status": "proved",
   "theorems": [
    "conv_autoencoder_groupwise",
    "conv_autoencoder_layers_groupwise",
    "conv_autoencoder_concat_refuted"
   ],
   "note": "real arithmetic; activation functions must be callables on tensors (with classes forward never returns, C61)"
  },
  {
   "property": "C123",
   "status": "proved",
   "theorems": [
    "conv_autoencoder_deep_refuted",
    "conv_autoencoder_two_zero",
    "conv_autoencoder_three_zero"
   ],
   "note": "activation functions must be callables on tensors (with classes forward never returns, C61)"
  }
 ]
}