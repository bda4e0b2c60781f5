# Print Assumptions for every theorem in MANIFEST.json

Generated by tools/axioms.py and tools/axioms_new.py. Every axiom is declared by the Coq standard library.

## Closed under the global context

unfold_windows_correct, unfold_windows_succeeds_iff, unfold_windows_cover, slice_kernels_1d, slice_kernels_2d_coincident, slice_kernels_2d_independent, slice_kernels_3d, slice_kernels_rejects, sample_kernels_1d, sample_kernels_2d_coincident, sample_kernels_2d_independent, sample_kernels_3d, sample_kernels_rejects, center_offset_meaning, center_offset_zero_contains_center_refuted, sample_kernels_reachable_starts, sample_kernels_never_last, sample_kernels_full_length_raises, imd_coincident_epoch, imd_noncoincident_shuffled_epoch, imd_noncoincident_sequential_epoch, imd_sequential_float32_refuted, imd_create_rejects, chunked_iter_windows, chunked_iter_raises, chunked_iter_nonuniform_refuted, hdf5_coincident_batch, hdf5_files_batch, hdf5_independent_batch, hdf5_cells_written_once, hdf5_short_channel_refuted, hdf5_worker_split, hdf5_iter_yields, hdf5_create_rejects, hdf5_create_cases, hdf5_reachable_starts, hdf5_duplicate_fnames_raise, hdf5_kernel_sized_files_raise, snapshotter_stream, snapshotter_create_rejects, snapshotter_batch1_oversize, snapshotter_rebatch, autoencoder_no_skip_decode, autoencoder_no_skip_forward, autoencoder_decode_checks, autoencoder_decode_pairing, autoencoder_forward_pairing, autoencoder_mirrored_refuted, match_size_pad, match_size_crop1, match_size_crop_empty, match_size_crop_refuted, concat_skip_forward, concat_skip_forward1, concat_skip_layout_iff, concat_skip_indivisible, skip_out_channels, conv_autoencoder_forward_refuted, conv_autoencoder_single, gnorm_getter_refuted, gnorm2d_getter_spec, validate_shapes_spec, unbatched_multichannel_y_refuted, fittable_shapes_invariant, fittable_call_iff, fittable_run_calls, build_values, load_strict_values, load_empty_marks_built_refuted, failed_rebuild_refuted, leaky_create_iff, waveform_sampler_create, waveform_sampler_aligned, waveform_sampler_reachable, waveform_sampler_all, waveform_sampler_errors, waveform_sampler_degenerate, waveform_sampler_repeats, index_rows_spec, interpolate_before_compute, kwargs_spec, kwargs_refused, kwargs_degenerate, kwargs_set_order_refuted, set_order_cases, batch_sizes, resnet_create_iff, resnet_stride_error, resnet_block_error, resnet_one_stage, resnet_dilation_error, resnet_stride_type_error, resnet_depth, resnet_depth_documented, csize_same, gen_empty, qsp_before_compute, chunked_trace_iter, chunked_trace_prefix, chunked_trace_first, chunk_batch_other_length, resnet_parameters, chunk_labelled, frame_samples, klookup_spec, spectral_density_checkpoint, any_starts_1d, any_starts_2d, any_starts_2d_independent, any_starts_3d, starts_never_last, full_length_raises, match_size_nd_3d, match_size_few_axes, match_size_nd_pad, match_size_many_axes_refuted, imd_iterators_independent, chunked_iterators_independent, chunked_oneshot_shares, chunked_oneshot_second_epoch, imd_workers_repeat, load_ok_iff, sampler_checkpoint, spectral_density_checkpoint_other, local_pipeline, causal_pipeline, local_select, causal_extends, local_lift, snapshotter_any_length, snapshotter_wrong_channels, snapshotter_aligned_iff, snapshotter_lost_samples, snapshotter_rebatch_refuted, autoencoder_itemwise, skip_itemwise, itemwise_alone, conv_autoencoder_itemwise, conv_autoencoder_groupwise, conv_autoencoder_concat_refuted, conv_autoencoder_deep_refuted, conv_autoencoder_two_zero, conv_autoencoder_three_zero

## `ClassicalDedekindReals.sig_forall_dec`

gnorm_create_spec, gnorm_getter_spec, eadd_spec, esub_spec, eneg_spec, fixed_whiten_load, snapshot_state_shared, snapshot_overwritten, averager_checkpoint

## `FunctionalExtensionality.functional_extensionality_dep`

slice_kernels_fresh, dataset_isolated

## `ClassicalDedekindReals.sig_forall_dec`, `FunctionalExtensionality.functional_extensionality_dep`

online_averager_stream, online_averager_constant, online_averager_rebatch, online_averager_offset0_refuted, signal_inverter_spec, signal_reverser_spec, augmentation_scalar, augmentation_extremes, augmentation_involutive, delta_rsample_spec, interp_mono, interp_knot, interp_range, interp_inverse, rtrunc_spec, get_ifo_geometry_spec, get_ifo_geometry_errors, quantile_half_spec, median_bias_bounds, aggregate_perm, aggregate_spec, scaler_forward_values, scaler_round_trip, scaler_unfitted, decimator_create, decimator_concat, decimator_split, decimator_length, decimator_gap_refuted, decimator_single_sample_refuted, decimator_late_start_refuted, tophat_spec, tophat_window_spec, tophat_constant, tophat_causal, leaky_spec, leaky_scalar, leaky_zero_bound, leaky_bounded, leaky_resume, leaky_negative_bound_refuted, leaky_recursion, projector_errors, normalised_is_one, interp_same, interp_const, bilinear_range, bicubic_range_refuted, spectrogram_spec, one_more_dimension_refuted, search_range, search_to_top_refuted, max_energy, max_energy_errors, mrs_construction, mrs_construction_errors, mrs_forward_spec, mrs_single, mrs_length_error, mrs_bins, basis_support, basis_partition, basis_identity, basis_at_end, fit_knots_spec, fit_knots_clamped, fit_interpolates, fit_unique, fit_regularised, fit_repeated, fit_line, fit_outside, fit_degree_one, spline1_create_spec, spline1_spec, spline1_reproduces, spline1_errors, override_persists_refuted, spline2_create_spec, spline2_spec, spline2_reproduces, spline2_errors, rejected_keeps_state, final_spin_range, resnet_forward_spec, resnet_channel_error, resnet_zero_init, resnet_block_nonneg, s4model_no_layers, qnm_frequency_increases, qnm_damping_decreases, pd_fits_published, pd_chi_pn, interp1_node, interp1_segment, on_grid_iff, pp_interp_spec, pp_interp_first_node_refuted, lfilter_difference, lfilter_unique, lfilter_causal, lfilter_linear, lfilter_delay, lfilter_convolution, filtfilt_form, filtfilt_symmetric, filtfilt_nonneg, filtfilt_definite, filtfilt_linear, iir_forward_spec, out_length, out_length_size, lognormal_accepts_iff, emul_spec, ediv_spec, ediv_zero, ele_spec, elt_spec, eabs_spec, pipeline_stream, pipeline_identity, window_law_mass, window_law_prob, window_law_uniform_refuted, file_share_refuted, file_pair_all, file_pair_one, tone_power, white_noise_exists, resnet_batch_independent, maxpool1d_spec, sample_kernels_joint_law, sample_kernels_uniform, sample_kernels_start_law, center_position_refuted, inverter_law, reverser_law, imd_shuffled_row_law, imd_shuffled_order_law, imd_noncoincident_law, chunk_windows_law, waveform_sampler_law, uniform_cdf, resnet_small_inputs_constant, inverter_in_place, reverser_in_place, final_spin_values, rounding_factor, oa_run_g_exact, tophat_g_exact, solar_length_time, solar_kg_seconds, megaparsec, mass_in_seconds, unfold_windows_sharing, snapshotter_refines, snapshotter_separates, snapshotter_isolated, snapshotter_isolated_refuted, averager_refines, averager_separates, averager_isolated, augmented_epoch, projector_checkpoint, iir_checkpoint, tophat_checkpoint, decimator_checkpoint, decimator_checkpoint_refuted, sb_refines, sb_forward_refines, spline_history, spline_checkpoint, spline_no_memory, spline_nonstrict_mixture, tophat_local, tophat_is_causal, leaky_local, leaky_is_causal, iir_local, iir_causal_refuted, decimator_local, scaler_local, mrs_local, online_averager_any_update, online_averager_rank, uniform_expectation

## `ClassicalDedekindReals.sig_forall_dec`, `ClassicalDedekindReals.sig_not_dec`, `FunctionalExtensionality.functional_extensionality_dep`

groupnorm1d_textbook, groupnorm1d_affine, gnorm_forward_ndim, ucv_create_valueerror, ucv_grids, ucv_pdf_spec, ucv_cdf_spec, ucv_rsample_spec, antenna_responses_spec, antenna_psi_rotation, antenna_psi_symmetries, antenna_unknown_mode, antenna_no_modes, pol_frame_orthonormal, shift_responses_spec, shift_responses_permutation, shift_responses_origin, delay_bound, observed_strain_spec, observed_strain_linear, observed_strain_single_sky_refuted, ifo_snr_spec, network_snr_spec, snr_homogeneous, reweight_snrs_hits_target, snr_shift_invariant, snr_out_of_band, snr_band_additive, snr_mask_additive, snr_of_shifted_responses, ifo_snr_mask_error, ifo_antenna_bound, spectral_density_spec, welch_nonneg, welch_affine, welch_scale, welch_window_scale, welch_parseval, whiten_spec, whiten_too_short, truncate_spec, filtered_linear, filtered_offset, filtered_gain, filtered_shift, filtered_local, whiten_white_noise, hann_spec, whiten_pad0_refuted, normalize_pad0_empty, fast_spectral_density_spec, fast_csd_swap, fast_csd_self_real_nonneg, fast_csd_affine, fast_csd_coherence, fast_agrees_where_window_vanishes, fast_agrees_hann, fast_agrees_boxcar, fast_matches_exact, fast_differs_at_dc, scaler_fit_values, scaler_standardises, scaler_1d, scaler_errors, snr_rescaler_forward, snr_rescaler_permutes, snr_rescaler_fit, snr_rescaler_unfitted, snr_rescaler_measures, normalize_psd_frequency, normalize_psd_time, normalize_psd_zero_overlap_refuted, normalize_psd_flattens, whiten_module_spec, whiten_module_eq, whiten_module_white_noise, whiten_module_negative_fduration, fixed_whiten_create, fixed_whiten_spec, fixed_whiten_float32_crop_refuted, fixed_whiten_errors, spectral_density_create, spectral_density_module, spectral_density_module_fast, pearson_spec, pearson_errors, pearson_bounded, pearson_affine, pearson_one_iff, pearson_detects_shift, heterodyne_freq, heterodyne_time_shape, heterodyne_odd_length_refuted, heterodyne_length_error, heterodyne_unbatched_refuted, heterodyne_rank_error, projector_spec, qtile_bins, qtile_parseval, max_q_meaning, sg_weights, sg_sample_spec, sg_linear, sg_circular, sg_symmetries, sg_forward_spec, sg_forward_error, merge_time_linear, s4_forward_spec, s4_forward_untransposed, s4_causal, s4_kernel_decay, s4_single_channel, s4_channel_error, s4_empty, s4model_spec, s4model_channel_error, block_normalised, lnorm_spec, pd_final_spin_published, pd_radiated_energy_published, pd_final_spin_range, pd_radiated_energy_range, pp_chip_range, pp_final_spin_range, pp_final_spin_magnitude, T2m_closed, Tm2m_closed, twist_moduli, swsh_values, swsh_bad_order, swsh_other_modes_refuted, swsh_addition, wigner_spec, scaling, poles_inside_stable, filtfilt_sinusoid, filtfilt_gain, iir_forward_gain, tone_spectral_density, tone_cross_density, welch_tone, fast_csd_tone, noise_spectral_density, welch_white, fast_white, welch_stationary, fast_uncorrelated, hann_spectrum, whitened_noise, whitened_noise_close, whitened_white_noise, whitened_covariance_bound, filtered_noise, periodogram, noise_with_spectrum_exists, resnet1d_batch_independent, snr_rescaler_law, ucv_cdf, whitened_energy, whitened_energy_bound, flat_truncated, filtered_energy, projected_snr, snr_psi, scaled_snr, factor_bound, decimator_spectrum, decimator_alias_refuted, fold_spectrum, sampling, tone_alias, units_psd, units_snr, augment_snr, augment_psd, reversal_psd_refuted, fixed_whiten_history, fixed_whiten_checkpoint, fixed_whiten_checkpoint_other, fixed_whiten_failed_load_refuted, fixed_whiten_unfitted_refuted, snr_rescaler_history, snr_rescaler_checkpoint, snr_rescaler_unfitted_refuted, scaler_history, scaler_checkpoint, scaler_unfitted_refuted, resnet1d_short_constant, resnet1d_amplitude, s4_unbatched, s4_one_dim, s4_scalar_error, s4model_unbatched_error, s4model_unbatched_silent, s4model_unbatched_constant_refuted, impl_exists, rate_pdf, rate_cdf, rate_rsample, merge_time_spec, gnorm_local, heterodyne_local, s4_local, s4_local_untransposed, s4_is_causal, s4model_local, spectral_density_local, fast_spectral_density_local, sky_mean_unique, conv_autoencoder_eval_itemwise, conv_autoencoder_train_refuted, conv_autoencoder_layers_groupwise

## `ClassicalDedekindReals.sig_forall_dec`, `ClassicalDedekindReals.sig_not_dec`, `Classical_Prop.classic`, `FunctionalExtensionality.functional_extensionality_dep`

f32_round_ieee, cosine_rsample_spec, cosine_rsample_mono, sine_rsample_spec, cosine_log_prob_integral, cosine_log_prob_normalised_iff, cosine_log_prob_default_refuted, sine_log_prob_integral, loguniform_rsample_spec, loguniform_density_spec, powerlaw_rsample_spec, powerlaw_index0_rejected, powerlaw_density_spec, powerlaw_normalised, ucv_comoving_distance, ucv_log_prob_outside, ucv_log_prob_finite, ucv_log_prob_value, ucv_log_prob_knot, ucv_log_prob_first_cell_refuted, whitened_psd_scale, fixed_whiten_is_whiten, heterodyne_create, heterodyne_modulus, heterodyne_dechirps, heterodyne_time_even, qtile_count, qtile_window, qtile_padding, qtile_fits, qtile_mismatch_half, qtile_energy, qtile_errors, qtile_normalised, qtile_scaling, qtr_frequencies, qtr_frequency_range, qtr_construction, qtr_shared_frange, qtiles_spec, qtiles_errors, qtransform_default, spline_groups, q_planes, q_planes_error, qscan_construction, qscan_default_range, qscan_selects, qscan_errors, qscan_default, schoenberg_whitney, fit_exists, spline_is_spline, spline1_total, spline2_total, components_spec, components_unique, spins_spec, spins_magnitudes, spins_aligned, spins_f_ref, spins_f_ref_error, sg_energy, rd_sample_spec, rd_scaling, rd_face_on, rd_forward_spec, remnant_pos, tf2_phase_derivative, tf2_nonspinning, tf2_spin_coefficients, tf2_exchange, tf2_amplitude_spec, tf2_htilde_spec, tf2_polarisations, tf2_distance, tf2_forward_spec, chirp_time_spec, chirp_time_above_newtonian, chirp_time_spin, start_frequency_spec, start_below_f_min, start_frequency_decreasing, ringdown_time_pos, isco_spec, s4_zero_order_hold, s4_stable, s4_create_spec, s4_init, sigmoid_logistic, s4model_create_spec, qnm_schwarzschild, pd_params_published, pd_pn_amplitude, pd_inspiral_amplitude, pd_amplitude_published, pd_inspiral_coefficients, pd_phase_slopes, pd_peak_stationary, pd_forward_spec, pd_phase_C1, pd_amp_C1, pd_joins, pd_ringdown, pd_masses, pd_eta_spec, pd_htilde_spec, pd_polarisations, pd_reference, pd_coalescence_phase, pd_distance, pd_amp_ringdown, pd_peak_slope, phase_returned_slope, ins_phase_tf2, amp_collocation, pd_equal_mass_exchange, pp_forward_spec, pp_ringdown, pp_joins, pp_phase_C1, pp_amp_C1, pp_ringdown_slope, pp_one_form, pp_precession_angles, pp_leading_precession, pp_geometry, pp_thetaJN, pp_phi_aligned, pp_intensity, pp_intensity_bound, pp_reference_inclination, pp_distance, pp_covariance, pp_aligned_form, pp_params_aligned, pp_angles_aligned, pp_aligned_vs_D, pp_aligned_same, swap_amplitude, pp_aligned_amplitude_refuted, pp_phic_ignored_refuted, pp_time, pp_tc_seconds_refuted, gen_forward_spec, taper_spec, cond_entry_spec, time_shift, stage2_spec, gains, resolution, taper_nonempty, fmin_range, fstart_range, row_time_long, even_samples, even_frequency, pd_rowwise, gen_forward_total, gen_approximant_errors, gen_filter_mismatch, grid_frequency, grid_exact_iff, enough_samples, cutoff_spec, qsp_construction, qsp_interpolate_spec, default_frequency_count, qsp_default, row_value_spec, qscan_sp_selects, qscan_sp_construction, gen_transfer, generated_distance, generated_inclination, generated_edge_on, generated_phase, generated_distance_p, loguniform_accepts_iff, loguniform_zero_low_refuted, loguniform_log_prob_total, lognormal_low_refuted, lognormal_log_prob_refuted, lognormal_unchecked_density, lognormal_mass, powerlaw_log_prob_total, powerlaw_reversed_bounds_refuted, powerlaw_zero_minimum, eexp_spec, elog_spec, epow_spec, components_relabel, tf2_relabel, tf2_relabel_batch, pd_relabel_equal_spins, pd_relabel_refuted, fl_nearest, samples64_pow2, samples64_bounds, samples64_near, samples64_short_refuted, half64_spec, default_overlap64, cut64_pow2, cut64_near, highpass_bin_refuted, pd_tf2_low_frequency, pd_tf2_reference, chirp_phase_leading, tf2_psi_chirp, heterodyne_taylorf2, corrections_small, taylorf2_series_exists, cosine_cdf, sine_cdf, loguniform_cdf, powerlaw_cdf, mrs_nfft, default_whole, mrs_energy, mrs_scale, noise_level, noise_level_unnormalized, mrs_noise, tone_level, mrs_short_refused, spectrogram_value, spectrogram_size, spectrogram_options, spectrogram_unknown, spectrogram_bad_norm, qtiles_noise, qtiles_tone, row_tone, tile_centre_refuted, window_energy, qtiles_row, generated_snr, reweighting_is_distance, units_whiten, units_whiten_module, units_fixed_whiten, units_pipeline, augment_whiten, augment_whiten_module, augment_fixed_whiten, frame_exists, frame_one, frame_smallest, gen_row_local, gen_reordered, gen_companion_fits, generated_row_local, gen_companion_refuted, qtiles_gain, qtiles_delay, qtiles_reverse, qtransform_gain, qscan_gain, default_made, qtransform_row_local, qscan_loud_companion, qscan_row_local_refuted, truncate_nonpositive, whiten_nonpositive, whiten_zero_dc, whiten_x_positive, leaky32_exact, leaky32_error, leaky32_threshold, leaky32_cpu_possible, leaky32_lost_refuted, leaky32_multiplied_refuted, summed_error, summed_int, fl32_nearest, online_averager_float32, online_averager_float32_simple, tophat32_error, tophat32_error_simple, tophat32_silent, tophat32_nonneg, tophat32_runs, conv32_left, dotted_error, rate_log_prob, rate_cutoff_refuted, pi_literal, euler_gamma_literal, parsec_literal, chirp_time_scaling, start_frequency_scaling, ringdown_time_spec, isco_scaling, tf2_mass_scaling, pd_mass_scaling, pp_mass_scaling, tf2_batch_scaling, pd_batch_scaling, pp_batch_scaling, slower_filter, generator_scaling, generated_mass, generated_mass_p, heterodyne_checkpoint, whiten_local, whiten_module_local, fixed_whiten_local, spline_local, mrs_torchaudio_local, sky_moments, sky_mean_expectation, sky_mean_power, sky_moments_builtin, sky_snr, cosine_expectation, sine_expectation, loguniform_expectation, powerlaw_expectation, generated_any_inclination, incl_moments, isotropic_binary_snr

