C01 | proved | unfold_windows_correct unfold_windows_succeeds_iff unfold_windows_cover | 
C02 | proved | slice_kernels_1d slice_kernels_2d_coincident slice_kernels_2d_independent slice_kernels_3d slice_kernels_rejects |
C03 | proved | sample_kernels_1d sample_kernels_2d_coincident sample_kernels_2d_independent sample_kernels_3d sample_kernels_rejects |
C04 | proved | center_offset_meaning center_offset_zero_contains_center_refuted sample_kernels_2d_coincident sample_kernels_2d_independent sample_kernels_3d | the documented containment of the centre is refuted by a boundary draw; the true bounds are proved
C05 | proved | sample_kernels_reachable_starts sample_kernels_never_last sample_kernels_full_length_raises any_starts_1d any_starts_2d any_starts_2d_independent any_starts_3d starts_never_last full_length_raises |
C06 | proved | imd_coincident_epoch imd_noncoincident_shuffled_epoch imd_noncoincident_sequential_epoch imd_sequential_float32_refuted imd_create_rejects | sequential non-coincident mode moves only the last channel, and its indices are rounded to float32
C07 | proved | imd_coincident_epoch |
C08 | proved | imd_coincident_epoch f32_round_ieee |
C09 | proved | chunked_iter_windows chunked_iter_raises chunked_iter_nonuniform_refuted |
C10 | proved | hdf5_coincident_batch hdf5_files_batch hdf5_independent_batch hdf5_cells_written_once hdf5_short_channel_refuted | file sizes are read from the first channel only: a shorter other channel makes some draws raise
C11 | proved | hdf5_worker_split hdf5_iter_yields |
C12 | proved | hdf5_create_rejects hdf5_create_cases hdf5_reachable_starts hdf5_coincident_batch hdf5_files_batch hdf5_independent_batch hdf5_duplicate_fnames_raise hdf5_kernel_sized_files_raise |
C13 | proved | snapshotter_stream snapshotter_create_rejects snapshotter_batch1_oversize |
C14 | proved | snapshotter_rebatch |
C15 | proved | online_averager_stream online_averager_constant |
C16 | proved | online_averager_rebatch online_averager_offset0_refuted | with offset=0 every call raises
C17 | proved | autoencoder_no_skip_decode autoencoder_no_skip_forward autoencoder_decode_checks |
C18 | proved | autoencoder_decode_pairing autoencoder_forward_pairing autoencoder_mirrored_refuted | the pairing is not the mirrored one at any depth >= 2
C19 | proved | match_size_pad match_size_crop1 match_size_crop_empty match_size_crop_refuted match_size_nd_3d match_size_few_axes match_size_nd_pad match_size_many_axes_refuted | cropping returns an empty tensor
C20 | proved | concat_skip_forward concat_skip_forward1 concat_skip_layout_iff concat_skip_indivisible skip_out_channels |
C61 | proved | conv_autoencoder_forward_refuted conv_autoencoder_single | with activation classes forward never returns
C21 | proved | groupnorm1d_textbook groupnorm1d_affine gnorm_forward_ndim |
C22 | proved | gnorm_create_spec gnorm_getter_spec gnorm_getter_refuted gnorm2d_getter_spec |
C23 | proved | inverter_in_place reverser_in_place signal_inverter_spec signal_reverser_spec augmentation_scalar augmentation_extremes augmentation_involutive |
C24 | proved | cosine_rsample_spec cosine_rsample_mono sine_rsample_spec |
C25 | proved | cosine_log_prob_integral cosine_log_prob_normalised_iff cosine_log_prob_default_refuted sine_log_prob_integral | log_prob omits the normalisation
C26 | proved | loguniform_rsample_spec loguniform_density_spec powerlaw_rsample_spec powerlaw_index0_rejected powerlaw_density_spec powerlaw_normalised delta_rsample_spec |
C27 | proved | interp_mono interp_knot interp_range interp_inverse ucv_create_valueerror ucv_grids ucv_comoving_distance ucv_pdf_spec ucv_cdf_spec ucv_rsample_spec ucv_log_prob_outside ucv_log_prob_finite ucv_log_prob_value ucv_log_prob_knot ucv_log_prob_first_cell_refuted | NaN log_prob in the first grid cell when minimum <= 0
C28 | proved | antenna_responses_spec antenna_psi_rotation antenna_psi_symmetries antenna_unknown_mode antenna_no_modes pol_frame_orthonormal |
C29 | proved | shift_responses_spec shift_responses_permutation shift_responses_origin delay_bound rtrunc_spec |
C30 | proved | observed_strain_spec observed_strain_linear observed_strain_single_sky_refuted |
C31 | proved | ifo_snr_spec network_snr_spec snr_homogeneous reweight_snrs_hits_target |
C32 | proved | snr_shift_invariant snr_out_of_band snr_band_additive snr_mask_additive snr_of_shifted_responses ifo_snr_mask_error |
C62 | proved | get_ifo_geometry_spec get_ifo_geometry_errors ifo_antenna_bound |
C33 | proved | validate_shapes_spec unbatched_multichannel_y_refuted |
C34 | proved | spectral_density_spec welch_nonneg welch_affine welch_scale welch_window_scale welch_parseval quantile_half_spec median_bias_bounds aggregate_perm aggregate_spec | 
C35 | proved | whiten_spec whiten_too_short truncate_spec filtered_linear filtered_offset filtered_gain filtered_shift whitened_psd_scale filtered_local whiten_white_noise hann_spec | 
C36 | proved | whiten_pad0_refuted normalize_pad0_empty |
C63 | proved | fast_spectral_density_spec fast_csd_swap fast_csd_self_real_nonneg fast_csd_affine fast_csd_coherence fast_agrees_where_window_vanishes fast_agrees_hann fast_agrees_boxcar fast_matches_exact fast_differs_at_dc |
C37 | proved | fittable_shapes_invariant fittable_call_iff fittable_run_calls build_values load_strict_values load_empty_marks_built_refuted failed_rebuild_refuted | history theorem plus two proved deviations
C38 | proved | scaler_fit_values scaler_forward_values scaler_round_trip scaler_standardises scaler_1d scaler_errors scaler_unfitted |
C39 | proved | snr_rescaler_forward snr_rescaler_permutes snr_rescaler_fit snr_rescaler_unfitted snr_rescaler_measures | any permutation, f32 rounding of the buffer is a parameter
C64 | proved | normalize_psd_frequency normalize_psd_time normalize_psd_zero_overlap_refuted normalize_psd_flattens |
C65 | proved | whiten_module_spec whiten_module_eq whiten_module_white_noise whiten_module_negative_fduration |
C66 | proved | fixed_whiten_create fixed_whiten_spec fixed_whiten_is_whiten fixed_whiten_float32_crop_refuted fixed_whiten_errors | float32 rounding is a parameter
C67 | proved | spectral_density_create spectral_density_module spectral_density_module_fast |
C40 | proved | pearson_spec pearson_errors pearson_bounded pearson_affine pearson_one_iff pearson_detects_shift |
C41 | proved | decimator_create decimator_concat decimator_split decimator_length decimator_gap_refuted decimator_single_sample_refuted decimator_late_start_refuted | includes three proved deviations
C42 | proved | tophat_spec tophat_window_spec tophat_constant tophat_causal |
C43 | proved | leaky_spec leaky_scalar leaky_zero_bound leaky_bounded leaky_resume leaky_negative_bound_refuted leaky_create_iff leaky_recursion | 
C44 | proved | heterodyne_create heterodyne_freq heterodyne_time_shape heterodyne_modulus heterodyne_dechirps heterodyne_time_even heterodyne_odd_length_refuted heterodyne_length_error heterodyne_unbatched_refuted heterodyne_rank_error |
C45 | proved | waveform_sampler_create waveform_sampler_aligned waveform_sampler_reachable waveform_sampler_all waveform_sampler_errors waveform_sampler_degenerate waveform_sampler_repeats projector_spec projector_errors index_rows_spec | 
C46 | proved | qtile_count qtile_window qtile_padding qtile_fits qtile_mismatch_half qtile_bins qtile_energy qtile_errors qtile_normalised normalised_is_one qtile_scaling qtile_parseval |
C47 | proved | qtr_frequencies qtr_frequency_range max_q_meaning qtr_construction qtr_shared_frange qtiles_spec qtiles_errors interp_same interp_const bilinear_range bicubic_range_refuted spectrogram_spec one_more_dimension_refuted interpolate_before_compute qtransform_default spline_groups | the spline method is C75
C48 | proved | search_range search_to_top_refuted max_energy max_energy_errors |
C49 | proved | q_planes q_planes_error qscan_construction qscan_default_range qscan_selects qscan_errors qscan_default |
C50 | proved | kwargs_spec kwargs_refused kwargs_degenerate kwargs_set_order_refuted set_order_cases mrs_construction mrs_construction_errors mrs_forward_spec mrs_single mrs_length_error mrs_bins | each torchaudio Spectrogram is an arbitrary function of the input with the documented output size
C51 | proved | basis_support basis_partition basis_identity basis_at_end fit_knots_spec fit_knots_clamped fit_interpolates fit_unique fit_regularised fit_repeated fit_line fit_outside fit_degree_one spline1_create_spec spline1_spec spline1_reproduces spline1_errors override_persists_refuted spline2_create_spec spline2_spec spline2_reproduces spline2_errors rejected_keeps_state schoenberg_whitney fit_exists spline_is_spline spline1_total spline2_total | torch.linalg.solve is exact Gaussian elimination; uses Coq.Logic.Classical (excluded middle)
C52 | proved | components_spec components_unique |
C53 | proved | spins_spec spins_magnitudes spins_aligned spins_f_ref spins_f_ref_error | J = 0 (a division by zero in the code) is excluded by hypothesis
C54 | proved | sg_weights sg_sample_spec sg_linear sg_circular sg_symmetries sg_forward_spec sg_forward_error batch_sizes sg_energy |
C55 | proved | rd_sample_spec rd_scaling rd_face_on rd_forward_spec remnant_pos | the cross factor is 2 sin i where circular polarisation would need 2 cos i
C56 | proved | tf2_phase_derivative tf2_nonspinning tf2_spin_coefficients tf2_exchange tf2_amplitude_spec tf2_htilde_spec tf2_polarisations tf2_distance tf2_forward_spec |
C68 | proved | chirp_time_spec chirp_time_above_newtonian chirp_time_spin start_frequency_spec start_below_f_min start_frequency_decreasing final_spin_range final_spin_values ringdown_time_pos merge_time_linear isco_spec |
C59 | proved | resnet_create_iff resnet_stride_error resnet_block_error resnet_one_stage resnet_dilation_error resnet_stride_type_error resnet_forward_spec resnet_channel_error resnet_depth resnet_depth_documented resnet_zero_init resnet_block_nonneg csize_same | layer arithmetic is an arbitrary function of the input; shapes, padding, ReLU and residual additions are modelled
C60 | proved | s4_forward_spec s4_forward_untransposed s4_zero_order_hold s4_causal s4_stable s4_kernel_decay s4_create_spec s4_init s4_single_channel s4_channel_error s4_empty |
C69 | proved | s4model_spec s4model_channel_error s4model_no_layers block_normalised sigmoid_logistic lnorm_spec s4model_create_spec |
C57 | proved | qnm_frequency_increases qnm_damping_decreases qnm_schwarzschild pd_params_published pd_pn_amplitude pd_inspiral_amplitude pd_amplitude_published pd_inspiral_coefficients pd_phase_slopes pd_peak_stationary pd_fits_published pd_chi_pn pd_final_spin_published pd_radiated_energy_published pd_forward_spec pd_phase_C1 pd_amp_C1 pd_joins pd_ringdown pd_final_spin_range pd_radiated_energy_range pd_masses pd_eta_spec pd_htilde_spec pd_polarisations pd_reference pd_coalescence_phase pd_distance pd_amp_ringdown pd_peak_slope phase_returned_slope ins_phase_tf2 amp_collocation interp1_node interp1_segment on_grid_iff pd_equal_mass_exchange | the fits and tables are translated literally from the source; the decimal literals are taken as exact rationals
C70 | proved | pp_forward_spec pp_chip_range pp_final_spin_range pp_final_spin_magnitude pp_ringdown pp_joins pp_phase_C1 pp_amp_C1 pp_ringdown_slope pp_interp_spec pp_interp_first_node_refuted pp_one_form |
C71 | proved | pp_precession_angles pp_leading_precession pp_geometry pp_thetaJN pp_phi_aligned T2m_closed Tm2m_closed twist_moduli pp_intensity pp_intensity_bound pp_reference_inclination swsh_values swsh_bad_order swsh_other_modes_refuted swsh_addition wigner_spec |
C72 | proved | pp_distance pp_covariance pp_aligned_form pp_params_aligned pp_angles_aligned pp_aligned_vs_D pp_aligned_same swap_amplitude pp_aligned_amplitude_refuted pp_phic_ignored_refuted pp_time pp_tc_seconds_refuted | inputs of equal batch size; float NaN from the unclamped sqrt(1-4 eta) is outside real arithmetic
C73 | proved | lfilter_difference lfilter_unique lfilter_causal lfilter_linear lfilter_delay lfilter_convolution filtfilt_form filtfilt_symmetric filtfilt_nonneg filtfilt_definite filtfilt_linear iir_forward_spec | scipy's coefficient design is not modelled: a and b are arbitrary; torchaudio's lfilter/filtfilt are modelled by their documented difference equation
C58 | proved | gen_forward_spec taper_spec cond_entry_spec time_shift scaling stage2_spec gains resolution taper_nonempty fmin_range fstart_range row_time_long even_samples even_frequency pd_rowwise | real arithmetic; the approximant is any row-wise function of positive frequencies; the filter coefficients (scipy) are arbitrary
C74 | proved | gen_forward_total gen_empty gen_approximant_errors gen_filter_mismatch out_length out_length_size grid_frequency grid_exact_iff enough_samples cutoff_spec | the Butterworth gain is the textbook formula for the design scipy is asked for, not a model of scipy
C75 | proved | qsp_construction qsp_interpolate_spec qsp_before_compute default_frequency_count qsp_default row_value_spec qscan_sp_selects qscan_sp_construction | torch.linalg.solve is exact Gaussian elimination; uses Coq.Logic.Classical (excluded middle)
C76 | proved | gen_transfer generated_distance generated_inclination generated_edge_on generated_phase generated_distance_p | the generator of C58/C74 composed with the approximants of C56, C57, C70
C77 | proved | loguniform_accepts_iff loguniform_zero_low_refuted loguniform_log_prob_total lognormal_accepts_iff lognormal_low_refuted lognormal_log_prob_refuted lognormal_unchecked_density lognormal_mass powerlaw_log_prob_total powerlaw_reversed_bounds_refuted powerlaw_zero_minimum eadd_spec esub_spec emul_spec ediv_spec ediv_zero ele_spec elt_spec eneg_spec eabs_spec eexp_spec elog_spec epow_spec | torch.distributions (Uniform, Normal, TransformedDistribution) is modelled from its documentation; idealised arithmetic with infinities and NaN; negative PowerLaw bounds are outside the model
C78 | proved | components_relabel tf2_relabel tf2_relabel_batch pd_relabel_equal_spins pd_relabel_refuted | real arithmetic; the models of C55, C56 and C57
C79 | proved | fl_nearest samples64_pow2 samples64_bounds samples64_near samples64_short_refuted half64_spec default_overlap64 cut64_pow2 cut64_near highpass_bin_refuted | IEEE binary64 rounding from Flocq, without overflow
C80 | proved | pipeline_stream pipeline_identity | composition of the models of C13 and C15; real arithmetic in the averager
C81 | proved | window_law_mass window_law_prob window_law_uniform_refuted file_share_refuted file_pair_all file_pair_one | finite distributions with real weights; numpy's choice(replace=False) as successive draws
C82 | proved | pd_tf2_low_frequency pd_tf2_reference | real arithmetic; the models of C56 and C57
C83 | proved | poles_inside_stable filtfilt_sinusoid filtfilt_gain iir_forward_gain | real arithmetic; scipy's design enters only through the poles
C84 | proved | tone_spectral_density tone_cross_density tone_power welch_tone fast_csd_tone | real arithmetic; the fast version for bins >= 2
C85 | proved | chirp_phase_leading tf2_psi_chirp heterodyne_taylorf2 corrections_small taylorf2_series_exists | real arithmetic
C86 | proved | noise_spectral_density welch_white fast_white welch_stationary fast_uncorrelated hann_spectrum white_noise_exists | real arithmetic; finite distributions (expectation only uses second moments)
C87 | proved | whitened_noise whitened_noise_close whitened_white_noise whitened_covariance_bound filtered_noise periodogram noise_with_spectrum_exists | real arithmetic; finite distributions; circular stationarity
C88 | proved | chunked_trace_iter chunked_trace_prefix chunked_trace_first chunk_batch_other_length | the generator is modelled as the list of batches it yields and the exception that ends it
C89 | proved | resnet_batch_independent resnet1d_batch_independent resnet_parameters maxpool1d_spec | convolution, pooling and linear layers of torch are modelled from their documentation; BatchNorm in training mode is not batch-independent and is not covered
C90 | proved | sample_kernels_joint_law sample_kernels_uniform sample_kernels_start_law center_position_refuted inverter_law reverser_law imd_shuffled_row_law imd_shuffled_order_law imd_noncoincident_law chunk_windows_law chunk_labelled waveform_sampler_law snr_rescaler_law | torch.randint = one uniform machine word modulo the range, torch.rand = a uniform multiple of 1/N, torch.randperm = uniform permutation, all independent
C91 | proved | uniform_cdf cosine_cdf sine_cdf loguniform_cdf powerlaw_cdf ucv_cdf | torch.rand = independent uniform multiples of 1/N (N = 2^24 in float32); real arithmetic afterwards; Normal-based LogNormal not covered
C92 | proved | mrs_nfft frame_samples default_whole mrs_energy mrs_scale noise_level noise_level_unnormalized mrs_noise tone_level mrs_short_refused spectrogram_value spectrogram_size spectrogram_options spectrogram_unknown spectrogram_bad_norm klookup_spec | torchaudio's Spectrogram (torch.stft, Hann window, reflection) is modelled, for the keywords n_fft, win_length, hop_length, pad, power, normalized; noise, tones and scaling for n_fft alone, values and refusals for all these keywords
C93 | proved | whitened_energy whitened_energy_bound flat_truncated filtered_energy | 
C94 | proved | qtiles_noise qtiles_tone row_tone tile_centre_refuted window_energy qtiles_row | 
C95 | proved | projected_snr snr_psi generated_snr reweighting_is_distance scaled_snr factor_bound | 
C96 | proved | decimator_spectrum decimator_alias_refuted fold_spectrum sampling tone_alias | 
C97 | proved | units_psd units_whiten units_whiten_module units_fixed_whiten units_pipeline units_snr | 
C98 | proved | augment_whiten augment_whiten_module augment_fixed_whiten augment_snr augment_psd reversal_psd_refuted | 
C99 | proved | fixed_whiten_history fixed_whiten_load fixed_whiten_checkpoint fixed_whiten_checkpoint_other fixed_whiten_failed_load_refuted fixed_whiten_unfitted_refuted snr_rescaler_history snr_rescaler_checkpoint snr_rescaler_unfitted_refuted scaler_history scaler_checkpoint scaler_unfitted_refuted spectral_density_checkpoint | 
C100 | proved | resnet_small_inputs_constant resnet1d_short_constant resnet1d_amplitude | 
C101 | proved | s4_unbatched s4_one_dim s4_scalar_error s4model_unbatched_error s4model_unbatched_silent s4model_unbatched_constant_refuted | 
C102 | proved | frame_exists frame_one frame_smallest gen_row_local gen_reordered gen_companion_fits generated_row_local gen_companion_refuted | 
C103 | proved | qtiles_gain qtiles_delay qtiles_reverse qtransform_gain qscan_gain default_made | 
C104 | proved | qtransform_row_local qscan_loud_companion qscan_row_local_refuted | 
C105 | proved | truncate_nonpositive whiten_nonpositive whiten_zero_dc whiten_x_positive impl_exists | 
C106 | proved | imd_iterators_independent chunked_iterators_independent chunked_oneshot_shares chunked_oneshot_second_epoch imd_workers_repeat | 
C107 | proved | leaky32_exact leaky32_error leaky32_threshold leaky32_cpu_possible leaky32_lost_refuted leaky32_multiplied_refuted summed_error summed_int fl32_nearest | 
C108 | proved | online_averager_float32 online_averager_float32_simple rounding_factor oa_run_g_exact | 
C109 | proved | tophat32_error tophat32_error_simple tophat32_silent tophat32_nonneg tophat32_runs tophat_g_exact conv32_left dotted_error | direct convolution algorithms only; FFT or Winograd convolutions and TensorFloat-32 are outside the model
C110 | proved | rate_pdf rate_cdf rate_rsample rate_log_prob rate_cutoff_refuted | log_prob of a cut-off rate is NaN where -inf is meant; a rate that is zero at all grid points but the first (0/0 densities) is not covered
C111 | proved | solar_length_time solar_kg_seconds megaparsec pi_literal euler_gamma_literal parsec_literal mass_in_seconds chirp_time_scaling start_frequency_scaling merge_time_spec ringdown_time_spec isco_scaling | real arithmetic
C112 | proved | tf2_mass_scaling pd_mass_scaling pp_mass_scaling tf2_batch_scaling pd_batch_scaling pp_batch_scaling slower_filter generator_scaling generated_mass generated_mass_p | real arithmetic; scipy's filter design is any function of the cut-off relative to the sample rate
C113 | proved | inverter_in_place reverser_in_place slice_kernels_fresh unfold_windows_sharing snapshotter_refines snapshotter_separates snapshotter_isolated snapshot_state_shared snapshot_overwritten snapshotter_isolated_refuted averager_refines averager_separates averager_isolated dataset_isolated augmented_epoch | storage model: buffers as functions of indices, views as index maps; which torch operations copy is part of the trusted base
C114 | proved | load_ok_iff projector_checkpoint sampler_checkpoint iir_checkpoint heterodyne_checkpoint tophat_checkpoint averager_checkpoint spectral_density_checkpoint_other decimator_checkpoint decimator_checkpoint_refuted sb_refines sb_forward_refines spline_history spline_checkpoint spline_no_memory spline_nonstrict_mixture | buffers of one class have one dtype, so that copying on load does not round
C115 | proved | local_pipeline causal_pipeline local_select causal_extends local_lift tophat_local tophat_is_causal leaky_local leaky_is_causal iir_local iir_causal_refuted decimator_local gnorm_local heterodyne_local s4_local s4_local_untransposed s4_is_causal s4model_local scaler_local spectral_density_local fast_spectral_density_local whiten_local whiten_module_local fixed_whiten_local spline_local mrs_local mrs_torchaudio_local | real arithmetic: a floating-point library may reduce in an order that depends on the batch size
C116 | proved | snapshotter_any_length snapshotter_wrong_channels snapshotter_aligned_iff snapshotter_lost_samples snapshotter_rebatch_refuted online_averager_any_update online_averager_rank | updates of more than 3 axes to the OnlineAverager, and the 1D empty tensor torch.cat ignores, are not covered
C117 | proved | sky_moments sky_mean_expectation sky_mean_unique sky_mean_power sky_moments_builtin | exact real arithmetic; means as iterated integrals, against the density and over the sampled angles
C118 | proved | sky_snr sky_mean_expectation | exact real arithmetic; squared SNRs, a batch of one waveform; the means are iterated integrals as in C117
C119 | proved | cosine_expectation sine_expectation loguniform_expectation powerlaw_expectation uniform_expectation sky_mean_expectation | torch.rand as an exactly uniform real number; PowerLaw with minimum 0 is not covered
C120 | proved | generated_any_inclination incl_moments isotropic_binary_snr | real arithmetic; the averages for IMRPhenomD and a batch of one binary
C121 | proved | autoencoder_itemwise skip_itemwise itemwise_alone conv_autoencoder_itemwise conv_autoencoder_eval_itemwise conv_autoencoder_train_refuted | real arithmetic; torch's ValueError for one value per channel in training mode is not modelled
C122 | proved | conv_autoencoder_groupwise conv_autoencoder_layers_groupwise conv_autoencoder_concat_refuted | real arithmetic; activation functions must be callables on tensors (with classes forward never returns, C61)
C123 | proved | conv_autoencoder_deep_refuted conv_autoencoder_two_zero conv_autoencoder_three_zero | activation functions must be callables on tensors (with classes forward never returns, C61)
