-Q theories Verif
theories/Base.v
theories/Tensor.v
theories/Slicing_model.v
theories/Slicing_spec.v
theories/Slicing_proofs.v
theories/Slicing_proofs2.v
theories/Slicing_props.v
theories/Data_model.v
theories/Data_spec.v
theories/Data_proofs.v
theories/Data_props.v
theories/Chunk_proofs.v
theories/Chunk_props.v
theories/Hdf5_model.v
theories/Hdf5_proofs.v
theories/Hdf5_props.v
theories/Rutil.v
theories/Streaming_model.v
theories/Snap_props.v
theories/Oavg_props.v
theories/Autoenc_model.v
theories/Autoenc_props.v
theories/Norm_model.v
theories/Norm_props.v
theories/Dist_model.v
theories/Dist_props.v
theories/Dist2_model.v
theories/Dist2_props.v
theories/Ucv_props.v
theories/Rate_props.v
theories/Dft.v
theories/Gw_model.v
theories/Gw_spec.v
theories/Gw_props.v
theories/Ifo_props.v
theories/Snr_props.v
theories/Spectral_model.v
theories/Spectral_props.v
theories/Psd_props.v
theories/Fastpsd_props.v
theories/Fastpsd2_props.v
theories/Whiten_props.v
theories/Bcast.v
theories/Fit_model.v
theories/Fit_props.v
theories/Scaler_props.v
theories/Rescaler_props.v
theories/WhitenMod_props.v
theories/Trans_model.v
theories/Pearson_props.v
theories/Integ_props.v
theories/Decim_props.v
theories/Het_props.v
theories/Wsamp_model.v
theories/Wsamp_props.v
theories/Qt_model.v
theories/Qt_props.v
theories/Qt2_props.v
theories/Qtr_props.v
theories/Qtr2_props.v
theories/Qtr3_props.v
theories/Qscan_props.v
theories/Mspec_model.v
theories/Mspec_props.v
theories/Linsolve.v
theories/Spline_model.v
theories/Spline_props.v
theories/Spline2_props.v
theories/Spline3_props.v
theories/Spline4_props.v
theories/Sw_props.v
theories/Sw2_props.v
theories/Qsp_model.v
theories/Qsp_props.v
theories/Conv_model.v
theories/Conv_props.v
theories/Wave_model.v
theories/Wave_props.v
theories/Gauss.v
theories/Hrss_props.v
theories/Bounds_props.v
theories/Const_props.v
theories/Pi_props.v
theories/Mscale_props.v
theories/Heap_model.v
theories/Heap_props.v
theories/Starts_props.v
theories/Gamma_props.v
theories/Sdict_model.v
theories/Sdict_props.v
theories/Rowwise_props.v
theories/Misupd_props.v
theories/Skyavg_props.v
theories/Skysnr_props.v
theories/Skysamp_props.v
theories/Expect_props.v
theories/Incl_props.v
theories/Tf2_model.v
theories/Tf2_props.v
theories/Tf2b_props.v
theories/S4_model.v
theories/S4_props.v
theories/S4m_props.v
theories/S4n_props.v
theories/S4u_props.v
theories/Resnet_model.v
theories/Resnet_props.v
theories/Resnet2_props.v
theories/Resnet3_props.v
theories/Phd_fits.v
theories/Phd_data.v
theories/Phd_cert.v
theories/Phd_delta.v
theories/Phd_model.v
theories/Phd_props.v
theories/Phd_bounds.v
theories/Phd_main.v
theories/Php_fits.v
theories/Bern.v
theories/Php_cert.v
theories/Php_model.v
theories/Php_props.v
theories/Php_geom.v
theories/Php_twist.v
theories/Php_core.v
theories/Php_main.v
theories/Php_aligned.v
theories/Php_final.v
theories/Pub_props.v
theories/Qnm_props.v
theories/Pub2_props.v
theories/Pub3_props.v
theories/Relabel_props.v
theories/F64_model.v
theories/F64_props.v
theories/Pipe_props.v
theories/Prob.v
theories/Hlaw_model.v
theories/Hlaw_props.v
theories/Law_model.v
theories/Law_lib.v
theories/Law_props.v
theories/Law2_props.v
theories/Cdf_props.v
theories/Stft_model.v
theories/Stft_props.v
theories/Stft2_props.v
theories/Wsnr_props.v
theories/Qnoise_props.v
theories/Injsnr_props.v
theories/Alias_props.v
theories/Units_props.v
theories/Zero_model.v
theories/Zero_props.v
theories/Sched_model.v
theories/Sched_props.v
theories/Leak32_model.v
theories/Leak32_props.v
theories/Oavg32_model.v
theories/Oavg32_props.v
theories/Toph32_model.v
theories/Toph32_props.v
theories/Qscanb_props.v
theories/Msize_props.v
theories/Qcov_props.v
theories/Gen_batch.v
theories/Resnet4_props.v
theories/Ckpt_model.v
theories/Ckpt_props.v
theories/Augcomm_props.v
theories/Lowf_props.v
theories/Iirfreq_props.v
theories/Tone_props.v
theories/Dechirp_props.v
theories/Noise_props.v
theories/Noise2_props.v
theories/Chunk2_props.v
theories/Round32_props.v
theories/Er_props.v
theories/Iir_model.v
theories/Iir_props.v
theories/Gen_model.v
theories/Gen_row.v
theories/Gen_props.v
theories/Gen_main.v
theories/Gen_appr.v
theories/Aeconv_model.v
theories/Aeloc_props.v
theories/Aegrp_props.v
theories/Aestr_props.v
