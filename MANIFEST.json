{
 "claims": [
  {
   "property": "C01",
   "status": "proved",
   "theorems": [
    "ac_roundtrip",
    "ac_roundtrip_index",
    "ac_roundtrip_oversize3"
   ],
   "note": "the float64 division of the decoder is IEEE-754 division (Flocq), proved equal to the integer quotient in every reachable state"
  },
  {
   "property": "C02",
   "status": "proved",
   "theorems": [
    "ac_interval_invariant",
    "ac_sync",
    "ac_decode_total"
   ],
   "note": ""
  },
  {
   "property": "C03",
   "status": "proved",
   "theorems": [
    "ac_batch_independent"
   ],
   "note": ""
  },
  {
   "property": "C04",
   "status": "proved",
   "theorems": [
    "ac_code_length",
    "ac_code_length_slack"
   ],
   "note": ""
  },
  {
   "property": "C05",
   "status": "proved",
   "theorems": [
    "ac_overrun_exact",
    "ac_overrun_detected",
    "ac_overrun_refuted"
   ],
   "note": "ac_overrun_exact covers every buffer size; the refuted theorem is the deviation named in the property"
  },
  {
   "property": "C06",
   "status": "proved",
   "theorems": [
    "ac_symbol_range_exact",
    "ac_symbol_range_refuted"
   ],
   "note": "the refuted theorem is the deviation named in the property"
  },
  {
   "property": "C07",
   "status": "proved",
   "theorems": [
    "ac_trailing_bytes"
   ],
   "note": ""
  },
  {
   "property": "C08",
   "status": "proved",
   "theorems": [
    "rans_push_then_pop",
    "rans_push_total",
    "rans_pop_then_push",
    "rans_pop_total"
   ],
   "note": ""
  },
  {
   "property": "C09",
   "status": "proved",
   "theorems": [
    "rans_roundtrip",
    "rans_encode_total",
    "rans_fixed_array_roundtrip"
   ],
   "note": "under the exact room condition fits (one spare byte per lane), see C13"
  },
  {
   "property": "C10",
   "status": "proved",
   "theorems": [
    "rans_history"
   ],
   "note": ""
  },
  {
   "property": "C11",
   "status": "proved",
   "theorems": [
    "rans_range_invariant",
    "rans_push_no_overflow"
   ],
   "note": ""
  },
  {
   "property": "C12",
   "status": "proved",
   "theorems": [
    "rans_serialise_roundtrip",
    "rans_deserialise_roundtrip"
   ],
   "note": ""
  },
  {
   "property": "C13",
   "status": "proved",
   "theorems": [
    "rans_capacity_exact",
    "rans_capacity_room",
    "rans_capacity_silent_refuted",
    "rans_default_capacity_refuted"
   ],
   "note": "the refuted theorems are the deviations named in the property"
  },
  {
   "property": "C14",
   "status": "proved",
   "theorems": [
    "rans_bitsback_push_pop",
    "rans_bitsback_pushes",
    "rans_bitsback_roundtrip"
   ],
   "note": ""
  },
  {
   "property": "C15",
   "status": "proved",
   "theorems": [
    "rans_bitsback_one_lane",
    "rans_bitsback_first_row",
    "rans_bitsback_roundtrip",
    "rans_bitsback_empty_pops_refuted"
   ],
   "note": "the refuted theorem is the deviation named in the property"
  },
  {
   "property": "C16",
   "status": "proved",
   "theorems": [
    "rans_lookup_sound",
    "rans_lookup_unique",
    "rans_uint8_symbol_255_refuted"
   ],
   "note": "refutation records that uint8 messages with symbol 255 are outside the property's hypothesis"
  },
  {
   "property": "C17",
   "status": "proved",
   "theorems": [
    "rans_code_length",
    "rans_overhead_small",
    "rans_push_bytes"
   ],
   "note": ""
  },
  {
   "property": "C18",
   "status": "proved",
   "theorems": [
    "diff_lossless",
    "diff_encode_succeeds",
    "diff_sampling_invertible",
    "diff_prior_count"
   ],
   "note": "craystack's codecs are parameters with inverse push/pop; the model's networks are arbitrary functions"
  },
  {
   "property": "C19",
   "status": "proved",
   "theorems": [
    "diff_rate_accounting",
    "diff_rate_accounting_one",
    "diff_rate_per_step",
    "diff_bytes_used",
    "diff_samples",
    "diff_accounting_after_error_refuted"
   ],
   "note": "over histories of successful calls; the refuted theorem shows a call that raises spoils the counts"
  },
  {
   "property": "C20",
   "status": "proved",
   "theorems": [
    "diff_quantize_symbols",
    "diff_quantize_close",
    "diff_quantize_half_bin",
    "diff_quantize_range",
    "diff_bins_contain",
    "diff_bins_centred",
    "diff_bins_narrow_refuted",
    "diff_quantize_float",
    "diff_dequantize_float",
    "diff_symbols_float",
    "diff_pixels_float"
   ],
   "note": "general ranges on reals; for the default range [-1, 1] also with IEEE rounding (Flocq), in single precision up to 20 bits and in double precision up to 49"
  },
  {
   "property": "C21",
   "status": "proved",
   "theorems": [
    "diff_checkpoint_restores",
    "diff_checkpoint_same_extra",
    "diff_checkpoint_refuted"
   ],
   "note": "extra_bytes is saved as extr_bytes, so it is not restored; the refuted theorem is the deviation named in the property"
  },
  {
   "property": "C22",
   "status": "proved",
   "theorems": [
    "diff_encode_validates"
   ],
   "note": ""
  },
  {
   "property": "C23",
   "status": "proved",
   "theorems": [
    "C23_sections",
    "C23_first_step",
    "C23_sections_refused",
    "C23_vlb",
    "C23_vlb_refused",
    "C23_ddim",
    "C23_ddim_refused"
   ],
   "note": "with IEEE binary64 rounding (Flocq) for up to 2^24 timesteps"
  },
  {
   "property": "C24",
   "status": "proved",
   "theorems": [
    "job_crash_safe",
    "job_resumes_latest",
    "job_finishes",
    "job_name_round_trip",
    "job_diffusion_codec",
    "job_long_run_refuted",
    "job_long_decode_refuted",
    "job_torn_checkpoint_refuted",
    "job_extended_check_refuted"
   ],
   "note": "for counts that fit the six characters and crashes that do not tear a checkpoint; the refuted theorems show that both limits are real and that a rerun with more samples is not checked; job_diffusion_codec instantiates the codec with the diffusion codec's model"
  },
  {
   "property": "C25",
   "status": "proved",
   "theorems": [
    "patch_round_trip",
    "patch_round_trip_channels_first",
    "patch_forward_succeeds_iff",
    "patch_reflect_default_sizes",
    "patch_reflect_refuted",
    "unpatch_wrong_size"
   ],
   "note": "patch_reflect_refuted: with reflection some sizes raise, contrary to a reading of the docstring without the padding restriction"
  },
  {
   "property": "C26",
   "status": "proved",
   "theorems": [
    "patch_windows_aligned"
   ],
   "note": ""
  },
  {
   "property": "C27",
   "status": "proved",
   "theorems": [
    "em_token_round_trip",
    "em_latent_round_trip",
    "em_causal_one_shot",
    "em_decode_string_count",
    "em_self_check",
    "em_one_latent_only"
   ],
   "note": "the transformer is an arbitrary function; compressai's entropy coder is a parameter with a losslessness contract; float32 arithmetic of the coded values is modelled"
  },
  {
   "property": "C32",
   "status": "proved",
   "theorems": [
    "gsn_row_valid",
    "gsn_rows_distinct",
    "gsn_row_parameters",
    "gsn_lossless",
    "gsn_forward_agrees",
    "gsn_build_indexes_refuted",
    "gsn_build_indexes"
   ],
   "note": "index arithmetic in exact reals; gsn_build_indexes_refuted records that the alternative lookup build_indexes sends values above the grid to row 0"
  },
  {
   "property": "C33",
   "status": "proved",
   "theorems": [
    "scaler_to_idx_range",
    "scaler_inverse",
    "scaler_inverse_refuted"
   ],
   "note": "scaler_inverse_refuted: the round trip is not the identity"
  },
  {
   "property": "C34",
   "status": "proved",
   "theorems": [
    "vct_skip_decode_exact",
    "vct_skip_decode_away",
    "vct_skip_decode_refuted"
   ],
   "note": "the refuted theorem is the deviation named in the property"
  },
  {
   "property": "C28",
   "status": "proved",
   "theorems": [
    "vct_masked_attention",
    "vct_decoder_causal",
    "vct_network_causal",
    "vct_coded_distributions",
    "vct_logits_bounded",
    "vct_masked_attention_refuted",
    "vct_heads_partition",
    "vct_attention_average",
    "vct_final_head",
    "vct_transformer_errors",
    "vct_attention_errors",
    "vct_network_outputs",
    "vct_heads_apart"
   ],
   "note": "exp is rounded to float32, other arithmetic is in reals; vct_masked_attention_refuted: without the bound on the logits the mask leaks"
  },
  {
   "property": "C29",
   "status": "proved",
   "theorems": [
    "vct_decoder_states",
    "vct_receiver_in_sync",
    "vct_encoding_succeeds",
    "vct_receiver_in_sync_refuted"
   ],
   "note": "entropy coder and network are parameters with contracts; vct_receiver_in_sync_refuted: a latent of 0.5 in the fourth scene makes the receiver drift"
  },
  {
   "property": "C30",
   "status": "proved",
   "theorems": [
    "vct_state_window",
    "vct_context_sequences",
    "em_context",
    "em_context_refuted",
    "vct_context_works_iff",
    "vct_context_works_refuted"
   ],
   "note": "vct_context_works_refuted: context_len 0 and 3 fail at the fourth scene"
  },
  {
   "property": "C31",
   "status": "proved",
   "theorems": [
    "memo_transparent",
    "memo_once",
    "memo_hits",
    "memo_next_call",
    "memo_unbound",
    "memo_key_ignores",
    "memo_key_position",
    "memo_pipeline_hits",
    "memo_transparent_refuted",
    "memo_unhashable"
   ],
   "note": "nested memoised calls are not modelled; memo_transparent_refuted shows that each condition is needed"
  },
  {
   "property": "C35",
   "status": "proved",
   "theorems": [
    "hific_roundtrip",
    "hific_decoded_latent",
    "hific_small_image_refuted"
   ],
   "note": "networks have arbitrary weights and values with torch's shapes; compressai bottlenecks are parameters with lossless contracts (hific_bottlenecks_ex)"
  },
  {
   "property": "C36",
   "status": "proved",
   "theorems": [
    "hific_compress_devices",
    "hific_compress_needs_tables",
    "hific_forward_setting",
    "hific_frozen_encoder",
    "hific_frozen_bottleneck",
    "hific_train_exact",
    "hific_forward_one_device",
    "hific_compress_mode",
    "hific_device_targets",
    "hific_force_cpu_refuted",
    "hific_collect_parameters"
   ],
   "note": "hific_force_cpu_refuted: default arguments fail on a GPU model"
  },
  {
   "property": "C37",
   "status": "proved",
   "theorems": [
    "vqvae_eval_size",
    "vqvae_small_image_refuted",
    "vqvae_train_size"
   ],
   "note": "convolutions and XCiT blocks compute arbitrary values with torch's shapes"
  },
  {
   "property": "C56",
   "status": "proved",
   "theorems": [
    "hific_forward_size",
    "hific_forward_same_size",
    "hific_forward_latent"
   ],
   "note": ""
  },
  {
   "property": "C57",
   "status": "proved",
   "theorems": [
    "hific_tables_first",
    "hific_tables_fresh_refuted"
   ],
   "note": "hific_tables_fresh_refuted: the second switch after more training keeps the stale tables"
  },
  {
   "property": "C38",
   "status": "proved",
   "theorems": [
    "dvc_autoencoder_size",
    "dvc_closed_loop",
    "dvc_odd_size_refuted",
    "dvc_compensation_size",
    "dvc_default_sizes"
   ],
   "note": "entropy bottlenecks are parameters with contracts (dvc_bottleneck_ex); dvc_odd_size_refuted: decompress halves rounding down where the encoder rounds up, so e.g. 1080p frames cannot be decompressed"
  },
  {
   "property": "C39",
   "status": "proved",
   "theorems": [
    "dvc_flow_size",
    "dvc_flow_shapes",
    "dvc_flow_small",
    "dvc_flow_grey_refuted"
   ],
   "note": "dvc_flow_grey_refuted: one-channel images are refused even if in_channels fits"
  },
  {
   "property": "C40",
   "status": "proved",
   "theorems": [
    "unet_constructor",
    "unet_norm_rejected",
    "unet_factor_rejected",
    "unet_full_resolution",
    "unet_factor",
    "unet_factor_two_refuted",
    "unet_factor_depth_refuted",
    "unet_large_factor_refuted",
    "unet_small_image",
    "unet_conditional"
   ],
   "note": "the three refuted theorems give the factors for which the documented resolution is wrong; batch norm's refusal of one value per channel in training is not modelled"
  },
  {
   "property": "C47",
   "status": "proved",
   "theorems": [
    "msssim_formula",
    "msssim_raises_iff",
    "msssim_reductions",
    "msssim_window",
    "msssim_range",
    "msssim_symmetric",
    "msssim_one_iff",
    "msssim_self",
    "msssim_extra_channels_refuted",
    "msssim_default_size"
   ],
   "note": "over the reals"
  },
  {
   "property": "C49",
   "status": "proved",
   "theorems": [
    "image255_value",
    "image255_rejects",
    "image255_monotone",
    "image255_roundtrip"
   ],
   "note": "float32 rounding included"
  },
  {
   "property": "C50",
   "status": "proved",
   "theorems": [
    "patch_fid_updates",
    "patch_fid_covers",
    "patch_fid_refusals",
    "patch_fid_atomic_refuted",
    "patch_fid_shift_refuted",
    "patch_fid_grey_refuted"
   ],
   "note": "the three refuted theorems are the deviations named in the property"
  },
  {
   "property": "C51",
   "status": "proved",
   "theorems": [
    "msssim_metric_mean",
    "msssim_metric_value",
    "msssim_metric_batching",
    "msssim_metric_distributed",
    "dists_metric_accepts",
    "dists_metric_value",
    "dists_metric_batching",
    "dists_metric_reductions",
    "fid_metric_value",
    "fid_metric_empty",
    "fid_metric_batching",
    "kid_metric_value",
    "kid_distributed",
    "fid_distributed_refuted",
    "kid_parameters_refuted",
    "fid_feature_sizes"
   ],
   "note": "networks and torch-fidelity statistics are parameters; torchmetrics' synchronisation is modelled from its documentation"
  },
  {
   "property": "C58",
   "status": "proved",
   "theorems": [
    "psnr_value",
    "psnr_bad_range",
    "psnr_symmetric",
    "psnr_decreasing",
    "psnr_scale",
    "psnr_batch_refuted",
    "psnr_uint8_exact",
    "psnr_uint8_optimistic",
    "psnr_uint8_refuted"
   ],
   "note": "over the reals; uint8 wrap-around modelled exactly"
  },
  {
   "property": "C42",
   "status": "proved",
   "theorems": [
    "soft_round_small",
    "soft_round_cell",
    "soft_round_integer",
    "soft_round_half",
    "soft_round_increasing",
    "soft_round_inverse_left",
    "soft_round_inverse_right",
    "soft_round_shift",
    "soft_round_towards",
    "soft_round_limit",
    "soft_round_mean_is_midpoint",
    "soft_round_mean_small_alpha"
   ],
   "note": "over the reals"
  },
  {
   "property": "C43",
   "status": "proved",
   "theorems": [
    "lower_bound_value",
    "lower_bound_gradient",
    "lower_bound_disconnected_refuted",
    "lower_bound_float_refuted",
    "lower_bound_modes"
   ],
   "note": "the two refuted theorems are the deviations named in the property; broadcasting of a bound with several elements is not modelled"
  },
  {
   "property": "C44",
   "status": "proved",
   "theorems": [
    "hsv_pixel",
    "hsv_value",
    "hsv_rejects",
    "hsv_bad_shape",
    "hsv_gamut",
    "hsv_gamut_float",
    "hsv_grey_float",
    "hsv_close_float"
   ],
   "note": "over the reals, and in float32 for one pixel (the _float theorems)"
  },
  {
   "property": "C45",
   "status": "proved",
   "theorems": [
    "ramp_cosine_range",
    "ramp_cosine_rises",
    "ramp_cosine_peak",
    "ramp_cosine_falls",
    "ramp_cosine_bottom",
    "ramp_cosine_end_refuted",
    "ramp_cosine_restart_refuted",
    "ramp_const_range",
    "ramp_const_rises",
    "ramp_const_flat",
    "ramp_const_falls",
    "ramp_const_end",
    "ramp_const_restart_refuted",
    "ramp_const_default_refuted",
    "vct_ramp_cosine_raises",
    "vct_ramp_cosine_decay",
    "vct_ramp_cosine_bound",
    "vct_ramp_cosine_rises",
    "vct_ramp_cosine_rises_refuted",
    "vct_ramp_cosine_restart_refuted",
    "vct_ramp_linear",
    "vct_ramp_linear_zero_refuted",
    "vct_warmup_cosine",
    "vct_warmup_long_refuted",
    "identity_schedule"
   ],
   "note": "over the reals; the refuted theorems are the deviations named in the property"
  },
  {
   "property": "C46",
   "status": "proved",
   "theorems": [
    "noise_prob_value",
    "noise_prob_range",
    "noise_prob_telescopes",
    "noise_prob_uniform",
    "noise_normal_total_mass",
    "noise_log_prob_normal",
    "noise_log_prob_normal_tail",
    "noise_log_prob_normal_finite",
    "noise_log_prob_other",
    "noise_log_prob_uniform_refuted"
   ],
   "note": "over the reals with infinities and NaN; the refuted theorem is the deviation named in the property"
  },
  {
   "property": "C48",
   "status": "proved",
   "theorems": [
    "Phi_is_normal_cdf",
    "ndtr_value",
    "log_ndtr_value",
    "log_ndtr_tail",
    "log_ndtr_increasing",
    "log_ndtr_dtype",
    "log_ndtr_float64_refuted",
    "cdf_normal",
    "log_cdf_normal",
    "log_survival_normal",
    "survival_complement",
    "log_cdf_other",
    "log_cdf_uniform_refuted",
    "log_survival_other_refuted",
    "ndtr_float32_accuracy"
   ],
   "note": "the normal CDF is the integral of the density, with the Gaussian integral proved; float32 rounding only in log_ndtr_float64_refuted"
  },
  {
   "property": "C59",
   "status": "proved",
   "theorems": [
    "rsample_scalar",
    "rsample_shared_noise_refuted",
    "rsample_vector_refuted",
    "noise_shapes_swapped"
   ],
   "note": "the refuted theorems are the deviations named in the property"
  },
  {
   "property": "C60",
   "status": "proved",
   "theorems": [
    "info_none",
    "info_sum",
    "info_batch",
    "info_reductions_agree",
    "info_bits",
    "info_raises",
    "info_unknown_reduction",
    "info_exceptions",
    "log_expm1_value",
    "log_expm1_softplus",
    "log_expm1_increasing",
    "offset_value",
    "offset_quantise",
    "offset_errors",
    "offset_fallback_refuted"
   ],
   "note": "over the reals with infinities and NaN"
  },
  {
   "property": "C61",
   "status": "proved",
   "theorems": [
    "tails_return",
    "tails_never_return",
    "tails_flat_refuted",
    "tails_step_bound",
    "tails_accuracy",
    "tails_terminate",
    "tails_icdf",
    "lower_tail_estimate",
    "upper_tail_diverges_refuted",
    "tails_refused"
   ],
   "note": "over the reals; the function and its derivative are parameters"
  },
  {
   "property": "C41",
   "status": "proved",
   "theorems": [
    "vq_accepts",
    "vq_nearest",
    "vq_unit_rows",
    "vq_idempotent",
    "vq_loss_minimal",
    "vq_random_choice",
    "vq_hits_history",
    "vq_reset_refuted",
    "vq_num_bytes",
    "vq_usage",
    "vq_perplexity",
    "vq_perplexity_even",
    "vq_distance_float",
    "vq_nearest_float",
    "vq_codeword_float",
    "vq_output_float",
    "vq_output_float_refuted",
    "vq_unit_rows_float"
   ],
   "note": "over the reals, and the choice, its normalised rows and its output also in float32 without overflow and for every order of summation; vq_reset_refuted, vq_output_float_refuted and vq_num_bytes are the deviations named in the property"
  },
  {
   "property": "C52",
   "status": "proved",
   "theorems": [
    "vimeo_init_accepts",
    "vimeo_init_rejects",
    "vimeo_image_item",
    "vimeo_index_bijection",
    "vimeo_video_item",
    "vimeo_other_indices",
    "vimeo_visits_every_frame_once",
    "vimeo_default_image_refuted",
    "vimeo_folder_names"
   ],
   "note": "files, PIL and transforms are parameters; the refuted theorem is the deviation named in the property"
  },
  {
   "property": "C53",
   "status": "proved",
   "theorems": [
    "clic_pass",
    "clic_every_video_iff",
    "clic_one_clip_each",
    "clic_sample_frames",
    "clic_sample_frames_empty",
    "clic_second_pass_refuted",
    "clic_skips_videos_refuted"
   ],
   "note": "the clip sampler is any sampler that cuts each video into at least one clip; the refuted theorems are the deviations named in the property"
  },
  {
   "property": "C54",
   "status": "proved",
   "theorems": [
    "rate_config_checked",
    "rate_schedule_first",
    "rate_schedule_piecewise",
    "rate_loss_spec",
    "rate_loss_total",
    "rate_loss_bounds",
    "rate_training_batches",
    "rate_warmup_refuted"
   ],
   "note": "over the reals; the refuted theorem is the deviation named in the property"
  },
  {
   "property": "C55",
   "status": "proved",
   "theorems": [
    "flops_rule",
    "flops_elementwise",
    "flops_no_leak"
   ],
   "note": "tracing and fvcore's own table are parameters"
  },
  {
   "property": "C62",
   "status": "proved",
   "theorems": [
    "ce_tables_exist",
    "ce_sizes_and_offsets",
    "ce_row_contents",
    "ce_row_usable_iff",
    "ce_noise_prior_refuted",
    "ce_negative_values_refuted",
    "ce_wrong_distribution_refuted"
   ],
   "note": "over the reals; compressai's quantiser is a parameter with a contract that Quant_Props proves of its algorithm (fewer symbols than 2^precision, a positive mass); the refuted theorems are the deviations named in the property"
  },
  {
   "property": "C63",
   "status": "proved",
   "theorems": [
    "ce_arguments",
    "ce_given_tables",
    "ce_not_compressible",
    "ce_prior_access",
    "ce_restore",
    "ce_restore_exactly",
    "ce_restore_empty_refuted",
    "ce_quantize_refuted",
    "ce_quantize_ints"
   ],
   "note": "the refuted theorems are the deviations named in the property"
  },
  {
   "property": "C64",
   "status": "proved",
   "theorems": [
    "gan_bce_generator_value",
    "gan_bce_discriminator_value",
    "gan_bce_refused",
    "gan_bce_positive",
    "gan_bce_undecided",
    "gan_bce_generator_gradient",
    "gan_bce_discriminator_gradient",
    "oasis_generator_value",
    "oasis_discriminator_value",
    "oasis_generator_checked",
    "oasis_discriminator_checked",
    "oasis_positive",
    "oasis_shift_invariant",
    "oasis_undecided",
    "oasis_label_layout_refuted",
    "oasis_fake_shape_refuted",
    "oasis_generator_gradient",
    "oasis_discriminator_gradient",
    "oasis_gradient_direction"
   ],
   "note": "over the reals; the refuted theorems are the deviations named in the property"
  },
  {
   "property": "C65",
   "status": "proved",
   "theorems": [
    "gan_updates",
    "gan_flags",
    "gan_frozen_untouched",
    "gan_batch_halves",
    "plain_updates",
    "gan_refit_refuted",
    "gan_unconditional_refuted",
    "gan_single_image_refuted",
    "plain_frozen_quantiles_refuted",
    "gan_validation"
   ],
   "note": "networks and losses are symbolic terms; the refuted theorems are the deviations named in the property"
  },
  {
   "property": "C66",
   "status": "proved",
   "theorems": [
    "kodak_checked_intact",
    "kodak_local_iff",
    "kodak_items",
    "kodak_existing_unchanged",
    "kodak_force_refuted",
    "kodak_damaged_forever_refuted",
    "kodak_fresh_download",
    "kodak_killed_download",
    "kodak_unchecked_refuted",
    "kodak_boundaries_refuted",
    "kodak_no_parent"
   ],
   "note": "sha1 is a parameter; the refuted theorems are the deviations named in the property"
  },
  {
   "property": "C67",
   "status": "proved",
   "theorems": [
    "train_guard",
    "train_start",
    "train_progress",
    "test_run_iff",
    "test_changes_nothing",
    "test_refused",
    "pretrained_roundtrip",
    "train_steps",
    "pretrained_bare_refuted",
    "train_resume_without_last_refuted",
    "train_null_overwrite_refuted",
    "train_unlimited_refuted"
   ],
   "note": "Lightning's Trainer is an arbitrary sequence of saves that go forward; the refuted theorems are the deviations named in the property"
  },
  {
   "property": "C68",
   "status": "proved",
   "theorems": [
    "image_key_injective",
    "image_cache_sound",
    "image_cache_exact",
    "image_cache_stale_refuted",
    "image_cache_cut_refuted"
   ],
   "note": "sha256 is a parameter; the refuted theorems are the deviations named in the property"
  },
  {
   "property": "C69",
   "status": "proved",
   "theorems": [
    "validation_epoch_exact",
    "validation_fid_failure",
    "name_in_force",
    "test_epoch_exact",
    "test_unnamed",
    "test_kodak_fid_refuted",
    "naming_keeps",
    "quality_metrics_errors"
   ],
   "note": "images and metrics are symbolic; the refuted theorem is the deviation named in the property"
  },
  {
   "property": "C70",
   "status": "proved",
   "theorems": [
    "clic_val_atomic",
    "clic_val_dataset",
    "clic_repairs",
    "clic_not_again",
    "clic_bad_archive",
    "clic_bad_split",
    "clic_val_again_refuted",
    "clic_partial_refuted"
   ],
   "note": "torchvision's download_and_extract_archive and the file system are modelled; that archives have the named directories is the hypothesis archives; the refuted theorems are the deviations named in the property"
  },
  {
   "property": "C71",
   "status": "proved",
   "theorems": [
    "oi_items",
    "oi_count",
    "oi_order_free",
    "oi_bad_split",
    "oi_construct",
    "oi_index",
    "div2k_paths",
    "dm_construct",
    "dm_validation",
    "dm_training",
    "oi_blank_refuted",
    "oi_directory_refuted",
    "dm_no_workers_refuted",
    "oi_trailing_white",
    "oi_hidden_files",
    "oi_hidden_files_in_folder"
   ],
   "note": "text is ASCII and an item is its path; shuffling is not modelled; the refuted theorems are the deviations named in the property"
  },
  {
   "property": "C72",
   "status": "proved",
   "theorems": [
    "C72_training_step",
    "C72_validation_step",
    "C72_training_refuses_short",
    "C72_validation_refuses_short",
    "C72_no_pframes_fails",
    "C72_validation_bpp_lacks_iframe_refuted",
    "C72_logger_original_clip",
    "C72_logger_recompresses_refuted"
   ],
   "note": "losses, networks and optimisers are arbitrary functions, a gradient is the list of losses differentiated since zero_grad; the refuted theorems and the value of val_loss in C72_validation_step are the deviations named in the property"
  },
  {
   "property": "C73",
   "status": "proved",
   "theorems": [
    "C73_every_history_sound",
    "C73_nothing_sound",
    "C73_stage_leaves_others",
    "C73_progress_kept",
    "C73_finished_run_is_reused",
    "C73_finishes",
    "C73_refuses",
    "C73_truthy_overwrite_resumes_refuted",
    "C73_default_growing",
    "C73_default_submodules",
    "C73_overwrite_starts_over"
   ],
   "note": "a checkpoint file is written at once and the directories of the stages differ; updates are arbitrary functions of the submodules held; C73_refuses also proves the first deviation"
  },
  {
   "property": "C74",
   "status": "proved",
   "theorems": [
    "C74_gdn_construct",
    "C74_elic_construct",
    "C74_training_size_gdn",
    "C74_size_elic",
    "C74_evaluation_size_gdn",
    "C74_small_images_refuted",
    "C74_not_rgb",
    "C74_chunks",
    "C74_elic_refused",
    "C74_codec_size",
    "C74_codec_refused"
   ],
   "note": "sizes of convolutions are PyTorch's formulas; GDN, AttentionBlock and latent coding keep shapes"
  },
  {
   "property": "C75",
   "status": "proved",
   "theorems": [
    "C75_losses",
    "C75_weighted_bounds",
    "C75_no_lambda",
    "C75_forward_iff",
    "C75_test",
    "C75_test_raises",
    "C75_test_stateless",
    "C75_forward_before",
    "C75_compress_then_forward_refuted",
    "C75_train_after_compress"
   ],
   "note": "real numbers; networks as functions of video and mode; PSNR is C58"
  },
  {
   "property": "C76",
   "status": "proved",
   "theorems": [
    "C76_uvg_init",
    "C76_uvg_zero",
    "C76_uvg_iff",
    "C76_uvg_negative",
    "C76_uvg_frames",
    "C76_uvg_dataset",
    "C76_uvg_order",
    "C76_uvg_order_refuted",
    "C76_load",
    "C76_load_copy",
    "C76_load_bare_refuted",
    "C76_copy_replaced_refuted",
    "C76_launch",
    "C76_refused_untouched",
    "C76_resume",
    "C76_overwrite_resumes_refuted",
    "C76_frames"
   ],
   "note": "images directly in the folders; configuration file readable or not; the Trainer is any list of writes and removals"
  },
  {
   "property": "C77",
   "status": "proved",
   "theorems": [
    "C77_range",
    "C77_range_zeros",
    "C77_nearest",
    "C77_linear",
    "C77_zero_flow_aligned",
    "C77_integer_flow",
    "C77_default_half_pixel",
    "C77_zero_flow_default_small",
    "C77_zero_flow_default_refuted",
    "C77_dense_image_warp",
    "C77_bad_flow",
    "C77_colors",
    "C77_colors_raise",
    "C77_batch_refuted",
    "C77_reflection"
   ],
   "note": "real numbers; modes bilinear and nearest of grid_sample"
  },
  {
   "property": "C78",
   "status": "proved",
   "theorems": [
    "C78_channel_norm_init",
    "C78_channel_norm",
    "C78_channel_norm_affine",
    "C78_channel_norm_bound",
    "C78_gdn_history",
    "C78_gdn_clamped",
    "C78_gdn_pure_refuted",
    "C78_gdn_new",
    "C78_gdn_bounds",
    "C78_gdn_injective",
    "C78_inverse_refuted",
    "C78_clamp_gradient"
   ],
   "note": "real numbers, eps > 0 and beta_min > 0; images of four dimensions and, for ChannelNorm2D, at least two channels"
  },
  {
   "property": "C79",
   "status": "proved",
   "theorems": [
    "C79_shape",
    "C79_mixture",
    "C79_equivariant",
    "C79_attn_block",
    "C79_attn_residual"
   ],
   "note": "real numbers; no dropout; at least one channel and token where stated; attention block with ChannelNorm2D as created"
  },
  {
   "property": "C80",
   "status": "proved",
   "theorems": [
    "C80_trees",
    "C80_msillm",
    "C80_msillm_accepts",
    "C80_no_latent",
    "C80_normalised"
   ],
   "note": "real numbers; latents of four dimensions; for the smallest angle, codes and projections not shorter than 1e-12"
  },
  {
   "property": "C81",
   "status": "proved",
   "theorems": [
    "C81_wiring",
    "C81_no_blocks_refuted",
    "C81_norms",
    "C81_attention",
    "C81_attention_refuted",
    "C81_frozen",
    "C81_not_frozen",
    "C81_frozen_between_refuted"
   ],
   "note": "nonempty ch_mult with positive multipliers for the norms"
  },
  {
   "property": "C82",
   "status": "proved",
   "theorems": [
    "C82_mse",
    "C82_normalised",
    "C82_stable",
    "C82_lpips",
    "C82_lpips_bounds",
    "C82_combined",
    "C82_functional"
   ],
   "note": "real numbers; batches of equal sizes; the LPIPS package's networks are arbitrary functions; spatial=True not modelled"
  },
  {
   "property": "C83",
   "status": "proved",
   "theorems": [
    "C83_subsample",
    "C83_new",
    "C83_train",
    "C83_val",
    "C83_test",
    "C83_values",
    "C83_collate",
    "C83_collate_padded",
    "C83_train_batches",
    "C83_train_batches_refuted",
    "C83_vimeo",
    "C83_vimeo_values",
    "C83_dvc",
    "C83_scenes",
    "C83_crop_edges",
    "C83_validate_shape",
    "C83_no_frames"
   ],
   "note": "transforms of torchvision and pytorchvideo modelled after their documentation; exact arithmetic; resizing arbitrary"
  },
  {
   "property": "C84",
   "status": "proved",
   "theorems": [
    "C84_evaluation_is_exact",
    "C84_dropping_warning_refuted",
    "C84_saved_statistics",
    "C84_bound_is_sum_of_terms",
    "C84_images_once",
    "C84_every_image_refuted",
    "C84_small_data_hangs",
    "C84_uneven_batches_refused",
    "C84_divide_by_n_proc",
    "C84_plot"
   ],
   "note": "processes in lock step; improved_diffusion's calc_bpd_loop and load_data modelled after its source; exact arithmetic"
  },
  {
   "property": "C85",
   "status": "proved",
   "theorems": [
    "C85_names",
    "C85_histories_are_sane",
    "C85_overwriting_repairs",
    "C85_first_launch_completes",
    "C85_relaunch_does_nothing",
    "C85_offline_keeps_files",
    "C85_killed_dump_refuted",
    "C85_class_labels",
    "C85_partial_labels_refuted",
    "C85_wrong_size_refused"
   ],
   "note": "torchvision's data set is fixed; at most one file is cut off per kill"
  },
  {
   "property": "C86",
   "status": "proved",
   "theorems": [
    "C86_step_of_names",
    "C86_processes_agree",
    "C86_resume_restores",
    "C86_bad_files_raise",
    "C86_average_lost_refuted",
    "C86_log_directories",
    "C86_rows_reach_the_run",
    "C86_keys_kept",
    "C86_clashing_keys_refuted",
    "C86_words_required",
    "C86_letters_refused"
   ],
   "note": "improved_diffusion's TrainLoop.__init__ and find_ema_checkpoint modelled after its source"
  },
  {
   "property": "C87",
   "status": "proved",
   "theorems": [
    "C87_files_distinct",
    "C87_unknown_weights",
    "C87_same_through_hub_and_zoo",
    "C87_right_weights",
    "C87_untrained_never_fails",
    "C87_only_own_file",
    "C87_cache_holds_whole_files",
    "C87_recovers",
    "C87_cut_download_is_never_repaired",
    "C87_works_offline",
    "C87_true_value_refuted",
    "C87_rates_grow"
   ],
   "note": "torch.hub's cache is modelled after its documentation; checkpoints are lists of blocks and unpickling and key matching are parameters"
  },
  {
   "property": "C88",
   "status": "proved",
   "theorems": [
    "C88_unet",
    "C88_unet_is_documented",
    "C88_conditional_unet",
    "C88_hyper_networks",
    "C88_hific_encoder",
    "C88_hific_generator",
    "C88_residual_unit",
    "C88_elic_analysis",
    "C88_dvc_reconstruct",
    "C88_hific_forward",
    "C88_forward_eval_consistent",
    "C88_forward_train_latent",
    "C88_calls_independent",
    "C88_training_hyper_rate_refuted",
    "C88_unet_spectral_refuted",
    "C88_inner_level_overwrites"
   ],
   "note": "what a single convolution, normalisation or entropy model computes is an arbitrary function; gradients and the autograd version counters are left out"
  },
  {
   "property": "C89",
   "status": "proved",
   "theorems": [
    "C89_named_parameters",
    "C89_groups",
    "C89_dvc_optimizers",
    "C89_single_optimizer",
    "C89_single_optimizer_kind",
    "C89_vct_quantiles_untrained",
    "C89_projector",
    "C89_projector_needs_bottleneck",
    "C89_projector_mode_refuted",
    "C89_root_quantiles_refuted"
   ],
   "note": "named_modules, named_parameters and train follow PyTorch's documentation; what Adam does with its parameters is left out"
  },
  {
   "property": "C90",
   "status": "proved",
   "theorems": [
    "C90_roundtrip",
    "C90_compressed_readable",
    "C90_one_image_size",
    "C90_overhead",
    "C90_batch_size",
    "C90_shared_strings_refuted",
    "C90_file_bytes",
    "C90_list_bytes",
    "C90_names"
   ],
   "note": "the pickler and unpickler follow CPython's implementation of protocol 4; its bytes were compared with those of the model on twelve cases"
  },
  {
   "property": "C91",
   "status": "proved",
   "theorems": [
    "C91_convolution",
    "C91_transposed_convolution",
    "C91_transposed_size",
    "C91_concatenation",
    "C91_upsampling",
    "C91_pooling",
    "C91_pool_upsample",
    "C91_elementwise",
    "C91_elementwise_mismatch",
    "C91_image_networks",
    "C91_compress",
    "C91_video_networks"
   ],
   "note": "values of convolutions and activations are arbitrary functions; sizes, channels and exceptions are those of PyTorch"
  },
  {
   "property": "C92",
   "status": "proved",
   "theorems": [
    "C92_bytes_recovered",
    "C92_nearest_byte",
    "C92_bytes_monotone",
    "C92_entries",
    "C92_report",
    "C92_nothing_to_report",
    "C92_single_patch_refused",
    "C92_small_picture",
    "C92_unreadable",
    "C92_order"
   ],
   "note": "the compression model and the LPIPS network are arbitrary functions that may raise; FID is the list of its updates; PSNR, MS-SSIM and LPIPS averages over the reals, rates in float64"
  },
  {
   "property": "C93",
   "status": "proved",
   "theorems": [
    "C93_tables",
    "C93_probabilities",
    "C93_row_exists",
    "C93_built_once",
    "C93_kept",
    "C93_refused",
    "C93_create",
    "C93_precision_unused",
    "C93_default_fits",
    "C93_usable",
    "quantiser_result",
    "compressai_quantiser",
    "compressai_exact",
    "compressai_nearest",
    "quantiser_too_small"
   ],
   "note": "real arithmetic; the quantile function of the normal distribution is a parameter with its defining property (it exists: quantile_ex), the quantiser one with a contract that is proved of a model of compressai's"
  },
  {
   "property": "C94",
   "status": "proved",
   "theorems": [
    "C94_mosaic",
    "C94_flow_mosaic",
    "C94_mosaic_refused",
    "C94_log_images",
    "C94_dvc",
    "C94_dvc_short",
    "C94_grid",
    "C94_grid_empty",
    "C94_illm",
    "C94_illm_validation_quiet",
    "C94_illm_empty",
    "C94_illm_epoch_end_refuted",
    "C94_vct",
    "C94_vct_errors"
   ],
   "note": "over the reals; torch.cat and torchvision's make_grid are modelled; the refuted theorem is the deviation named in the property"
  },
  {
   "property": "C95",
   "status": "proved",
   "theorems": [
    "C95_module",
    "C95_finetune",
    "C95_finetune_builds",
    "C95_misfit",
    "C95_no_loss",
    "C95_projector_ignored_refuted",
    "C95_path_ignored_refuted",
    "C95_bare_checkpoint_refuted",
    "C95_tests",
    "C95_shipped_tests_refuted"
   ],
   "note": "what hydra and torch.hub build is a parameter; the refuted theorems state the known deviations"
  },
  {
   "property": "C96",
   "status": "proved",
   "theorems": [
    "C96_autograd",
    "C96_ste",
    "C96_hific",
    "C96_quantized_likelihoods",
    "C96_vq_values",
    "C96_vq_straight_through",
    "C96_vq_commitment",
    "C96_vq_embedding_reach",
    "C96_vq_embedding",
    "C96_vq_normalized",
    "C96_vct_output",
    "C96_vct_rate",
    "C96_vct_rate_scale",
    "C96_frames",
    "C96_frames_cut",
    "C96_first_frame",
    "C96_vq_short_codeword",
    "C96_frame_value"
   ],
   "note": "real arithmetic; autograd's rules for single operations are modelled, the networks are arbitrary expressions"
  },
  {
   "property": "C97",
   "status": "proved",
   "theorems": [
    "metric_sum_float",
    "metric_count_float",
    "metric_mean_float",
    "metric_mean_float_unit",
    "metric_batching_float",
    "metric_distributed_float",
    "metric_float_refuted"
   ],
   "note": "float32 rounding included, without overflow; the scores themselves are any float32 numbers"
  },
  {
   "property": "C98",
   "status": "proved",
   "theorems": [
    "C98_encoder_latents",
    "C98_step_zero",
    "C98_prior_accepts",
    "C98_network_call",
    "C98_prior_mean",
    "C98_right_network",
    "C98_prior_stdd",
    "C98_prior_variance",
    "C98_create",
    "C98_default",
    "C98_vlb",
    "C98_cosine_schedule",
    "C98_linear_schedule",
    "C98_create_refused",
    "C98_linear_20_refuted",
    "C98_first_variance",
    "C98_step_refused",
    "C98_cosine_signal"
   ],
   "note": "real arithmetic; improved_diffusion's GaussianDiffusion and SpacedDiffusion are modelled after its source; the choice of timesteps is in IEEE binary64 (C23)"
  },
  {
   "property": "C99",
   "status": "proved",
   "theorems": [
    "C99_merge",
    "C99_merge_keys",
    "C99_module",
    "C99_module_refused",
    "C99_plan",
    "C99_default",
    "C99_order_refuted",
    "C99_held_only",
    "C99_quantile_loss",
    "C99_sizes",
    "C99_stage1_loss",
    "C99_rate_distortion",
    "C99_loss_nonneg",
    "C99_stages_agree",
    "C99_residual_refuted"
   ],
   "note": "real arithmetic; networks and CompressAI's models are arbitrary functions; what the training does with the losses is C72, resuming is C73"
  },
  {
   "property": "C100",
   "status": "proved",
   "theorems": [
    "C100_window",
    "C100_train_crop",
    "C100_train_resized",
    "C100_train",
    "C100_resize",
    "C100_val",
    "C100_val_same"
   ],
   "note": "torchvision's transforms are modelled after its source; resampling is an arbitrary function; draws of the resized crop in real arithmetic, the resized size in IEEE binary64"
  },
  {
   "property": "C101",
   "status": "proved",
   "theorems": [
    "C101_step_bound",
    "C101_weights_bounded",
    "C101_travel",
    "C101_adamw",
    "C101_clip_norm",
    "C101_clip_value",
    "C101_no_clipping",
    "C101_unsupported",
    "C101_skipped",
    "C101_two_optimisers",
    "C101_shipped",
    "C101_shipped_training"
   ],
   "note": "real arithmetic; Lightning's clip_gradients and torch's clipping, AdamW and LambdaLR are modelled after their sources; the gradients are arbitrary inputs"
  },
  {
   "property": "C102",
   "status": "proved",
   "theorems": [
    "C102_causal",
    "C102_evaluation",
    "C102_drop_path",
    "C102_dropped_block",
    "C102_attention_unbiased",
    "C102_dropout",
    "C102_dropped_layers",
    "C102_rates"
   ],
   "note": "exact arithmetic except for the exponentials of the softmax (binary32), one patch; the draws are inputs; the layers of the separate encoder (EncoderSection) are transformer_train without a decoder"
  },
  {
   "property": "C103",
   "status": "proved",
   "theorems": [
    "C103_shapes",
    "C103_errors",
    "C103_values",
    "C103_causal_near",
    "C103_default_causal",
    "C103_uniform",
    "C103_coded_distributions"
   ],
   "note": "weights as exact reals; trunc_normal_ as the final clamp of its source, uniform_ as an affine map of a draw in [0,1); whether training keeps weights within 0.06 is not claimed; C103_default_causal's fresh model meets the hypotheses of the others"
  },
  {
   "property": "C104",
   "status": "proved",
   "theorems": [
    "C104_verdict",
    "C104_no_false_alarm",
    "C104_fresh_passes",
    "C104_accepted",
    "C104_fresh_ok",
    "C104_one_run_is_not_enough_refuted",
    "C104_passing_everywhere",
    "C104_batch",
    "C104_fresh_batch"
   ],
   "note": "patches do not interact in the network (as modelled for C27); evaluation mode, exact arithmetic, so rounding that differs between runs is not covered; C104_caught and C104_passes_ex are concrete cases; C104_one_run_is_not_enough_refuted refutes a converse that the statement denies"
  }
 ]
}