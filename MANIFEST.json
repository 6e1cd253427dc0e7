{
 "claims": [
  {
   "property": "C01",
   "status": "proved",
   "theorems": [
    "c01_active_bounded",
    "c01_no_refusal"
   ],
   "note": ""
  },
  {
   "property": "C02",
   "status": "proved",
   "theorems": [
    "c02_sine_samples_are_peaks",
    "c02_modal_samples_are_peaks"
   ],
   "note": ""
  },
  {
   "property": "C03",
   "status": "proved",
   "theorems": [
    "c03_greedy_matching",
    "c03_matching_unique"
   ],
   "note": ""
  },
  {
   "property": "C04",
   "status": "proved",
   "theorems": [
    "c04_reported_iff_long",
    "c04_saved_forever"
   ],
   "note": ""
  },
  {
   "property": "C05",
   "status": "proved",
   "theorems": [
    "c05_active_contiguous"
   ],
   "note": ""
  },
  {
   "property": "C06",
   "status": "proved",
   "theorems": [
    "c06_acceptance"
   ],
   "note": ""
  },
  {
   "property": "C07",
   "status": "proved",
   "theorems": [
    "c07_merge_conserves",
    "c07_never_raises"
   ],
   "note": ""
  },
  {
   "property": "C08",
   "status": "proved",
   "theorems": [
    "c08_merge_rule",
    "c08_reachable_states"
   ],
   "note": ""
  },
  {
   "property": "C09",
   "status": "proved",
   "theorems": [
    "c09_strip"
   ],
   "note": ""
  },
  {
   "property": "C10",
   "status": "proved",
   "theorems": [
    "c10_unknown_strategy"
   ],
   "note": ""
  },
  {
   "property": "C11",
   "status": "proved",
   "theorems": [
    "c11_refit",
    "c11_history",
    "c11_fit_result",
    "c11_reported",
    "c11_unfitted",
    "c11_given_storage_refuted",
    "c11_decisions_refuted"
   ],
   "note": ""
  },
  {
   "property": "C12",
   "status": "proved",
   "theorems": [
    "c12_min_key",
    "c12_min_key_nan"
   ],
   "note": ""
  },
  {
   "property": "C13",
   "status": "proved",
   "theorems": [
    "c13_windows_exact",
    "c13_short_input"
   ],
   "note": ""
  },
  {
   "property": "C14",
   "status": "proved",
   "theorems": [
    "c14_padding",
    "c14_all_samples_analysed",
    "c14_large_hop_loses_samples",
    "c14_frame_centre",
    "c14_first_frame_centred_refuted"
   ],
   "note": "Full coverage for hops up to w//2+1; larger hops lose samples and odd windows are not centred on the first sample (both proved)."
  },
  {
   "property": "C15",
   "status": "proved",
   "theorems": [
    "c15_spectrum_centred",
    "c15_zero_phase",
    "c15_window_sums_to_one",
    "c15_constant_level",
    "c15_magnitude_floor",
    "c15_buffer_is_rotation",
    "c15_one_sample_window_raises",
    "c15_long_window_refuted"
   ],
   "note": "For 2 <= w.size <= n. Window of one sample raises; window longer than the FFT loses samples."
  },
  {
   "property": "C16",
   "status": "proved",
   "theorems": [
    "c16_peaks_exact",
    "c16_increasing",
    "c16_not_adjacent"
   ],
   "note": ""
  },
  {
   "property": "C17",
   "status": "proved",
   "theorems": [
    "c17_vertex",
    "c17_all_refined_increasing",
    "c17_below_nyquist"
   ],
   "note": ""
  },
  {
   "property": "C18",
   "status": "proved",
   "theorems": [
    "c18_alignment",
    "c18_monotone",
    "c18_spacing",
    "c18_time_offset",
    "c18_reverse_time_refuted"
   ],
   "note": "Tracks of at least two frames (guaranteed by the tracker when min_n_frames >= 2). The reverse/odd-window time offset is proved exactly (c18_time_offset)."
  },
  {
   "property": "C19",
   "status": "proved",
   "theorems": [
    "c19_recovery",
    "c19_resynthesis",
    "c19_doubling"
   ],
   "note": ""
  },
  {
   "property": "C20",
   "status": "proved",
   "theorems": [
    "c20_energy",
    "c20_energy_until",
    "c20_order"
   ],
   "note": ""
  },
  {
   "property": "C21",
   "status": "proved",
   "theorems": [
    "c21_columns",
    "c21_no_tracks"
   ],
   "note": ""
  },
  {
   "property": "C22",
   "status": "proved",
   "theorems": [
    "c22_argsort",
    "c22_predict_strongest",
    "c22_predict_count",
    "c22_all_modes",
    "c22_predict_none_refuted"
   ],
   "note": "For any sorting function; predict(phases=None) is a TypeError (c22_predict_none_refuted)."
  },
  {
   "property": "C23",
   "status": "proved",
   "theorems": [
    "c23_superposition",
    "c23_phases",
    "c23_concatenation",
    "c23_permutation",
    "c23_homogeneous",
    "c23_bound",
    "c23_onset"
   ],
   "note": ""
  },
  {
   "property": "C24",
   "status": "proved",
   "theorems": [
    "c24_export",
    "c24_no_modes"
   ],
   "note": ""
  },
  {
   "property": "C25",
   "status": "proved",
   "theorems": [
    "c25_results",
    "c25_terminates",
    "c25_progress",
    "c25_gui_progress_refuted",
    "c25_gui_serial",
    "c25_storage",
    "c25_serial_raises",
    "c25_append_race_refuted",
    "c25_cache_race_refuted",
    "c25_append_serial",
    "c25_fit",
    "c25_refit_refuted",
    "c25_inactive_cache_refuted"
   ],
   "note": ""
  },
  {
   "property": "C26",
   "status": "proved",
   "theorems": [
    "c26_restored",
    "c26_contents",
    "c26_shared_refuted",
    "c26_resources"
   ],
   "note": ""
  },
  {
   "property": "C27",
   "status": "proved",
   "theorems": [
    "c27_returns",
    "c27_inactive",
    "c27_records",
    "c27_indexed",
    "c27_any_order",
    "c27_reset",
    "c27_negative",
    "c27_negative_index_refuted"
   ],
   "note": ""
  },
  {
   "property": "C28",
   "status": "proved",
   "theorems": [
    "c28_rename",
    "c28_absent",
    "c28_prefix",
    "c28_prefix_collision_refuted",
    "c28_convert",
    "c28_sinusoidal_model",
    "c28_modal_model",
    "c28_sine_tracker_cls_raises",
    "c28_safe_sine_len",
    "c28_sample"
   ],
   "note": ""
  },
  {
   "property": "C29",
   "status": "proved",
   "theorems": [
    "c29_explicit",
    "c29_not_shared",
    "c29_none",
    "c29_names",
    "c29_anonymous_raises"
   ],
   "note": ""
  },
  {
   "property": "C30",
   "status": "proved",
   "theorems": [
    "c30_dispatch",
    "c30_unsupported",
    "c30_message",
    "c30_unhashable_raises",
    "c30_signature"
   ],
   "note": ""
  },
  {
   "property": "C31",
   "status": "proved",
   "theorems": [
    "c31_elementwise",
    "c31_two_arrays",
    "c31_modal_energy_out_refuted",
    "c31_a_weighting_db",
    "c31_a_weighting_out_refuted",
    "c31_wavefun",
    "c31_wavefun_inplace_refuted"
   ],
   "note": ""
  },
  {
   "property": "C32",
   "status": "proved",
   "theorems": [
    "c32_mel_inverse",
    "c32_fant_inverse",
    "c32_increasing"
   ],
   "note": ""
  },
  {
   "property": "C33",
   "status": "proved",
   "theorems": [
    "c33_traunmuller_inverse",
    "c33_wang_inverse",
    "c33_increasing"
   ],
   "note": ""
  },
  {
   "property": "C34",
   "status": "proved",
   "theorems": [
    "c34_cams_inverse",
    "c34_cams_linear_inverse",
    "c34_increasing",
    "c34_erb_positive"
   ],
   "note": ""
  },
  {
   "property": "C35",
   "status": "proved",
   "theorems": [
    "c35_inverse",
    "c35_homomorphism",
    "c35_floor"
   ],
   "note": ""
  },
  {
   "property": "C36",
   "status": "proved",
   "theorems": [
    "c36_reference",
    "c36_linear"
   ],
   "note": ""
  },
  {
   "property": "C37",
   "status": "proved",
   "theorems": [
    "c37_envelope",
    "c37_group_delay"
   ],
   "note": ""
  },
  {
   "property": "C38",
   "status": "proved",
   "theorems": [
    "c38_frequencies",
    "c38_default_number"
   ],
   "note": ""
  },
  {
   "property": "C39",
   "status": "proved",
   "theorems": [
    "c39_values",
    "c39_partition_of_unity",
    "c39_overlap",
    "c39_n_filters",
    "c39_no_filter_raises",
    "c39_n_filters_raises",
    "c39_default_limits",
    "c39_bandwidth"
   ],
   "note": ""
  },
  {
   "property": "C40",
   "status": "proved",
   "theorems": [
    "c40_strided_convolution",
    "c40_complex_kernel",
    "c40_short_input"
   ],
   "note": ""
  },
  {
   "property": "C41",
   "status": "proved",
   "theorems": [
    "c41_full",
    "c41_strided",
    "c41_strided_aligned",
    "c41_decimation_refuted",
    "c41_one_sample_bank_raises",
    "c41_method_and_stride",
    "c41_aligned"
   ],
   "note": "For banks whose longest delayed IR has at least two samples (one sample raises ValueError, proved). The unrestricted decimation claim is refuted with a witness."
  },
  {
   "property": "C42",
   "status": "proved",
   "theorems": [
    "c42_am",
    "c42_fm",
    "c42_duality",
    "c42_signal_error",
    "c42_modal",
    "c42_time_origin_refuted",
    "c42_node_refuted",
    "c42_constant_first_raises",
    "c42_derivatives"
   ],
   "note": "Constant frequencies and phases for the FM/duality parts (the property's scope); refuted through zeros of the modulus and for time axes not starting at zero."
  },
  {
   "property": "C43",
   "status": "proved",
   "theorems": [
    "c43_sorted",
    "c43_idempotent",
    "c43_ties_refuted",
    "c43_energy"
   ],
   "note": "Idempotence on ties in descending order is refuted with a witness."
  },
  {
   "property": "C44",
   "status": "proved",
   "theorems": [
    "c44_choice",
    "c44_hypotheses",
    "c44_frequency_decides"
   ],
   "note": ""
  },
  {
   "property": "C45",
   "status": "proved",
   "theorems": [
    "c45_strict",
    "c45_feasible",
    "c45_constant_frequency_raises"
   ],
   "note": "The numerical estimators (linear regression, autocorrelogram, phase) are arbitrary real parameters."
  },
  {
   "property": "C46",
   "status": "proved",
   "theorems": [
    "c46_feasible",
    "c46_slope",
    "c46_short_raises",
    "c46_hinge_function"
   ],
   "note": ""
  },
  {
   "property": "C47",
   "status": "proved",
   "theorems": [
    "c47_distance",
    "c47_triangle",
    "c47_triangle_refuted",
    "c47_values",
    "c47_scale",
    "c47_broadcast",
    "c47_shape_refuted",
    "c47_unsigned_refuted",
    "c47_spectral_loss",
    "c47_equal_zero",
    "c47_loss_triangle",
    "c47_phase_refuted",
    "c47_loss_value",
    "c47_loss_default",
    "c47_multiscale",
    "c47_multiscale_raises",
    "c47_multiscale_processes",
    "c47_override",
    "c47_cochleagram"
   ],
   "note": ""
  },
  {
   "property": "C48",
   "status": "proved",
   "theorems": [
    "c48_freqs",
    "c48_freqs_zero",
    "c48_freqs_total",
    "c48_default",
    "c48_narrow_refuted",
    "c48_decays",
    "c48_noise",
    "c48_amps",
    "c48_size",
    "c48_audio",
    "c48_audio_total"
   ],
   "note": ""
  },
  {
   "property": "C49",
   "status": "proved",
   "theorems": [
    "c49_pass_through",
    "c49_power_of_two",
    "c49_deprecated",
    "c49_configuration",
    "c49_positional",
    "c49_hop_refuted",
    "c49_side_effect_refuted",
    "c49_unknown_refuted"
   ],
   "note": ""
  },
  {
   "property": "C50",
   "status": "proved",
   "theorems": [
    "c50_count",
    "c50_dimensions",
    "c50_duplicate",
    "c50_no_remap",
    "c50_clip",
    "c50_state",
    "c50_trained",
    "c50_sample_fn",
    "c50_deprecated_no_remap",
    "c50_run",
    "c50_loss",
    "c50_model_window_refuted",
    "c50_sample_kw_refuted"
   ],
   "note": ""
  },
  {
   "property": "C51",
   "status": "proved",
   "theorems": [
    "c51_bracket",
    "c51_continuous",
    "c51_same_sign"
   ],
   "note": ""
  },
  {
   "property": "C52",
   "status": "proved",
   "theorems": [
    "c52_local_maxima",
    "c52_onset_selection",
    "c52_zero_radius_raises"
   ],
   "note": "For w >= 1 and signals at least as long as the windows; w = 0 raises (proved)."
  },
  {
   "property": "C53",
   "status": "proved",
   "theorems": [
    "c53_peak",
    "c53_rms",
    "c53_range",
    "c53_out"
   ],
   "note": "Peak for arrays with a non-zero sample, range for arrays that are not constant (numpy divides by zero otherwise)."
  },
  {
   "property": "C54",
   "status": "proved",
   "theorems": [
    "c54_region",
    "c54_auto",
    "c54_typed",
    "c54_click",
    "c54_other_end_refuted",
    "c54_load_refuted",
    "c54_stale_side_refuted",
    "c54_no_onset_refuted"
   ],
   "note": ""
  },
  {
   "property": "C55",
   "status": "proved",
   "theorems": [
    "c55_positive_int",
    "c55_pow2",
    "c55_strip",
    "c55_strip_refuted",
    "c55_clip",
    "c55_fbound",
    "c55_fbound_refuted",
    "c55_windows",
    "c55_window_loop_refuted",
    "c55_window_size_refuted",
    "c55_apply",
    "c55_again",
    "c55_file"
   ],
   "note": ""
  },
  {
   "property": "C56",
   "status": "proved",
   "theorems": [
    "c56_compare",
    "c56_order",
    "c56_listed",
    "c56_directory_order",
    "c56_ties_refuted"
   ],
   "note": ""
  },
  {
   "property": "C57",
   "status": "proved",
   "theorems": [
    "c57_sine_silence",
    "c57_modal_silence_refuted"
   ],
   "note": "Sine tracker proved; the modal tracker's counterpart is refuted with a witness (c57_modal_silence_refuted)."
  },
  {
   "property": "C58",
   "status": "proved",
   "theorems": [
    "c58_onset_positions"
   ],
   "note": ""
  },
  {
   "property": "C59",
   "status": "proved",
   "theorems": [
    "c59_spectral_flux"
   ],
   "note": ""
  },
  {
   "property": "C60",
   "status": "proved",
   "theorems": [
    "c60_columns",
    "c60_error_propagates",
    "c60_resynthesis"
   ],
   "note": ""
  },
  {
   "property": "C61",
   "status": "proved",
   "theorems": [
    "c61_monotone",
    "c61_homogeneous",
    "c61_complex_additive",
    "c61_complex_homogeneous",
    "c61_size_raises"
   ],
   "note": ""
  },
  {
   "property": "C62",
   "status": "proved",
   "theorems": [
    "c62_default_kws",
    "c62_copy"
   ],
   "note": ""
  },
  {
   "property": "C63",
   "status": "proved",
   "theorems": [
    "c63_file",
    "c63_extract",
    "c63_dev_suffix_refuted"
   ],
   "note": ""
  },
  {
   "property": "C64",
   "status": "proved",
   "theorems": [
    "c64_fit",
    "c64_deprecated_refuted"
   ],
   "note": ""
  },
  {
   "property": "C65",
   "status": "proved",
   "theorems": [
    "c65_set_params",
    "c65_unknown",
    "c65_replace",
    "c65_constructor",
    "c65_atomic_refuted",
    "c65_reset_refuted"
   ],
   "note": ""
  },
  {
   "property": "C66",
   "status": "proved",
   "theorems": [
    "c66_clone",
    "c66_independent"
   ],
   "note": ""
  },
  {
   "property": "C67",
   "status": "proved",
   "theorems": [
    "c67_sample"
   ],
   "note": ""
  },
  {
   "property": "C68",
   "status": "proved",
   "theorems": [
    "c68_calls",
    "c68_bars",
    "c68_restart_refuted"
   ],
   "note": ""
  },
  {
   "property": "C69",
   "status": "proved",
   "theorems": [
    "c69_residuals",
    "c69_line",
    "c69_times",
    "c69_idempotent",
    "c69_default_times",
    "c69_shape",
    "c69_one_sample_refuted"
   ],
   "note": ""
  },
  {
   "property": "C70",
   "status": "proved",
   "theorems": [
    "c70_bins",
    "c70_inverse",
    "c70_binary64_refuted",
    "c70_number",
    "c70_zero"
   ],
   "note": ""
  },
  {
   "property": "C71",
   "status": "proved",
   "theorems": [
    "c71_periodogram",
    "c71_lpf_refuted",
    "c71_raises",
    "c71_negative_lpf_refuted"
   ],
   "note": "scipy.signal.lombscargle is any function that evaluates the frequencies one by one."
  },
  {
   "property": "C72",
   "status": "proved",
   "theorems": [
    "c72_two_sided",
    "c72_one_sided",
    "c72_padded",
    "c72_peak",
    "c72_odd_refuted"
   ],
   "note": "The inverse FFT is modelled as its defining sum."
  },
  {
   "property": "C73",
   "status": "proved",
   "theorems": [
    "c73_correlogram",
    "c73_am_frequency",
    "c73_vertex",
    "c73_values",
    "c73_params_init",
    "c73_one_sample"
   ],
   "note": "The estimate of the phase is an arbitrary function."
  },
  {
   "property": "C74",
   "status": "proved",
   "theorems": [
    "c74_resynthesis",
    "c74_fresh",
    "c74_original",
    "c74_no_audio",
    "c74_not_analysed",
    "c74_export_errors",
    "c74_stale_refuted",
    "c74_stale_region_refuted",
    "c74_one_sample_refuted"
   ],
   "note": "fit, predict, onset detection and the JSON export are arbitrary functions here (their own properties are C01-C24)."
  },
  {
   "property": "C75",
   "status": "proved",
   "theorems": [
    "c75_released",
    "c75_one_at_a_time",
    "c75_model",
    "c75_figure",
    "c75_failed",
    "c75_failed_refuted",
    "c75_build",
    "c75_no_audio"
   ],
   "note": "What the user does during the analysis is an arbitrary list of actions between the start and the end of the fit."
  },
  {
   "property": "C76",
   "status": "proved",
   "theorems": [
    "c76_mono",
    "c76_channels",
    "c76_u8_refuted",
    "c76_float_refuted",
    "c76_unreadable",
    "c76_loaded",
    "c76_names",
    "c76_failed_name_refuted"
   ],
   "note": "Integer division is exact (rational); the rounding of binary64 is not modelled here."
  },
  {
   "property": "C77",
   "status": "proved",
   "theorems": [
    "c77_reload",
    "c77_region_refuted",
    "c77_crash_refuted",
    "c77_theme",
    "c77_theme_total",
    "c77_valid"
   ],
   "note": "Times in binary64 as in C54."
  },
  {
   "property": "C78",
   "status": "proved",
   "theorems": [
    "c78_launches",
    "c78_crash_refuted"
   ],
   "note": ""
  },
  {
   "property": "C79",
   "status": "proved",
   "theorems": [
    "c79_roundtrip",
    "c79_hidden",
    "c79_untouched",
    "c79_commands",
    "c79_error",
    "c79_error_refuted",
    "c79_tag",
    "c79_stable",
    "c79_operator_refuted",
    "c79_file"
   ],
   "note": "yapf is any function from texts to texts or errors; characters are ASCII, so line ends are those of str.splitlines in ASCII."
  },
  {
   "property": "C80",
   "status": "proved",
   "theorems": [
    "c80_roles",
    "c80_two_roles_refuted",
    "c80_parse",
    "c80_label",
    "c80_spaces_refuted",
    "c80_page",
    "c80_counts",
    "c80_shown"
   ],
   "note": "Texts are ASCII; models are trees of names and submodels; the template of the page is not modelled."
  },
  {
   "property": "C81",
   "status": "proved",
   "theorems": [
    "c81_t60",
    "c81_range",
    "c81_default",
    "c81_order_one_refuted",
    "c81_ir_size",
    "c81_ir_size_total"
   ],
   "note": "Real numbers in place of floats; c81_default is for orders up to 250000 (16 doublings of the range)."
  },
  {
   "property": "C82",
   "status": "proved",
   "theorems": [
    "c82_values",
    "c82_axis",
    "c82_normalized",
    "c82_norm_refuted",
    "c82_analytic",
    "c82_analytic_normalized_refuted"
   ],
   "note": "Real numbers; the argument out of ir is not modelled (aliasing of wavefun: C31)."
  },
  {
   "property": "C83",
   "status": "proved",
   "theorems": [
    "c83_cochleagram",
    "c83_default",
    "c83_analytic_default",
    "c83_real_part",
    "c83_precomputed",
    "c83_errors",
    "c83_other_options",
    "c83_ir_with_real_bank",
    "c83_keywords",
    "c83_loss",
    "c83_loss_input_stride",
    "c83_attributes",
    "c83_no_copy",
    "c83_ir_option_refuted"
   ],
   "note": "FFT convolutions are exact sums; scipy.signal.hilbert is any function that keeps the real part."
  },
  {
   "property": "C84",
   "status": "proved",
   "theorems": [
    "c84_residual",
    "c84_on_grid",
    "c84_close",
    "c84_latest_refuted",
    "c84_errors",
    "c84_column",
    "c84_column_refuted"
   ],
   "note": "Real numbers in place of floats."
  },
  {
   "property": "C85",
   "status": "proved",
   "theorems": [
    "c85_residual",
    "c85_custom",
    "c85_arrays",
    "c85_exact",
    "c85_clip",
    "c85_ambiguous",
    "c85_clip_refuted"
   ],
   "note": "Real numbers; losses of the user are functions of pairs of samples."
  },
  {
   "property": "C86",
   "status": "proved",
   "theorems": [
    "c86_names",
    "c86_compute",
    "c86_unknown",
    "c86_constants",
    "c86_functions",
    "c86_frequencies",
    "c86_equal_decays",
    "c86_signal",
    "c86_attribute",
    "c86_predict",
    "c86_single_refuted",
    "c86_scalar_refuted",
    "c86_copy_refuted"
   ],
   "note": "Real numbers; values of a beat with exponentially decaying partials (the one the regressors make)."
  },
  {
   "property": "C87",
   "status": "proved",
   "theorems": [
    "c87_sound",
    "c87_strongest",
    "c87_none_refuted"
   ],
   "note": "Sounds of single tracks are those of C42/C86."
  },
  {
   "property": "C88",
   "status": "proved",
   "theorems": [
    "c88_hinge",
    "c88_line",
    "c88_decay",
    "c88_two_refuted",
    "c88_flat_refuted",
    "c88_short_decay_refuted"
   ],
   "note": "The optimiser is any function that returns a minimum within the bounds wherever there is one; scipy's least_squares is not modelled beyond that."
  },
  {
   "property": "C89",
   "status": "proved",
   "theorems": [
    "c89_best",
    "c89_unique",
    "c89_sinusoid",
    "c89_envelope"
   ],
   "note": "Real numbers; times with one axis."
  },
  {
   "property": "C90",
   "status": "proved",
   "theorems": [
    "c90_decays",
    "c90_wave",
    "c90_partials",
    "c90_tolerance",
    "c90_regression"
   ],
   "note": "Real numbers in place of floats, no padding; the optimiser of the hinge regression is any that finds minima (C88), the linear regression any least squares line, the phases of the spectrum arbitrary. Pipe_Agree.v proves that peaks and trackers over the reals are those of Stft_Model.v and Tracker_Model.v on rational numbers."
  },
  {
   "property": "C91",
   "status": "proved",
   "theorems": [
    "c91_modes"
   ],
   "note": "As for C90."
  },
  {
   "property": "C92",
   "status": "proved",
   "theorems": [
    "c92_tracks",
    "c92_modes",
    "c92_floor"
   ],
   "note": "Real numbers in place of floats, no padding. The least squares method for the original recording is the one for the amplified recording at lower levels: both find minima, but where a regression has several minima a solver could choose different ones."
  },
  {
   "property": "C93",
   "status": "proved",
   "theorems": [
    "c93_tracks",
    "c93_modes",
    "c93_trend",
    "c93_flat_refuted"
   ],
   "note": "Real numbers in place of floats. The least squares method at one rate is the one at the other rate in the other unit. For levels without a trend the modes do depend on the unit: c93_flat_refuted (the bounds -1 and 1 of the slope have no unit)."
  },
  {
   "property": "C94",
   "status": "proved",
   "theorems": [
    "c94_forward",
    "c94_reverse",
    "c94_succeeds",
    "c94_offset",
    "c94_reverse_offset",
    "c94_unsaved_forgets",
    "c94_unsaved_onset",
    "c94_storing_refuted",
    "c94_3d_forward",
    "c94_3d_mirrored",
    "c94_3d_refuted"
   ],
   "note": "Lines as lists of points; matplotlib itself is not modelled. c94_storing_refuted: a reverse model that does not store shows other times, which forget when the sound starts (c94_unsaved_forgets, c94_unsaved_onset). c94_3d_refuted: the three-dimensional plot of a reverse model runs backwards (c94_3d_mirrored)."
  },
  {
   "property": "C95",
   "status": "proved",
   "theorems": [
    "c95_resynthesis",
    "c95_succeeds",
    "c95_label_and_play",
    "c95_comparison",
    "c95_single_refuted",
    "c95_none",
    "c95_time_axes",
    "c95_time_axes_refuted",
    "c95_envelope",
    "c95_levels"
   ],
   "note": "Time-frequency images, colours and legends are not modelled. c95_single_refuted: a single regression raises TypeError. c95_time_axes_refuted: without transposition the time axis is labelled at the right of the figure, not at the bottom."
  },
  {
   "property": "C96",
   "status": "proved",
   "theorems": [
    "c96_complete",
    "c96_killed",
    "c96_history",
    "c96_unique",
    "c96_resumed",
    "c96_afresh",
    "c96_progress",
    "c96_saved",
    "c96_lost_refuted",
    "c96_torn_results_refuted",
    "c96_torn_checkpoint_refuted",
    "c96_stale_refuted",
    "c96_checkpoint_errors"
   ],
   "note": "The file system and the CSV format are modelled as contents per name; a kill while writing leaves any prefix or an unreadable file. c96_lost_refuted, c96_torn_results_refuted, c96_torn_checkpoint_refuted, c96_stale_refuted: see findings."
  },
  {
   "property": "C97",
   "status": "proved",
   "theorems": [
    "c97_grid",
    "c97_grid_increasing",
    "c97_grid_one",
    "c97_run",
    "c97_complete",
    "c97_no_samples",
    "c97_times",
    "c97_speedup",
    "c97_faster",
    "c97_finished",
    "c97_missing",
    "c97_outside",
    "c97_larger_refuted",
    "c97_smaller_refuted",
    "c97_colours",
    "c97_ticks",
    "c97_stride_ticks",
    "c97_stride_places"
   ],
   "note": "Timing itself, rounding and drawing are not modelled; KeyboardInterrupt is taken between the extensions of columns. c97_larger_refuted, c97_smaller_refuted: resuming a file with another grid."
  },
  {
   "property": "C98",
   "status": "proved",
   "theorems": [
    "c98_splitext",
    "c98_named",
    "c98_out_name",
    "c98_out_name_new",
    "c98_load",
    "c98_mono",
    "c98_uint8_refuted",
    "c98_crop_given",
    "c98_crop_start",
    "c98_crop_end",
    "c98_crop_end_refuted",
    "c98_crop_longest",
    "c98_crop",
    "c98_resynth",
    "c98_resynth_empty",
    "c98_progress"
   ],
   "note": "Rounding of samples and the WAV format are not modelled; onsets are any increasing positions (the detection itself has its own properties). c98_uint8_refuted, c98_crop_end_refuted: see findings."
  },
  {
   "property": "C99",
   "status": "proved",
   "theorems": [
    "c99_cos_ft",
    "c99_beat_ft",
    "c99_transform_unique",
    "c99_signal_ft",
    "c99_fft_curve_refuted",
    "c99_extrema",
    "c99_zerox",
    "c99_empty",
    "c99_alternate",
    "c99_crossings",
    "c99_plateau_refuted",
    "c99_zerox_times",
    "c99_select",
    "c99_register",
    "c99_subplots",
    "c99_share_refuted",
    "c99_resaturate",
    "c99_oversaturated"
   ],
   "note": "matplotlib's rgb_to_hsv and hsv_to_rgb are modelled from their documentation and source; drawing and rounding are not. c99_fft_curve_refuted, c99_plateau_refuted, c99_share_refuted, c99_oversaturated: see findings."
  },
  {
   "property": "C100",
   "status": "proved",
   "theorems": [
    "c100_modes",
    "c100_folders",
    "c100_plain_output_refuted",
    "c100_logged",
    "c100_raised",
    "c100_generator_error",
    "c100_select",
    "c100_no_tracks",
    "c100_select_refuted",
    "c100_samples",
    "c100_onset",
    "c100_onset_refuted",
    "c100_decision",
    "c100_gap_refuted",
    "c100_decisions",
    "c100_fft_one",
    "c100_fft_two",
    "c100_fft_loudest_refuted",
    "c100_residual",
    "c100_gain",
    "c100_exact",
    "c100_tie_refuted",
    "c100_columns",
    "c100_rank",
    "c100_rank_stale_refuted",
    "c100_frequentist",
    "c100_distance_refuted",
    "c100_bayesian",
    "c100_table",
    "c100_comparison",
    "c100_confusion",
    "c100_labels",
    "c100_importances",
    "c100_importances_refuted",
    "c100_importances_stale_refuted",
    "c100_posterior",
    "c100_probabilities",
    "c100_posterior_refuted",
    "c100_fft_report",
    "c100_fft_report_refuted"
   ],
   "note": "autorank, scikit-learn and matplotlib are arbitrary functions; the generator of test sounds is C48, runs and checkpoints are C96. Refuted parts (c100_plain_output_refuted, c100_select_refuted, c100_onset_refuted, c100_gap_refuted, c100_fft_loudest_refuted, c100_tie_refuted, c100_rank_stale_refuted, c100_distance_refuted, c100_importances_refuted, c100_importances_stale_refuted, c100_posterior_refuted, c100_fft_report_refuted): see findings."
  },
  {
   "property": "C101",
   "status": "proved",
   "theorems": [
    "c101_shared",
    "c101_root_refuted",
    "c101_properties",
    "c101_inherited",
    "c101_children",
    "c101_color",
    "c101_responsive",
    "c101_classes",
    "c101_attribute",
    "c101_grid",
    "c101_grid_refuted",
    "c101_reset",
    "c101_reset_refuted",
    "c101_buttons_refuted",
    "c101_axes",
    "c101_title",
    "c101_toolbar",
    "c101_paths",
    "c101_home",
    "c101_saved",
    "c101_lost_refuted",
    "c101_theme",
    "c101_theme_refuted"
   ],
   "note": "tkinter, JSON and the file system below it are idealised (no permissions, no links). Refuted parts (c101_root_refuted, c101_grid_refuted, c101_reset_refuted, c101_buttons_refuted, c101_lost_refuted, c101_theme_refuted): see findings."
  },
  {
   "property": "C102",
   "status": "proved",
   "theorems": [
    "c102_restored",
    "c102_toggle",
    "c102_filter",
    "c102_ignored",
    "c102_mock",
    "c102_mock_missing",
    "c102_try",
    "c102_bool",
    "c102_operators",
    "c102_time",
    "c102_channels",
    "c102_tf",
    "c102_width_refuted",
    "c102_db"
   ],
   "note": "Warnings are decided by class only (no messages, modules or registries of warnings already shown); real numbers instead of floats. Refuted part (c102_width_refuted): see findings."
  },
  {
   "property": "C103",
   "status": "proved",
   "theorems": [
    "c103_windows",
    "c103_frame",
    "c103_tracks"
   ],
   "note": "Real numbers instead of floats, window as long as the transform (no zero padding), sinusoids listed in ascending order of bins. The windows are given by their formula (scipy's code is not modelled)."
  },
  {
   "property": "C104",
   "status": "proved",
   "theorems": [
    "c104_set_params",
    "c104_constructor",
    "c104_trained",
    "c104_tuning",
    "c104_safe_sine_len_refuted",
    "c104_fixed_overlap_refuted"
   ],
   "note": "Distinct meanings: a setting given by both of its names is not covered (C28 says which wins in one call). safe_sine_len and sine_tracker_cls are converted, not renamed, and are not covered by the general theorems; c104_safe_sine_len_refuted says what the former does. In c104_trained n, w and h of the transform are given by new names, or not at all."
  },
  {
   "property": "C105",
   "status": "proved",
   "theorems": [
    "c105_active_bounded",
    "c105_sine_samples_are_peaks",
    "c105_modal_samples_are_peaks",
    "c105_active_contiguous",
    "c105_merge_conserves",
    "c105_reported_iff_long",
    "c105_greedy_matching",
    "c105_nearest_up_to_rounding",
    "c105_nan_ends_all_tracks",
    "c105_decimal_duration_refuted"
   ],
   "note": "The same functions as in Tracker_Model.v with open arithmetic, instantiated with Flocq's binary64. np.mean, np.nanmean and LinearRegression are parameters of the modal tracker. c105_nan_ends_all_tracks is about the trackers by themselves: it says what one NaN frequency does, not that an analysis produces one."
  },
  {
   "property": "C106",
   "status": "proved",
   "theorems": [
    "c106_detected",
    "c106_detected_apart",
    "c106_interpolated",
    "c106_above_threshold",
    "c106_accurate",
    "c106_vertex",
    "c106_frequencies",
    "c106_frequency_values",
    "c106_tracks",
    "c106_flat_refuted",
    "c106_infinite_refuted"
   ],
   "note": "numpy's element-wise operations and arr_interp are modelled by Flocq's correctly rounded binary64 operations. c106_flat_refuted shows why the accuracy of the vertex needs a second difference that is not tiny; c106_infinite_refuted what a -inf magnitude would do (transforms do not produce it)."
  },
  {
   "property": "C107",
   "status": "proved",
   "theorems": [
    "c107_times",
    "c107_times_ordered",
    "c107_hinge",
    "c107_order_refuted"
   ],
   "note": "c107_order_refuted shows why the sizes are bounded (a window of 2^60 samples). The exact counterparts are C18 and C88."
  },
  {
   "property": "C108",
   "status": "proved",
   "theorems": [
    "c108_crossing",
    "c108_raises",
    "c108_underflow_refuted",
    "c108_overflow_refuted"
   ],
   "note": "The function is assumed not to raise and to return the same value each time. c108_underflow_refuted: equal signs with a tiny product are not noticed; c108_overflow_refuted: why the ends are bounded."
  },
  {
   "property": "C109",
   "status": "proved",
   "theorems": [
    "c109_decay",
    "c109_modal",
    "c109_phase",
    "c109_envelope_real",
    "c109_envelope",
    "c109_frequency",
    "c109_audio",
    "c109_silence",
    "c109_modal_silence",
    "c109_audio_finite_refuted",
    "c109_integral",
    "c109_start",
    "c109_sound"
   ],
   "note": "cos, sin, arctan2 and exp of numpy are arguments with stated ranges (good_trig, accurate, accurate_sin, accurate_atan2, accurate_exp); c109_trig_example and c109_sound_trig_example show that such functions exist. c109_audio_finite_refuted: audio of finite partials is not always finite. The exact counterparts are C41 to C46."
  },
  {
   "property": "C110",
   "status": "proved",
   "theorems": [
    "c110_bounded",
    "c110_accuracy",
    "c110_modes",
    "c110_zero_decay"
   ],
   "note": "cos and exp of numpy are arguments with stated ranges (good_trig, accurate, accurate_exp); c110_trig_example shows that such functions exist. analytic=False only; the exact counterpart, with analytic=True, is C23 (Sample_Model). Lists of one element are not broadcast against longer ones, as in Sample_Model."
  },
  {
   "property": "C111",
   "status": "proved",
   "theorems": [
    "c111_exclusive",
    "c111_alone",
    "c111_load",
    "c111_close",
    "c111_monotone",
    "c111_progress",
    "c111_bounded",
    "c111_returns",
    "c111_stuck",
    "c111_deadlock_refuted",
    "c111_closed_music_refuted"
   ],
   "note": "Every interleaving is an execution of the model; the operations on pygame are atomic. What pygame does is a small model (mix_op), in two versions (auto). close_pygame called by the main script when the window closes (sample/widgets/main.py line 42), without the lock, is not modelled; neither is what pygame's own playback thread does."
  },
  {
   "property": "C112",
   "status": "proved",
   "theorems": [
    "c112_peak",
    "c112_peak_special",
    "c112_range",
    "c112_range_constant",
    "c112_range_overflow_refuted",
    "c112_mean",
    "c112_rms",
    "c112_rms_constant_refuted"
   ],
   "note": "numpy's sum is an argument: any function whose results can be obtained by adding in some order (summer; ex_summer shows one). out is a new array: normalization in place is not modelled."
  },
  {
   "property": "C113",
   "status": "proved",
   "theorems": [
    "c113_exact",
    "c113_same",
    "c113_default",
    "c113_symmetric",
    "c113_nan",
    "c113_almost_refuted"
   ],
   "note": "c113_almost_refuted is the finding that the tolerance has no effect at audible frequencies."
  },
  {
   "property": "C114",
   "status": "proved",
   "theorems": [
    "c114_filter",
    "c114_nan",
    "c114_restart",
    "c114_rising",
    "c114_test",
    "c114_constant_refuted"
   ],
   "note": "Real-number spec: onset_g of Dsp_Model. c114_constant_refuted is a finding. Arrays of one dimension; out is another array."
  },
  {
   "property": "C115",
   "status": "proved",
   "theorems": [
    "c115_convolution",
    "c115_uniform",
    "c115_short",
    "c115_complex"
   ],
   "note": "BLAS is the relation dot of Synth_Model. out=None; x and the kernel are doubles of one dimension."
  },
  {
   "property": "C116",
   "status": "proved",
   "theorems": [
    "c116_local_maxima",
    "c116_selection",
    "c116_maxima",
    "c116_nan"
   ],
   "note": "numpy's sum is an argument; c116_nan needs that it adds in some order (summer). Accuracy of the parts: C112, C114."
  },
  {
   "property": "C117",
   "status": "proved",
   "theorems": [
    "c117_flux",
    "c117_index",
    "c117_index_refuted",
    "c117_positions",
    "c117_silent",
    "c117_quiet"
   ],
   "note": "Moduli are inputs (np.abs of complex numbers is not modelled in binary64); products of 2^63 or more, which wrap around, are not modelled."
  },
  {
   "property": "C118",
   "status": "proved",
   "theorems": [
    "c118_side",
    "c118_beat",
    "c118_beat_refuted",
    "c118_decays",
    "c118_amps",
    "c118_samples",
    "c118_duration",
    "c118_duration_refuted",
    "c118_default"
   ],
   "note": "Numbers drawn and amplitudes converted from decibels are inputs; conversions to and from Bark are not part of this model in binary64 (over the reals: C48)."
  },
  {
   "property": "C119",
   "status": "proved",
   "theorems": [
    "c119_erb",
    "c119_erb_linear",
    "c119_bark",
    "c119_hz",
    "c119_roundtrip",
    "c119_decreasing_refuted"
   ],
   "note": "One number instead of an array; scales that need logarithms, exponentials or arcsinh (Mel, Cams, Schroeder and Wang Bark) are only over the reals (C33 and others)."
  },
  {
   "property": "C120",
   "status": "proved",
   "theorems": [
    "c120_distance",
    "c120_symmetric",
    "c120_nan",
    "c120_triangle",
    "c120_triangle_refuted",
    "c120_lengths",
    "c120_symmetric_refuted"
   ],
   "note": "Exponents other than 1 and arrays of integers are not modelled in binary64 (over the reals, all exponents: C47)."
  },
  {
   "property": "C121",
   "status": "proved",
   "theorems": [
    "c121_call",
    "c121_plain",
    "c121_names",
    "c121_derived",
    "c121_call_refuted"
   ],
   "note": "Arguments are one value; classes derived from these ones that define their own methods are not modelled."
  },
  {
   "property": "C122",
   "status": "proved",
   "theorems": [
    "c122_semisum",
    "c122_semidiff",
    "c122_semidiff_refuted",
    "c122_back",
    "c122_back_refuted",
    "c122_overflow_refuted"
   ],
   "note": "One number instead of an array; shapes of arrays are modelled in Beat_Model.v."
  }
 ]
}