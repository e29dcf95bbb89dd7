{
 "claims": [
  {
   "property": "C01",
   "status": "proved",
   "theorems": [
    "C01_qam_roundtrip",
    "C01_psk_roundtrip",
    "C01_17_bits_refuted"
   ],
   "note": "Proved for 1..16 bits per symbol, as the property is quantified; the refutation shows that the bound is needed (indices are stored in 16 bits)."
  },
  {
   "property": "C02",
   "status": "proved",
   "theorems": [
    "C02_bin2gray_bijection",
    "C02_bin2gray_adjacent",
    "C02_qam_labelling"
   ],
   "note": ""
  },
  {
   "property": "C03",
   "status": "proved",
   "theorems": [
    "C03_square_neighbours_gray",
    "C03_cross_refuted"
   ],
   "note": "Square QAM of every order; the cross counterexample stated in the property is 32-QAM, labels 0 and 12."
  },
  {
   "property": "C04",
   "status": "proved",
   "theorems": [
    "C04_psk_circular_gray"
   ],
   "note": ""
  },
  {
   "property": "C05",
   "status": "proved",
   "theorems": [
    "C05_square_alphabet",
    "C05_unit_power",
    "C05_minimum_distance"
   ],
   "note": "Power, mean and minimum distance are proved for all orders, square and cross."
  },
  {
   "property": "C06",
   "status": "proved",
   "theorems": [
    "C06_cross_alphabet"
   ],
   "note": ""
  },
  {
   "property": "C07",
   "status": "proved",
   "theorems": [
    "C07_qam_bitmap",
    "C07_psk_bitmap"
   ],
   "note": ""
  },
  {
   "property": "C08",
   "status": "proved",
   "theorems": [
    "C08_recurrence",
    "C08_default_seed"
   ],
   "note": "The register is observed as the window of `order` bits of seed bits followed by outputs."
  },
  {
   "property": "C09",
   "status": "proved",
   "theorems": [
    "C09_maximal_period",
    "C09_zero_seed"
   ],
   "note": "All four orders; primality of 2^31-1 and the matrix powers are computed inside the kernel (vm_compute)."
  },
  {
   "property": "C10",
   "status": "partial",
   "theorems": [
    "C10_given_rows_partial",
    "C10_first_row_partial",
    "C10_given_order_ignored_refuted",
    "C10_constant_refuted",
    "C10_default_seeds_refuted"
   ],
   "note": "The property is false of the code: given orders after the first are ignored when the list is short, a drawn seed may be 0, a short seed list raises."
  },
  {
   "property": "C11",
   "status": "partial",
   "theorems": [
    "C11_always_raises_refuted",
    "C11_prbs_int_partial"
   ],
   "note": "The property is false of the code: the wrapper passes three of four arguments and always raises TypeError. The underlying register is proved when called correctly."
  },
  {
   "property": "C12",
   "status": "partial",
   "theorems": [
    "C12_extend_partial",
    "C12_truncate_partial",
    "C12_none_partial",
    "C12_multiple_offset_refuted",
    "C12_truncate_offset_refuted"
   ],
   "note": "The property is false of the code: data[-0:] is the whole array, so an offset that is a positive multiple of the length gives too long a result; truncate ignores the offset. The exact condition for equal lengths is proved."
  },
  {
   "property": "C13",
   "status": "partial",
   "theorems": [
    "C13_adjust_tx_partial",
    "C13_adjust_rx_partial",
    "C13_succeeds",
    "C13_recovers_periodic",
    "C13_equal_length_refuted"
   ],
   "note": "The property is false of the code only in the length for the offsets of C12; content, unchanged partner and exact length condition are proved, and recovery of a delayed turned periodic copy."
  },
  {
   "property": "C14",
   "status": "proved",
   "theorems": [
    "C14_first_maximum",
    "C14_recovers_position",
    "C14_recovers_position_energy"
   ],
   "note": ""
  },
  {
   "property": "C15",
   "status": "proved",
   "theorems": [
    "C15_rotation",
    "C15_empty",
    "C15_recovers"
   ],
   "note": ""
  },
  {
   "property": "C16",
   "status": "proved",
   "theorems": [
    "C16_one_to_one",
    "C16_too_many_modes",
    "C16_succeeds"
   ],
   "note": ""
  },
  {
   "property": "C17",
   "status": "partial",
   "theorems": [
    "C17_synced_partial",
    "C17_extra_modes_refuted"
   ],
   "note": "The property is false of the code when there are more received than transmitted modes: the extra received modes are dropped."
  },
  {
   "property": "C18",
   "status": "partial",
   "theorems": [
    "C18_rx2tx_partial",
    "C18_tx2rx_partial",
    "C18_error_partial",
    "C18_empty_window_refuted"
   ],
   "note": "The property is false of the code: beyond the end of rx the window is empty and is found at 0; the error raised is DataSyncError, not ValueError. One byte per element."
  },
  {
   "property": "C19",
   "status": "partial",
   "theorems": [
    "C19_byte_elements_partial",
    "C19_never_missed_partial",
    "C19_misaligned_refuted"
   ],
   "note": "The property is false of the code for elements of several bytes: a match across element boundaries is reported."
  },
  {
   "property": "C28",
   "status": "proved",
   "theorems": [
    "C28_partition"
   ],
   "note": ""
  },
  {
   "property": "C29",
   "status": "proved",
   "theorems": [
    "C29_inverse"
   ],
   "note": "Pilots repeated in every frame (see C31)."
  },
  {
   "property": "C30",
   "status": "partial",
   "theorems": [
    "C30_pilots_partial",
    "C30_pilots_reject_partial",
    "C30_single_frame_partial",
    "C30_get_data_refuted",
    "C30_cal_gmi_refuted",
    "C30_signals_exist"
   ],
   "note": "The property is false of the code: get_data(frames) sizes its mask by the largest frame number, so any frame number above 0 raises and frame 0 works only for one-frame signals; cal_gmi with default frames raises on every multi-frame signal. extract_pilots is right."
  },
  {
   "property": "C31",
   "status": "partial",
   "theorems": [
    "C31_repeated_partial",
    "C31_non_repeated_pilots_refuted"
   ],
   "note": "The property is false of the code: repeat_pilots=False with two or more frames and pilots always raises ValueError."
  },
  {
   "property": "C32",
   "status": "partial",
   "theorems": [
    "C32_regular_partial",
    "C32_whole_frame_partial",
    "C32_generated_pilots_refuted",
    "C32_data_first_refuted",
    "C32_get_data_refuted"
   ],
   "note": "The property is false of the code for an explicit pilot_idx: the index attributes are integers there and count_nonzero does not count index 0."
  },
  {
   "property": "C33",
   "status": "partial",
   "theorems": [
    "C33_no_memory_partial",
    "C33_repeated_call_refuted",
    "C33_stale_order_refuted"
   ],
   "note": "The property is false of the code: M passed as keyword is stored in the mutable default of payload_kwargs."
  },
  {
   "property": "C45",
   "status": "partial",
   "theorems": [
    "C45_segment_partial",
    "C45_invalid",
    "C45_counts",
    "C45_wrap_refuted"
   ],
   "note": "The property is false of the code for end='wrap' with a frame longer than twice the array (ValueError instead of a cyclic continuation); an empty array trips an internal assertion."
  },
  {
   "property": "C46",
   "status": "partial",
   "theorems": [
    "C46_window_partial",
    "C46_bounds_refuted"
   ],
   "note": "The property is false of the code: with wrap=True and size > len+1 the strided view reaches outside the buffer."
  },
  {
   "property": "C47",
   "status": "proved",
   "theorems": [
    "C47_moving_average"
   ],
   "note": ""
  },
  {
   "property": "C72",
   "status": "partial",
   "theorems": [
    "C72_dump_partial",
    "C72_zero_refuted"
   ],
   "note": "The property is false of the code for N=0, where everything is dropped."
  },
  {
   "property": "C73",
   "status": "partial",
   "theorems": [
    "C73_marks_partial",
    "C73_oversampling_refuted"
   ],
   "note": "The property is false of the code: the marks are right only for two samples per symbol."
  },
  {
   "property": "C74",
   "status": "partial",
   "theorems": [
    "C74_patterns_partial",
    "C74_injective",
    "C74_table_partial",
    "C74_memory_refuted"
   ],
   "note": "The property is false of the code for memories longer than the sequence + 1 (windows reach outside the buffer). cal_lut with real patterns; alphabets with at most as many Q levels as I levels (all of the library's own)."
  },
  {
   "property": "C76",
   "status": "partial",
   "theorems": [
    "C76_replies_partial",
    "C76_at_most_one",
    "C76_reply_refuted"
   ],
   "note": "The property is false of the code: an error text outside ascii, an unpackable result or a malformed request ends the worker without a reply. The module cannot be imported at all (it imports blindphasesearch, which core.phaserecovery does not define); the model leaves that import out."
  },
  {
   "property": "C20",
   "status": "proved",
   "theorems": [
    "C20_make_decision",
    "C20_empty_alphabet",
    "C20_signal"
   ],
   "note": "All alphabets and samples; the method of the signal classes for the library mappings with at most 16 bits (uint16 index)."
  },
  {
   "property": "C21",
   "status": "partial",
   "theorems": [
    "C21_det_symbol_partial",
    "C21_far_sample_refuted"
   ],
   "note": "The property is false of the code: det_symbol starts from distance 1000 and symbol 1, so samples further than sqrt(1000) from every symbol give the non-symbol 1 (pythran_dsp: an unbound variable). Proved: if some symbol is nearer, all three helpers return the nearest one, first on ties; det_symbol_argmin returns the distance, the others its square."
  },
  {
   "property": "C22",
   "status": "proved",
   "theorems": [
    "C22_rates"
   ],
   "note": "For every mapping of the library with at most 16 bits and whatever synchronisation returns, provided the compared arrays are rectangular of equal shape and the reference consists of symbols."
  },
  {
   "property": "C23",
   "status": "proved",
   "theorems": [
    "C23_small_noise"
   ],
   "note": "Same setting as C22."
  },
  {
   "property": "C24",
   "status": "partial",
   "theorems": [
    "C24_signal_evm_partial",
    "C24_blind_partial",
    "C24_scaled_refuted",
    "C24_blind_refuted"
   ],
   "note": "True of the cal_evm method of the signal classes (both theorems). The property is false of core.signal_quality.cal_evm, which rescales both arguments by an estimated signal power: a doubled QPSK signal has EVM 0, and a 16-QAM point equal to its reference has a positive blind EVM."
  },
  {
   "property": "C25",
   "status": "partial",
   "theorems": [
    "C25_estimate_partial",
    "C25_signal_partial",
    "C25_unused_symbol_refuted"
   ],
   "note": "The property is false of the code if a symbol of the alphabet does not occur in the reference: the mean over an empty selection is NaN. Proved if every symbol occurs."
  },
  {
   "property": "C26",
   "status": "proved",
   "theorems": [
    "C26_gmi",
    "C26_gmi_defined",
    "C26_mi",
    "C26_mi_defined",
    "C26_mi_mc",
    "C26_gmi_mc"
   ],
   "note": ""
  },
  {
   "property": "C27",
   "status": "proved",
   "theorems": [
    "C27_soft_demapper"
   ],
   "note": "Strict sign if all nearest symbols agree in the bit; weak sign on ties."
  },
  {
   "property": "C50",
   "status": "partial",
   "theorems": [
    "C50_bounded_partial",
    "C50_bounded_real_partial",
    "C50_sequential_partial",
    "C50_sequential_real_partial",
    "C50_race_refuted"
   ],
   "note": "The property is false of the code with two or more modes: the OpenMP threads share the step size without synchronisation, so it can go back up. Proved: in every interleaving it stays positive and below its initial value; without threads it never increases. Threads are modelled by sequentially consistent interleavings."
  },
  {
   "property": "C51",
   "status": "proved",
   "theorems": [
    "C51_training_windows",
    "C51_default_length",
    "C51_length"
   ],
   "note": "First theorem: complete default calls of eleven methods never fail, in any interleaving of the modes (mcma needs at least 4 symbols); second: windows of every prepared call with default length."
  },
  {
   "property": "C52",
   "status": "partial",
   "theorems": [
    "C52_fixed_step_partial",
    "C52_fixed_step_real_partial",
    "C52_fixed_step_fails_alone_partial",
    "C52_unselected_modes_partial",
    "C52_adaptive_refuted"
   ],
   "note": "The property is false of the code for an adaptive step size, which is shared by the modes. Proved for a fixed step size and every interleaving; unselected modes are untouched also with an adaptive one."
  },
  {
   "property": "C53",
   "status": "partial",
   "theorems": [
    "C53_filter_partial",
    "C53_filter_real_partial",
    "C53_numpy_partial",
    "C53_linear_partial",
    "C53_linear_taps_partial",
    "C53_delta_partial",
    "C53_counts_refuted"
   ],
   "note": "The property is false of the code in the number of symbols: the compiled version returns (l-ntaps+1)//os, the numpy version 1+(l-ntaps)//os. Everything else is proved."
  },
  {
   "property": "C54",
   "status": "partial",
   "theorems": [
    "C54_rde",
    "C54_mrde_partial",
    "C54_mrde_8qam_refuted",
    "C54_mrde_bpsk_refuted"
   ],
   "note": "True of rde for all alphabets. The property is false of mrde for 8-QAM (code books of different length are broadcast: wrong code or index out of range) and BPSK (nan)."
  },
  {
   "property": "C55",
   "status": "partial",
   "theorems": [
    "C55_decision_zero",
    "C55_decision_zero_real",
    "C55_data_zero",
    "C55_cma_target",
    "C55_mcma_target",
    "C55_cma_real_target",
    "C55_cma_real_8qam_refuted",
    "C55_cma_zero",
    "C55_cma_zero_real",
    "C55_rde_zero",
    "C55_names_cma_partial",
    "C55_names_decision_partial",
    "C55_names_data_partial",
    "C55_names_real_partial",
    "C55_names_unknown",
    "C55_sgncma_refuted"
   ],
   "note": "The property is false of the code: method 'sgncma' runs cma_error. Also found: the real-valued CMA uses the target of the real parts for the imaginary parts, wrong for 8-QAM. All other names select their error."
  },
  {
   "property": "C56",
   "status": "proved",
   "theorems": [
    "C56_roundtrip",
    "C56_split",
    "C56_join",
    "C56_references",
    "C56_reference_row",
    "C56_generated"
   ],
   "note": ""
  },
  {
   "property": "C57",
   "status": "partial",
   "theorems": [
    "C57_references_partial",
    "C57_mixed_refuted",
    "C57_mixed_order_refuted"
   ],
   "note": "The property is false of the code if exactly one of the methods is data-aided and the first one is not blind: the references of the last method are used in both stages."
  },
  {
   "property": "C78",
   "status": "partial",
   "theorems": [
    "C78_equalise",
    "C78_equalise_real",
    "C78_dual_partial",
    "C78_dual_real_partial",
    "C78_dual_real_modes_refuted"
   ],
   "note": "True of equalise_signal. The property is false of dual_mode_equalisation with real-valued methods and given modes: the modes are not doubled when the taps are applied, for one polarisation the result is empty."
  },
  {
   "property": "C79",
   "status": "proved",
   "theorems": [
    "C79_step",
    "C79_step_real",
    "C79_dd",
    "C79_cma"
   ],
   "note": ""
  },
  {
   "property": "C38",
   "status": "partial",
   "theorems": [
    "C38_const_partial",
    "C38_line_partial",
    "C38_find_partial",
    "C38_correct_partial",
    "C38_refuted"
   ],
   "note": "The property is false of the code for several frames when the leading pilots are not used: the stored references of all frames are cut only once (see C39). True for one frame, and for all cases in which the references stay in step."
  },
  {
   "property": "C39",
   "status": "partial",
   "theorems": [
    "C39_partial",
    "C39_constructor_partial",
    "C39_refuted",
    "C39_blocks_refuted"
   ],
   "note": "The property is false of the code: with nframes > 1 the references are out of step with the received pilots for signals of the constructor unless use_seq, and for every max_num_blocks below the number of pilots."
  },
  {
   "property": "C48",
   "status": "partial",
   "theorems": [
    "C48_python_partial",
    "C48_compiled_limits_partial",
    "C48_compiled_partial",
    "C48_agree_partial",
    "C48_refuted",
    "C48_no_window_refuted"
   ],
   "note": "The property is false of the compiled search: distances are limited to 100 and window sums to 1000. True of the Python search for N >= 1, and of the compiled one below these limits."
  },
  {
   "property": "C49",
   "status": "partial",
   "theorems": [
    "C49_bps_partial",
    "C49_comp_freq_partial",
    "C49_phase_noise_partial",
    "C49_carrier_partial",
    "C49_pilot_cpe_partial",
    "C49_refuted"
   ],
   "note": "True of bps, comp_freq_offset and the impairments. The pilot CPE keeps the moduli but not the number of samples: it returns nframes frames."
  },
  {
   "property": "C60",
   "status": "proved",
   "theorems": [
    "C60_offset_roundtrip"
   ],
   "note": ""
  },
  {
   "property": "C80",
   "status": "proved",
   "theorems": [
    "C80_bps_python",
    "C80_bps_compiled",
    "C80_costs",
    "C80_recovers"
   ],
   "note": ""
  },
  {
   "property": "C81",
   "status": "proved",
   "theorems": [
    "C81_viterbi"
   ],
   "note": ""
  },
  {
   "property": "C82",
   "status": "proved",
   "theorems": [
    "C82_pilot_foe"
   ],
   "note": ""
  },
  {
   "property": "C58",
   "status": "proved",
   "theorems": [
    "C58_rotation",
    "C58_modes"
   ],
   "note": ""
  },
  {
   "property": "C59",
   "status": "proved",
   "theorems": [
    "C59_delay",
    "C59_modes"
   ],
   "note": ""
  },
  {
   "property": "C61",
   "status": "proved",
   "theorems": [
    "C61_lossless",
    "C61_additive",
    "C61_delay",
    "C61_modes"
   ],
   "note": ""
  },
  {
   "property": "C62",
   "status": "partial",
   "theorems": [
    "C62_single_mode_partial",
    "C62_one_row_partial",
    "C62_tone_partial",
    "C62_modes_partial",
    "C62_even_partial",
    "C62_modes_refuted"
   ],
   "note": "The property is false of the code with several modes: fftshift without axes also shifts the modes, so zero dispersion exchanges two polarisations and with three modes D followed by -D does not restore the order. True for one mode; D followed by -D also for even numbers of modes."
  },
  {
   "property": "C63",
   "status": "partial",
   "theorems": [
    "C63_rounds_up_partial",
    "C63_nearest_partial",
    "C63_rescaled_partial",
    "C63_half_step_refuted",
    "C63_argument_refuted",
    "C63_peaks_refuted",
    "C63_ndarray_refuted"
   ],
   "note": "The property is false of quantize_signal (rounds up to the next level, so errors reach a full step; divides its argument in place when rescaling) and of quantize_signal_New for modes of different peaks (all modes are scaled to the largest peak) and for plain arrays (AttributeError). quantize_signal_New is right for signal objects whose modes have one common peak."
  },
  {
   "property": "C64",
   "status": "proved",
   "theorems": [
    "C64_clipper"
   ],
   "note": ""
  },
  {
   "property": "C65",
   "status": "proved",
   "theorems": [
    "C65_normalised",
    "C65_constant"
   ],
   "note": ""
  },
  {
   "property": "C67",
   "status": "partial",
   "theorems": [
    "C67_modulator",
    "C67_cascade_partial",
    "C67_cascade_refuted"
   ],
   "note": "The modulator response is proved. The second half is false of the code: comp_mod_sin does not divide by pi, so with vpi=1 or the default 1.14 the cascade is not even monotonic; it is linear for vpi=1/pi."
  },
  {
   "property": "C71",
   "status": "proved",
   "theorems": [
    "C71_lin",
    "C71_dB"
   ],
   "note": ""
  },
  {
   "property": "C75",
   "status": "partial",
   "theorems": [
    "C75_returns_partial",
    "C75_order_partial",
    "C75_dispersion_refuted"
   ],
   "note": "The property is false of the code: a requested dispersion raises NameError (D is not defined). Every combination of the other impairments returns a signal."
  },
  {
   "property": "C83",
   "status": "partial",
   "theorems": [
    "C83_rescale_partial",
    "C83_amplifier",
    "C83_mid_point",
    "C83_one_dimension_refuted"
   ],
   "note": "The property is false of rescale_signal for one-dimensional arrays (IndexError)."
  },
  {
   "property": "C84",
   "status": "partial",
   "theorems": [
    "C84_pilots_partial",
    "C84_one_dimension_refuted"
   ],
   "note": "The property is false of the code for one-dimensional arrays (IndexError although there is a branch for them)."
  },
  {
   "property": "C85",
   "status": "proved",
   "theorems": [
    "C85_noise_power"
   ],
   "note": ""
  },
  {
   "property": "C66",
   "status": "partial",
   "theorems": [
    "C66_orthogonal_partial",
    "C66_domain_partial",
    "C66_rank_refuted",
    "C66_argument_partial",
    "C66_argument_refuted"
   ],
   "note": "The property is false of the code: signals of full rank whose covariance reaches the power of the real part come back as nan, and the argument is centred in place. The exact conditions for both are proved."
  },
  {
   "property": "C68",
   "status": "partial",
   "theorems": [
    "C68_square",
    "C68_nyquist",
    "C68_width_partial",
    "C68_width_refuted",
    "C68_rolloff_refuted"
   ],
   "note": "The property is false of the code: without T the signal-object function passes the symbol rate itself as symbol period; a roll-off of zero raises ZeroDivisionError. Square and Nyquist criterion are proved for all frequencies."
  },
  {
   "property": "C69",
   "status": "proved",
   "theorems": [
    "C69_form",
    "C69_guess",
    "C69_decreasing"
   ],
   "note": ""
  },
  {
   "property": "C70",
   "status": "proved",
   "theorems": [
    "C70_levels",
    "C70_distribution",
    "C70_levels_power",
    "C70_symbols_power"
   ],
   "note": ""
  },
  {
   "property": "C86",
   "status": "partial",
   "theorems": [
    "C86_orthogonal_partial",
    "C86_domain_partial",
    "C86_equal_power_refuted",
    "C86_step"
   ],
   "note": "The property is false of the code: the imaginary part is divided by its power before orthogonalisation, so the powers differ whenever the parts are correlated; the exact ratio is proved."
  },
  {
   "property": "C87",
   "status": "partial",
   "theorems": [
    "C87_delay_partial",
    "C87_delay_refuted"
   ],
   "note": "The property is false of the code: half the sampling rate is used as sample spacing, so the delay is 2*delay/sampling_rate samples."
  },
  {
   "property": "C88",
   "status": "proved",
   "theorems": [
    "C88_no_isi",
    "C88_filter"
   ],
   "note": ""
  },
  {
   "property": "C89",
   "status": "partial",
   "theorems": [
    "C89_lowpass_partial",
    "C89_fraction_refuted",
    "C89_wide_refuted",
    "C89_wdm_refuted"
   ],
   "note": "The property is false of the code: the cut is 2n/bw bins, so every fraction removes the whole signal; pre_filter_wdm always raises NameError."
  },
  {
   "property": "C90",
   "status": "partial",
   "theorems": [
    "C90_gauss_one_partial",
    "C90_gauss_modes_partial",
    "C90_exp_one_partial",
    "C90_exp_modes_partial",
    "C90_cutoff_refuted",
    "C90_modes_refuted",
    "C90_exp_modes_refuted",
    "C90_odd_refuted"
   ],
   "note": "The property is false of the code: a tone at the cutoff loses 24 dB (gauss) or 6 dB (exp), an odd number of modes is rotated, odd lengths shift the frequency grid by half a bin."
  },
  {
   "property": "C91",
   "status": "partial",
   "theorems": [
    "C91_whole_partial",
    "C91_defined_partial",
    "C91_gain_partial",
    "C91_blocks_partial",
    "C91_fibre_refuted",
    "C91_blocks_refuted"
   ],
   "note": "The property is false of the code: sign and frequency grid are not those of add_dispersion; block lengths that are not a multiple of four raise ValueError. One block over the whole signal is all-pass and inverted by the opposite dispersion."
  },
  {
   "property": "C92",
   "status": "proved",
   "theorems": [
    "C92_ber",
    "C92_ser",
    "C92_range",
    "C92_decreasing",
    "C92_evm",
    "C92_psk",
    "C92_pam"
   ],
   "note": ""
  },
  {
   "property": "C93",
   "status": "partial",
   "theorems": [
    "C93_draw_partial",
    "C93_default_refuted"
   ],
   "note": "The property is false of the code: the default (normalize=True) raises NameError because utils is not imported."
  },
  {
   "property": "C34",
   "status": "proved",
   "theorems": [
    "C34_frames_complex",
    "C34_frames_real",
    "C34_short_signal",
    "C34_concatenation"
   ],
   "note": "Frames are taken to start at or after the first sample once the wrap by one frame is applied; _apply_to_pilotsignal changes the signal's own shift factors in place when the tap counts agree (not modelled)."
  },
  {
   "property": "C35",
   "status": "partial",
   "theorems": [
    "C35_frame_partial",
    "C35_window_partial",
    "C35_same_taps_refuted",
    "C35_negative_start_refuted",
    "C35_verbose_refuted"
   ],
   "note": "The property is false of the code: with as many taps as the synchronisation the frame number is ignored, a pilot sequence starting before the first sample trains on an empty window, and apply=False with verbose=True returns None."
  },
  {
   "property": "C36",
   "status": "proved",
   "theorems": [
    "C36_permutation_and_shifts"
   ],
   "note": "For every equaliser training and frequency offset estimator; pilot sequences not longer than a frame."
  },
  {
   "property": "C37",
   "status": "partial",
   "theorems": [
    "C37_several_modes_partial",
    "C37_one_mode_refuted",
    "C37_correct_shifts_partial"
   ],
   "note": "The property is false of the code: with one shift factor the signal is rolled in the opposite direction."
  },
  {
   "property": "C77",
   "status": "partial",
   "theorems": [
    "C77_pilot_snr_partial",
    "C77_unit_refuted",
    "C77_one_refuted"
   ],
   "note": "The property is false of the code: the estimated SNR is a ratio but cal_gmi takes decibels, so an SNR of 1 is used as 1 dB."
  },
  {
   "property": "C94",
   "status": "partial",
   "theorems": [
    "C94_two_modes_partial",
    "C94_modes_found_partial",
    "C94_three_modes_refuted"
   ],
   "note": "The property is false of the code: self[mode_alignment] applies the inverse permutation, which is wrong for cycles of three modes."
  },
  {
   "property": "C40",
   "status": "partial",
   "theorems": [
    "C40_operations_partial",
    "C40_chains_partial",
    "C40_save_load_partial",
    "C40_qam_constructor",
    "C40_symbol_only_constructor",
    "C40_tdhqam_constructor",
    "C40_pilots_constructor",
    "C40_resample_partial",
    "C40_concatenate_refuted",
    "C40_slice_drops_refuted",
    "C40_save_drops_refuted",
    "C40_tdhqam_resample_refuted",
    "C40_alias_refuted"
   ],
   "note": "The property is false of the code in corners: np.concatenate loses all attributes, _power_method of hybrid signals and seeds of bits are not in the inherited lists, hybrid signals cannot be resampled, and sig.symbols refers back to sig. Slices, arithmetic, views, copies, in-place changes and pickling in any order keep every inherited attribute."
  },
  {
   "property": "C41",
   "status": "partial",
   "theorems": [
    "C41_kept_partial",
    "C41_ratio_partial",
    "C41_ratio_refuted"
   ],
   "note": "The property is false of the code: the oversampling ratio is truncated to an integer, so any other ratio changes."
  },
  {
   "property": "C42",
   "status": "partial",
   "theorems": [
    "C42_length_partial",
    "C42_closest_partial",
    "C42_polyphase",
    "C42_own_rate",
    "C42_zero_insertion",
    "C42_almost_one_refuted",
    "C42_tiny_refuted"
   ],
   "note": "The property is false of the code: rates within 1.001e-5 of each other are taken as equal, and ratios below about 5e-7 become 0 and fail. The path through scipy.signal.resample_poly (beta=None) is an argument of the model."
  },
  {
   "property": "C43",
   "status": "partial",
   "theorems": [
    "C43_one_mode_partial",
    "C43_last_mode_partial",
    "C43_several_modes_refuted"
   ],
   "note": "The property is false of the code: with several modes only the bits of the last mode are kept."
  },
  {
   "property": "C44",
   "status": "partial",
   "theorems": [
    "C44_constructor_partial",
    "C44_fractions",
    "C44_from_arrays_partial",
    "C44_truncation_refuted",
    "C44_single_format_refuted"
   ],
   "note": "The property is false of the code: from_symbol_arrays does not truncate its inputs and fails when they do not fill whole frames, and with fr 0 or 1."
  },
  {
   "property": "C95",
   "status": "partial",
   "theorems": [
    "C95_renormalise_partial",
    "C95_no_filter_refuted"
   ],
   "note": "The property is false of the code: without beta the flag is not passed on. A constant filtered signal has no power to restore."
  },
  {
   "property": "C96",
   "status": "partial",
   "theorems": [
    "C96_full_alphabet_partial",
    "C96_corner_refuted"
   ],
   "note": "The property is false of the code: the scale comes from the distinct symbols present, so with points missing the symbols move."
  },
  {
   "property": "C97",
   "status": "partial",
   "theorems": [
    "C97_whole_symbols_partial",
    "C97_truncated_partial",
    "C97_truncated_refuted"
   ],
   "note": "The property is false of the code: bits that do not fill a symbol are not modulated but stay in the bits attribute."
  },
  {
   "property": "C98",
   "status": "proved",
   "theorems": [
    "C98_equal_distance"
   ],
   "note": "All pairs of QAM orders."
  },
  {
   "property": "C99",
   "status": "proved",
   "theorems": [
    "C99_snr",
    "C99_power",
    "C99_noise_free",
    "C99_square",
    "C99_cross"
   ],
   "note": "The moments are those of circular Gaussian noise (a hypothesis on the sample moments); without noise the SNR is a division by zero."
  },
  {
   "property": "C100",
   "status": "partial",
   "theorems": [
    "C100_blind_partial",
    "C100_blind_refuted"
   ],
   "note": "The property is false of the code: the power includes the noise, so the estimate is that of S/N + 1."
  },
  {
   "property": "C101",
   "status": "partial",
   "theorems": [
    "C101_errors_partial",
    "C101_ser_refuted"
   ],
   "note": "The property is false of the code: the default method is not accepted by make_decision, and the order M is passed as the symbols."
  },
  {
   "property": "C102",
   "status": "partial",
   "theorems": [
    "C102_grid_partial",
    "C102_near_partial",
    "C102_compensated_partial",
    "C102_alias_refuted"
   ],
   "note": "The property is false of the code beyond an eighth of the sampling rate: offsets alias modulo a quarter of it."
  },
  {
   "property": "C103",
   "status": "partial",
   "theorems": [
    "C103_python_partial",
    "C103_compiled_partial",
    "C103_near_partial",
    "C103_odd_partial",
    "C103_even_refuted"
   ],
   "note": "The property is false of the code: with an even number of offsets, as the default 4, the phase of the first stage is not among the second ones."
  },
  {
   "property": "C104",
   "status": "partial",
   "theorems": [
    "C104_rings_partial",
    "C104_noise_refuted"
   ],
   "note": "The property is false of the code: cal_s0 gets 1.32 as the order, so the outer threshold lies 0.7 per cent above the middle ring."
  },
  {
   "property": "C105",
   "status": "partial",
   "theorems": [
    "C105_rotation_partial",
    "C105_phase_partial",
    "C105_field_refuted",
    "C105_phase_refuted"
   ],
   "note": "The property is false of the code: the field is turned by the angle before division by four, all modes by that of the last one, and complex np.min compares real parts, not moduli."
  },
  {
   "property": "C106",
   "status": "partial",
   "theorems": [
    "C106_complex_partial",
    "C106_real_partial",
    "C106_real_refuted"
   ],
   "note": "The property is false of the code: for a real signal the reported ratio is half the applied one."
  },
  {
   "property": "C107",
   "status": "partial",
   "theorems": [
    "C107_off_partial",
    "C107_modes_partial",
    "C107_common_partial",
    "C107_refuted"
   ],
   "note": "The property is false of the code: every mode is scaled to its own peak."
  },
  {
   "property": "C108",
   "status": "proved",
   "theorems": [
    "C108_amplitude",
    "C108_drive",
    "C108_ideal"
   ],
   "note": "All DAC and modulator settings; the filter design is an argument."
  },
  {
   "property": "C109",
   "status": "proved",
   "theorems": [
    "C109_mmse"
   ],
   "note": "For a design without poles on the frequency grid; zero noise ratio (response zero wherever the pulse is not) gives nan."
  },
  {
   "property": "C110",
   "status": "partial",
   "theorems": [
    "C110_table_partial",
    "C110_fill_partial",
    "C110_fill_refuted",
    "C110_apply_refuted"
   ],
   "note": "The property is false of the code: beyond the table the response is the magnitude in row 320, and applying a file always raises (astype of an array)."
  },
  {
   "property": "C111",
   "status": "proved",
   "theorems": [
    "C111_cascade",
    "C111_unique",
    "C111_linear",
    "C111_causal",
    "C111_delay"
   ],
   "note": "The sections come from scipy's design and are an argument."
  },
  {
   "property": "C112",
   "status": "proved",
   "theorems": [
    "C112_balance",
    "C112_pairs"
   ],
   "note": "All four orders, all non-zero seeds."
  },
  {
   "property": "C113",
   "status": "partial",
   "theorems": [
    "C113_samples_partial",
    "C113_modes_refuted",
    "C113_default_refuted"
   ],
   "note": "The property is false of the code: three modes raise IndexError (two default seeds), and with fewer orders than modes the remaining modes get random orders and seeds, also the seed zero (a constant signal)."
  },
  {
   "property": "C114",
   "status": "partial",
   "theorems": [
    "C114_counts_partial",
    "C114_points_refuted"
   ],
   "note": "The property is false of the code: equal orders and equal shifts (the defaults) make I and Q equal, so only two points occur. Proved for shifts that differ modulo the period."
  },
  {
   "property": "C115",
   "status": "partial",
   "theorems": [
    "C115_given_alphabet",
    "C115_default_alphabet",
    "C115_single_mode",
    "C115_constructor",
    "C115_ser",
    "C115_ser_self",
    "C115_mi_refuted",
    "C115_order_refuted"
   ],
   "note": "The property is false of the code: cal_mi without snr always raises TypeError, and the constructor does not relate M to the alphabet."
  },
  {
   "property": "C116",
   "status": "partial",
   "theorems": [
    "C116_training_partial",
    "C116_moduli_partial",
    "C116_decisions_partial",
    "C116_partition_partial",
    "C116_names_refuted",
    "C116_far_refuted"
   ],
   "note": "The property is false of the code: ErrorFctRDE and ErrorFctMRDE always raise NameError, and further than sqrt(1000) from every symbol the compiled decision is 1 instead of the nearest symbol."
  },
  {
   "property": "C117",
   "status": "proved",
   "theorems": [
    "C117_cme_lattice",
    "C117_cme_odd",
    "C117_sca_zero",
    "C117_sca_quarter_turn"
   ],
   "note": "All samples and parameters."
  },
  {
   "property": "C118",
   "status": "partial",
   "theorems": [
    "C118_trace_partial",
    "C118_constant_partial",
    "C118_linear_partial",
    "C118_removal_partial",
    "C118_too_few_partial",
    "C118_polarisations_refuted",
    "C118_references_refuted",
    "C118_second_refuted"
   ],
   "note": "The property is false of the code: any number of polarisations other than two raises ValueError (reshape(2,1)), so does a shorter reference whose length is no multiple of the pilot ratio, and pilot_based_cpe2 always raises UnboundLocalError."
  },
  {
   "property": "C119",
   "status": "proved",
   "theorems": [
    "C119_remainder",
    "C119_recurrence",
    "C119_reversible",
    "C119_zero",
    "C119_maximal_period"
   ],
   "note": "Any mask; the periods reuse the order of x established for the compiled generator."
  },
  {
   "property": "C120",
   "status": "proved",
   "theorems": [
    "C120_recurrence",
    "C120_reversible",
    "C120_long_tap"
   ],
   "note": "Any register length and taps."
  },
  {
   "property": "C121",
   "status": "partial",
   "theorems": [
    "C121_one_array_partial",
    "C121_one_pair_partial",
    "C121_modes_partial",
    "C121_mode_pairs_partial",
    "C121_ports",
    "C121_missing",
    "C121_unequal_lengths",
    "C121_mixed_refuted",
    "C121_transpose_refuted"
   ],
   "note": "The property is false of the code: with several entries the format of the first is used for all (a later imaginary part is dropped, a later single name raises IndexError) and transpose is ignored."
  },
  {
   "property": "C122",
   "status": "partial",
   "theorems": [
    "C122_two_modes_partial",
    "C122_plain",
    "C122_first_mode_delayed_refuted",
    "C122_column_refuted"
   ],
   "note": "The property is false of the code: the first mode is the delayed one, and a column vector of n symbols gives 2n modes of one symbol."
  },
  {
   "property": "C123",
   "status": "partial",
   "theorems": [
    "C123_normalised",
    "C123_rows_partial",
    "C123_one_mode_delay_partial",
    "C123_wrong_number_of_delays",
    "C123_two_delays_refuted",
    "C123_rotation_refuted",
    "C123_argument_refuted"
   ],
   "note": "The property is false of the code: each delay rolls the whole flattened array, the rotation of two modes raises AttributeError, and without delays the caller's first row is overwritten. The quantisation options are not modelled."
  },
  {
   "property": "C124",
   "status": "partial",
   "theorems": [
    "C124_phase_pilots_refuted",
    "C124_hybrid_refuted",
    "C124_format_count_partial"
   ],
   "note": "The property is false of the code: the generators use names that are not imported, so no parameters give a frame."
  },
  {
   "property": "C125",
   "status": "partial",
   "theorems": [
    "C125_unitary",
    "C125_axis_zero_partial",
    "C125_energy_refuted",
    "C125_axis_refuted"
   ],
   "note": "The property is false of the code: the einsum sums the matrix over its second index instead of contracting it with the modes, so at 45 degrees a single mode is lost completely; and the product h3*H does not depend on the angle. Proved for an axis angle of zero."
  },
  {
   "property": "C126",
   "status": "partial",
   "theorems": [
    "C126_gauss",
    "C126_sech",
    "C126_ttanh",
    "C126_supergauss_partial",
    "C126_supergauss_refuted"
   ],
   "note": "The property is false of the code: supergauss of order 1/2 is larger than A left of the centre, and of order 3/4 not a number there. Proved for positive integer orders."
  },
  {
   "property": "C127",
   "status": "partial",
   "theorems": [
    "C127_even",
    "C127_nyquist_partial",
    "C127_singular_refuted"
   ],
   "note": "The property is false of the code: at T/(2 beta) the value is not a number (division by zero), for roll-offs 1/(2k) this is a multiple of the period. Proved for all other multiples."
  },
  {
   "property": "C128",
   "status": "partial",
   "theorems": [
    "C128_count",
    "C128_same",
    "C128_inverted",
    "C128_unsynchronised_refuted"
   ],
   "note": "The property is false of the code: cal_ber_nosyncd reads a variable that is never assigned and always raises."
  },
  {
   "property": "C129",
   "status": "proved",
   "theorems": [
    "C129_linspacestep",
    "C129_factorial"
   ],
   "note": "Exact real arithmetic; the recursion limit is not modelled."
  },
  {
   "property": "C130",
   "status": "partial",
   "theorems": [
    "C130_refuted"
   ],
   "note": "The property is false of the code: the true division gives reshape a float dimension, TypeError for every input."
  },
  {
   "property": "C131",
   "status": "partial",
   "theorems": [
    "C131_value_partial",
    "C131_error_partial",
    "C131_identity_refuted",
    "C131_empty_identity_refuted",
    "C131_ppworker_refuted"
   ],
   "note": "The property is false of the code: with an identity the dealer drops the reply (an empty one makes the worker fail), and PPWorker uses attributes and names that do not exist. Proved without identity. The module cannot be imported at all (it imports blindphasesearch, which core.phaserecovery does not define); the model leaves that import out."
  },
  {
   "property": "C132",
   "status": "partial",
   "theorems": [
    "C132_involution",
    "C132_energy",
    "C132_single_partial",
    "C132_product",
    "C132_determinant",
    "C132_same_refuted",
    "C132_singular_refuted"
   ],
   "note": "The property is false of the code: a minus sign is missing, the determinant is |X0|^2-|X1|^2 instead of the sum. Taps exist which are returned unchanged, and with equal rows the pair is singular at every frequency. Orthogonality is proved for a single polarisation."
  },
  {
   "property": "C133",
   "status": "proved",
   "theorems": [
    "C133_ratio",
    "C133_four"
   ],
   "note": "All orders."
  },
  {
   "property": "C134",
   "status": "partial",
   "theorems": [
    "C134_refuted"
   ],
   "note": "The property is false of the code: the name pols is not defined, so every call raises."
  },
  {
   "property": "C135",
   "status": "partial",
   "theorems": [
    "C135_mid_zero_partial",
    "C135_mid_refuted",
    "C135_one_dimension_refuted"
   ],
   "note": "The property is false of the code: a mid-position other than zero is scaled with the signal, and one-dimensional signals raise IndexError. Proved for one mode and mid-position zero."
  },
  {
   "property": "C136",
   "status": "proved",
   "theorems": [
    "C136",
    "C136_one_dimension"
   ],
   "note": "Two- and one-dimensional arrays."
  },
  {
   "property": "C137",
   "status": "proved",
   "theorems": [
    "C137"
   ],
   "note": "All mappings and signals; synced=True."
  },
  {
   "property": "C138",
   "status": "partial",
   "theorems": [
    "C138_mean_partial",
    "C138_carrier_partial",
    "C138_mode_offsets_refuted",
    "C138_second_call_refuted"
   ],
   "note": "The property is false of the code: the mean of the offsets is removed from all modes (opposite offsets are left in place), and a second call raises AttributeError. Proved for the mean offset and a first call."
  },
  {
   "property": "C139",
   "status": "partial",
   "theorems": [
    "C139_value",
    "C139_scale",
    "C139_order",
    "C139_array_refuted",
    "C139_no_power_partial"
   ],
   "note": "The property is false of the code in its last part: the array of the caller is normalised in place. Bounds and invariances are proved for all alphabets; without power everything is nan."
  },
  {
   "property": "C140",
   "status": "proved",
   "theorems": [
    "C140_bounds",
    "C140_elementwise"
   ],
   "note": "All orders; noise samples as arguments."
  },
  {
   "property": "C141",
   "status": "partial",
   "theorems": [
    "C141_refuted",
    "C141_expression_partial"
   ],
   "note": "The property is false of the code: the name theory is not defined in theory.py, so every call raises NameError. Proved for the returned expression with any BER function."
  },
  {
   "property": "C142",
   "status": "partial",
   "theorems": [
    "C142_sync",
    "C142_no_errors_partial",
    "C142_alphabet_turns",
    "C142_bpsk_refuted"
   ],
   "note": "The property is false of the code for alphabets not kept by a quarter turn: BPSK turned by a quarter has SER 1 and BER 0, since decisions are compared with turned symbols. Synchronisation is proved for all formats, zero error rates for all square and cross QAM and all PSK from 4 points on."
  },
  {
   "property": "C143",
   "status": "proved",
   "theorems": [
    "C143_sync",
    "C143_no_errors"
   ],
   "note": "For the formats kept by quarter turns (square and cross QAM, PSK from 4 points on); any disturbance within the stated margin."
  },
  {
   "property": "C144",
   "status": "proved",
   "theorems": [
    "C144_signal",
    "C144_pilots",
    "C144_error"
   ],
   "note": "Composition of the file reader and recreate_from_np_array over the object heap; the numbers of frames and rates are oracles."
  },
  {
   "property": "C145",
   "status": "partial",
   "theorems": [
    "C145_index_partial",
    "C145_python_partial",
    "C145_bps_partial",
    "C145_small_refuted"
   ],
   "note": "The property is false of the code: if no sample fits into a block (NMAX below 16 times angles times symbols) the search divides by zero. Proved for all signals longer than 2N that fit into one block, or when a block is longer than N and the number of samples modulo the block is not exactly N; in the excluded case the last block is empty and the outcome depends on how arrayfire treats empty arrays, which is modelled as an error. arrayfire calls are modelled by what they compute; conversions of number types are left out."
  }
 ]
}