{"id": "C01", "title": "Bit/symbol round trip of Gray-coded QAM", "statement": "For a Gray-coded QAM signal class with M=2^k points, demodulating the symbols produced by modulating a bit array gives back the bits: with n=floor(len(bits)/k), modulate returns exactly n symbols, all taken from coded_symbols, and demodulate(modulate(bits)) equals the first n*k bits in order (trailing len mod k bits are dropped).", "quantifier": "every k (1..16, because indices are held in 16 bits), every bit array of every length", "why_tests_cant": "tests try a handful of M and random bit strings; the claim is about all bit strings and all orders, including lengths that are not a multiple of k", "anchors": ["qampy/signals.py:SignalQAMGrayCoded._modulate", "qampy/signals.py:SignalQAMGrayCoded._demodulate", "qampy/signals.py:SignalQAMGrayCoded.make_decision", "qampy/signals.py:SignalQAMGrayCoded._generate_mapping"]}
{"id": "C02", "title": "Gray code and bit labels are bijections", "statement": "bin2gray is a bijection on [0,2^k) and consecutive codes differ in exactly one bit; the QAM labelling assigns every k-bit label to exactly one constellation point, i.e. coded_symbols is a rearrangement of the constellation without repetition or omission.", "quantifier": "every k, every constellation order M=2^k, square and cross", "why_tests_cant": "only a few M can be enumerated; the proof covers all orders", "anchors": ["qampy/core/utils.py:bin2gray", "qampy/theory.py:gray_code_qam", "qampy/signals.py:SignalQAMGrayCoded._generate_mapping"]}
{"id": "C03", "title": "Nearest neighbours of square QAM differ in one bit", "statement": "For square M-QAM any two coded_symbols at minimum distance carry labels that differ in exactly one bit. (For cross QAM the labelling is not a Gray code: there are nearest neighbours whose labels differ in more than one bit.)", "quantifier": "every square order M=4^n, every pair of neighbouring points; counterexample for cross QAM", "why_tests_cant": "number of neighbour pairs grows with M without bound", "anchors": ["qampy/theory.py:gray_code_qam", "qampy/theory.py:cal_symbols_square_qam", "qampy/theory.py:cal_symbols_cross_qam", "qampy/signals.py:SignalQAMGrayCoded._generate_mapping"]}
{"id": "C04", "title": "PSK labelling is a circular Gray code", "statement": "For M-PSK the point with label gray(i) sits at the i-th phase; labels of circularly adjacent phases (including last to first) differ in exactly one bit and every label is used once.", "quantifier": "every M=2^k, every adjacent pair", "why_tests_cant": "quantifies over all orders", "anchors": ["qampy/signals.py:SignalPSKGrayCoded._generate_mapping", "qampy/theory.py:cal_symbols_psk", "qampy/core/utils.py:bin2gray"]}
{"id": "C05", "title": "Square QAM geometry and unit power", "statement": "The square M-QAM alphabet is exactly the sqrt(M) x sqrt(M) grid of odd integers centred at 0, its M points are distinct with minimum distance 2, the scaling factor equals the mean power of the alphabet, and after division by its root the alphabet has mean power 1 and zero mean.", "quantifier": "every M=4^n", "why_tests_cant": "a closed form has to agree with a sum over an alphabet of unbounded size", "anchors": ["qampy/theory.py:cal_symbols_square_qam", "qampy/theory.py:cal_scaling_factor_qam", "qampy/signals.py:SignalQAMGrayCoded._generate_mapping"]}
{"id": "C06", "title": "Cross QAM geometry", "statement": "For an odd number of bits k>=5 the cross-QAM alphabet has M=2^k pairwise distinct odd-integer points which are exactly the points of the cross: |re|,|im| < 3*2^((k-3)/2) with the four corner squares (both coordinates above 2^((k-1)/2)) removed; for k=1 and k=3 it is the 2x1 and 4x2 rectangle.", "quantifier": "every odd k, every index", "why_tests_cant": "the folding of the rectangle into the cross is per-index branching over an unbounded grid", "anchors": ["qampy/theory.py:cal_symbols_cross_qam", "qampy/theory.py:cal_symbols_qam"]}
{"id": "C07", "title": "Bit-map matrix partitions the alphabet", "statement": "For every bit position the bit-map matrix lists exactly the M/2 symbols whose label has a 0 and exactly the M/2 symbols whose label has a 1 at this position, each once and in label order.", "quantifier": "every M=2^k, every bit position", "why_tests_cant": "all orders and positions", "anchors": ["qampy/core/signal_quality.py:generate_bitmapping_mtx", "qampy/signals.py:SignalQAMGrayCoded._generate_mapping"]}
{"id": "C08", "title": "PRBS output obeys its recurrence", "statement": "make_prbs_extXOR(order, nbits, seed) returns exactly nbits bits; from position `order` on every bit is the XOR of the bits `t1` and `t2` positions earlier given by the two taps, for an in-range seed the register always stays in [0,2^order), and a non-zero seed never reaches the all-zero register.", "quantifier": "every supported order, every seed in range, every length", "why_tests_cant": "all seeds and all lengths", "anchors": ["qampy/core/prbs.py:make_prbs_extXOR", "qampy/core/pythran_dsp.py:prbs_ext", "qampy/core/utils.py:bool2bin"]}
{"id": "C09", "title": "PRBS has maximal period", "statement": "For orders 7, 15, 23 and 31 and every non-zero in-range seed the sequence has least period exactly 2^order-1 and every non-zero order-bit window occurs exactly once per period; the zero seed gives only zeros.", "quantifier": "all four orders, all 2^order-1 seeds, unbounded length", "why_tests_cant": "a PRBS-31 period is 2^31-1 steps for each of 2^31-1 seeds", "anchors": ["qampy/core/prbs.py:make_prbs_extXOR", "qampy/core/pythran_dsp.py:prbs_ext"]}
{"id": "C10", "title": "PRBSBits uses the orders and seeds it is given", "statement": "PRBSBits(N, nmodes, seed, order) produces nmodes rows of N bits and row i is the PRBS of the i-th given order and seed; only modes for which none was given get a random one, and a randomly chosen seed never produces a constant sequence.", "quantifier": "every nmodes, every list of orders and seeds (also shorter than nmodes), every outcome of the random generator", "why_tests_cant": "depends on list lengths and the random draws", "anchors": ["qampy/signals.py:PRBSBits.__new__"]}
{"id": "C11", "title": "make_prbs_intXOR returns a sequence", "statement": "make_prbs_intXOR(order, nbits, seed) returns the nbits bits of the internal-XOR register for every supported order.", "quantifier": "every order, nbits and seed", "why_tests_cant": "the function has no test; the claim is about every argument", "anchors": ["qampy/core/prbs.py:make_prbs_intXOR", "qampy/core/pythran_dsp.py:prbs_int"]}
{"id": "C12", "title": "Length adjustment aligns and equalises lengths", "statement": "adjust_data_length(tx, rx, method, offset) returns two arrays of the same length for methods truncate and extend, where the tx part is the periodic repetition of tx delayed by offset: out[k] = tx[(k-offset) mod len(tx)].", "quantifier": "all array lengths (tx shorter, equal, longer), all offsets (negative, zero, beyond a period), all methods", "why_tests_cant": "boundary arithmetic over three integers", "anchors": ["qampy/core/ber_functions.py:adjust_data_length", "qampy/core/ber_functions.py:_adjust_to"]}
{"id": "C13", "title": "sync_and_adjust shifts periodically and equalises lengths", "statement": "sync_and_adjust returns arrays of equal length; with adjust='tx' the rx array is unchanged and the tx array is the periodic repetition of tx at the found offset; with adjust='rx' the tx array keeps its content and rx is shifted by minus the offset.", "quantifier": "all lengths and all values of the offset found by correlation", "why_tests_cant": "the offset is data dependent and every residue matters", "anchors": ["qampy/core/ber_functions.py:sync_and_adjust", "qampy/core/ber_functions.py:adjust_data_length", "qampy/core/ber_functions.py:_adjust_to"]}
{"id": "C14", "title": "Correlation offset recovers the embedding position", "statement": "find_sequence_offset(x, y) returns the lag at which |cross-correlation| is largest (the first one on ties); if y occurs in x at position p up to a unit phase and all samples have the same modulus and no other window of x is a unit-phase multiple of y, the result is exactly p.", "quantifier": "all sequences and all positions", "why_tests_cant": "a statement about all sequences needs the Cauchy-Schwarz inequality, not sampling", "anchors": ["qampy/core/ber_functions.py:find_sequence_offset"]}
{"id": "C15", "title": "Quadrant ambiguity is resolved by the complex offset search", "statement": "find_sequence_offset_complex(x, y) tries all four quadrant rotations and returns the lag, the rotated sequence and the rotation index with the largest correlation real part; it succeeds exactly when the cross-correlation is not identically zero.", "quantifier": "all complex sequences, four rotations", "why_tests_cant": "quantifies over all data", "anchors": ["qampy/core/ber_functions.py:find_sequence_offset_complex"]}
{"id": "C16", "title": "Mode assignment in synchronisation is one to one", "statement": "When a received signal is synchronised against the transmitted symbols, every received mode is paired with a different transmitted mode, the best-correlated one among those still free; the call fails if there are more received than transmitted modes.", "quantifier": "all numbers of modes, all correlation values", "why_tests_cant": "greedy selection over arbitrary correlation values", "anchors": ["qampy/signals.py:SignalBase._sync_and_adjust"]}
{"id": "C17", "title": "Synced length adjustment keeps modes and length", "statement": "With synced=True the reference symbols are cut or periodically repeated to the length of the received signal without any shift: reference[m][k] = tx[m][k mod len(tx)] for all received modes.", "quantifier": "all lengths, all mode counts", "why_tests_cant": "all length relations", "anchors": ["qampy/signals.py:SignalBase._adjust_only", "qampy/core/ber_functions.py:adjust_data_length"]}
{"id": "C18", "title": "Bit-level synchronisation lines up the marker", "statement": "sync_rx2tx(tx, rx, Lsync) rolls rx so that a length-Lsync window of rx coincides with an equal window of tx at the same position, sync_tx2rx does the same by rolling tx; if no window of rx occurs in tx both raise ValueError.", "quantifier": "all bit arrays, all marker lengths and trial limits", "why_tests_cant": "search with retries over all data", "anchors": ["qampy/core/ber_functions.py:sync_rx2tx", "qampy/core/ber_functions.py:sync_tx2rx", "qampy/core/utils.py:find_offset"]}
{"id": "C19", "title": "find_offset returns the first occurrence", "statement": "find_offset(seq, data) returns the first index at which seq occurs in data and raises ValueError exactly if it does not occur.", "quantifier": "all element sizes and all data", "why_tests_cant": "matching is done on raw bytes, misaligned matches are rare events", "anchors": ["qampy/core/utils.py:find_offset"]}
{"id": "C20", "title": "Hard decisions are nearest-neighbour decisions", "statement": "make_decision maps every received sample to an element of the alphabet at minimum distance (the first one on ties), is the identity on alphabet points and returns the matching index.", "quantifier": "all alphabets, all samples", "why_tests_cant": "continuum of inputs", "anchors": ["qampy/core/equalisation/pythran_equalisation.py:make_decision", "qampy/core/signal_quality.py:make_decision", "qampy/signals.py:SignalQAMGrayCoded.make_decision"]}
{"id": "C21", "title": "Decision helpers agree with nearest neighbour", "statement": "det_symbol returns the nearest alphabet symbol and its squared distance for every sample, as det_symbol_argmin does.", "quantifier": "all alphabets, all samples (including far outside the constellation)", "why_tests_cant": "hard-coded distance limits only matter for extreme inputs", "anchors": ["qampy/core/equalisation/pythran_equalisation.py:det_symbol", "qampy/core/equalisation/pythran_equalisation.py:det_symbol_argmin", "qampy/core/pythran_dsp.py:det_symbol"]}
{"id": "C22", "title": "SER and BER are consistent error rates", "statement": "With N compared symbols of k bits: SER and BER lie in [0,1], SER/k <= BER <= SER, each is 0 iff every decided symbol equals the transmitted one, and N*SER is the number of differing symbols.", "quantifier": "all signals and references of equal length", "why_tests_cant": "relation between two counts over all sequences", "anchors": ["qampy/signals.py:SignalBase.cal_ser", "qampy/signals.py:SignalBase.cal_ber"]}
{"id": "C23", "title": "Small disturbances cause no errors", "statement": "If every received sample is closer than half the minimum distance of the alphabet to the transmitted symbol then SER and BER are 0.", "quantifier": "all alphabets with distinct points, all bounded disturbances", "why_tests_cant": "continuum of disturbances", "anchors": ["qampy/signals.py:SignalBase.cal_ser", "qampy/core/equalisation/pythran_equalisation.py:make_decision"]}
{"id": "C24", "title": "EVM is a distance and blind EVM is a lower bound", "statement": "cal_evm is non-negative, zero iff signal and reference agree, and the blind EVM never exceeds the data-aided EVM for the same signal.", "quantifier": "all signals and references in the alphabet", "why_tests_cant": "continuum of inputs", "anchors": ["qampy/signals.py:SignalBase.cal_evm", "qampy/core/signal_quality.py:cal_evm"]}
{"id": "C25", "title": "SNR estimate splits the received power", "statement": "est_snr estimates signal power S and noise power N with S+N equal to the mean power of the received samples, N=0 iff the received samples depend only on the transmitted symbol, and returns a number for every reference sequence over the alphabet.", "quantifier": "all reference sequences (also such that do not use the full alphabet), all received values", "why_tests_cant": "law of total variance over arbitrary data; missing symbols are a corner case", "anchors": ["qampy/core/pythran_dsp.py:estimate_snr", "qampy/signals.py:SignalBase.est_snr"]}
{"id": "C26", "title": "GMI and MI never exceed the number of bits", "statement": "GMI per bit is at most 1, total GMI at most k, MI at most log2(M), for every received sequence and every SNR.", "quantifier": "all sequences, SNR values and alphabets", "why_tests_cant": "inequality over the continuum", "anchors": ["qampy/signals.py:SignalBase.cal_gmi", "qampy/core/pythran_dsp.py:cal_mi_mc", "qampy/core/pythran_dsp.py:cal_mi_mc_fast", "qampy/core/pythran_dsp.py:cal_gmi_mc", "qampy/core/signal_quality.py:cal_mi"]}
{"id": "C27", "title": "Soft demapper agrees with hard decision", "statement": "The sign of the min-max L-value of each bit equals the bit of the nearest symbol (positive for 1), and the exact L-value differs from the min-max one by at most ln(M/2).", "quantifier": "all samples (with all distances below the built-in 10000 limit), all alphabets, every bit", "why_tests_cant": "continuum of samples", "anchors": ["qampy/core/pythran_dsp.py:soft_l_value_demapper", "qampy/core/pythran_dsp.py:soft_l_value_demapper_minmax", "qampy/core/pythran_dsp.py:find_minmax"]}
{"id": "C28", "title": "Pilot and data positions partition the frame", "statement": "For frame_len, pilot_seq_len, pilot_ins_rat every symbol position is either pilot or data; the first pilot_seq_len positions and every pilot_ins_rat-th position from pilot_seq_len on are pilots; counts are seq+(len-seq)/rat pilots and the rest data; a non-integer number of sub-frames raises ValueError.", "quantifier": "all lengths and ratios, ratio 0 and None", "why_tests_cant": "index arithmetic for all parameters", "anchors": ["qampy/signals.py:SignalWithPilots._cal_pilot_idx"]}
{"id": "C29", "title": "Building a pilot frame and taking it apart are inverse", "statement": "For a noise-free SignalWithPilots of any number of frames get_data() returns the payload symbols in order and extract_pilots() returns the pilots in order, for all frames.", "quantifier": "all frame parameters, numbers of frames and modes", "why_tests_cant": "all parameters", "anchors": ["qampy/signals.py:SignalWithPilots.__new__", "qampy/signals.py:SignalWithPilots.get_data", "qampy/signals.py:SignalWithPilots.extract_pilots"]}
{"id": "C30", "title": "Selecting frames returns the payload of exactly these frames", "statement": "get_data(frames=[...]) and extract_pilots(frames=[...]) return the payload/pilots of the selected frames for any valid frame numbers and reject frame numbers outside the signal; therefore cal_ser/cal_ber/cal_gmi(frames=..) work on any frame.", "quantifier": "all frame selections, all signals", "why_tests_cant": "depends on maximum frame number and signal length", "anchors": ["qampy/signals.py:SignalWithPilots.get_data", "qampy/signals.py:SignalWithPilots.extract_pilots", "qampy/signals.py:SignalWithPilots.cal_gmi"]}
{"id": "C31", "title": "Non-repeated pilots and data can be generated", "statement": "SignalWithPilots(..., nframes=n, repeat_data=r1, repeat_pilots=r2) returns a signal of n*frame_len symbols for all n and both flags.", "quantifier": "all n, all flag combinations", "why_tests_cant": "shape consistency for all parameters", "anchors": ["qampy/signals.py:SignalWithPilots.__new__"]}
{"id": "C32", "title": "from_symbol_array places given pilots and payload", "statement": "SignalWithPilots.from_symbol_array puts the payload at the data positions and pilots at the pilot positions, both for the regular pattern and for an explicit pilot_idx list, and get_data() of the result returns the payload.", "quantifier": "all parameters and index lists", "why_tests_cant": "all index lists", "anchors": ["qampy/signals.py:SignalWithPilots.from_symbol_array", "qampy/signals.py:SignalWithPilots.get_data"]}
{"id": "C33", "title": "from_symbol_array has no memory between calls", "statement": "The result of SignalWithPilots.from_symbol_array depends only on its arguments, not on earlier calls.", "quantifier": "all histories of calls", "why_tests_cant": "needs sequences of calls; shared default arguments", "anchors": ["qampy/signals.py:SignalWithPilots.from_symbol_array"]}
{"id": "C34", "title": "Pilot signal filtering returns whole frames", "statement": "Applying equaliser taps to a frame-synchronised pilot signal returns exactly frame_len symbols per requested frame and mode, reads only existing samples, and filtering a contiguous run of frames in one go gives the concatenation of filtering each frame on its own.", "quantifier": "all tap lengths, oversampling factors, shift factors, frame lists", "why_tests_cant": "index arithmetic over many parameters", "anchors": ["qampy/equalisation.py:_apply_to_pilotsignal", "qampy/equalisation.py:apply_filter", "qampy/core/equalisation/pythran_equalisation.py:apply_filter_to_signal"]}
{"id": "C35", "title": "pilot_equaliser trains on the pilot sequence of the requested frame", "statement": "pilot_equaliser(signal, frame=f) trains on the samples that carry the pilot sequence of frame f, for all tap counts, and with apply=False returns the taps.", "quantifier": "all frames f, tap counts and sync tap counts", "why_tests_cant": "depends on relation between two tap counts", "anchors": ["qampy/equalisation.py:pilot_equaliser", "qampy/equalisation.py:pilot_equaliser_nframes"]}
{"id": "C36", "title": "Frame synchronisation yields a permutation of modes and valid shifts", "statement": "After sync2frame the mode order is a permutation of the modes and all shift factors are non-negative.", "quantifier": "all mode counts, all correlation results", "why_tests_cant": "greedy assignment over all data", "anchors": ["qampy/core/pilotbased_receiver.py:frame_sync", "qampy/signals.py:SignalWithPilots.sync2frame"]}
{"id": "C37", "title": "shift_signal compensates the frame shift for any number of modes", "statement": "shift_signal(sig, shifts) moves sample shifts[m] of mode m to position 0, for one and for several modes.", "quantifier": "all lengths, shifts and mode counts", "why_tests_cant": "the one-mode case is separate code", "anchors": ["qampy/core/pilotbased_receiver.py:shift_signal"]}
{"id": "C38", "title": "Pilot-based phase recovery removes a static and a linear phase", "statement": "For a noise-free signal rotated by a constant phase the pilot-based CPE returns the unrotated signal in all modes; find_pilot_const_phase/correct_pilot_const_phase undo a constant phase of each mode.", "quantifier": "all phases in (-pi,pi), all signals, pilot patterns and averaging lengths", "why_tests_cant": "continuum of phases and signals", "anchors": ["qampy/core/pilotbased_receiver.py:pilot_based_cpe_new", "qampy/phaserec.py:pilot_cpe", "qampy/phaserec.py:find_pilot_const_phase"]}
{"id": "C39", "title": "Phase pilots are compared with their own references in every frame", "statement": "pilot_cpe(signal, nframes=n) compares the i-th received phase pilot of every frame with the i-th transmitted phase pilot, for any n and any max_num_blocks.", "quantifier": "all frame counts, block limits, pilot ratios", "why_tests_cant": "reference alignment in later frames", "anchors": ["qampy/phaserec.py:pilot_cpe", "qampy/core/pilotbased_receiver.py:pilot_based_cpe_new"]}
{"id": "C40", "title": "Signal attributes survive every array operation and pickling", "statement": "Through any sequence of slicing, arithmetic, views, copies and pickling a signal object keeps its sampling rate, symbol rate, constellation, bits and reference symbols; saving and loading gives an object with the same attributes.", "quantifier": "all operation sequences on all signal classes", "why_tests_cant": "unbounded histories", "anchors": ["qampy/signals.py:SignalBase.__array_finalize__", "qampy/signals.py:SignalBase.__reduce__", "qampy/signals.py:SignalBase.__setstate__", "qampy/signals.py:SignalBase._copy_inherits"]}
{"id": "C41", "title": "Recreated signals have consistent rates", "statement": "recreate_from_np_array keeps all attributes that are not overridden; if only fb is overridden the oversampling ratio fs/fb is preserved.", "quantifier": "all rate ratios", "why_tests_cant": "rational ratios", "anchors": ["qampy/signals.py:SignalBase.recreate_from_np_array", "qampy/signals.py:SignalBase.os"]}
{"id": "C42", "title": "Resampling length", "statement": "Resampling by up/down (in lowest terms) returns ceil(n*up/down) samples per mode and leaves a signal at its own rate unchanged; zero insertion followed by decimation is the identity.", "quantifier": "all lengths and ratios", "why_tests_cant": "all integers", "anchors": ["qampy/core/resample.py:rrcos_resample", "qampy/core/resample.py:_resamplingfactors", "qampy/signals.py:SignalBase._resample_array"]}
{"id": "C43", "title": "from_symbol_array stores the bits of all modes", "statement": "SignalQAMGrayCoded.from_symbol_array(symbols, M).bits are the demodulated bits of every mode.", "quantifier": "all mode counts and symbols", "why_tests_cant": "shape depends on mode count", "anchors": ["qampy/signals.py:SignalQAMGrayCoded.from_symbol_array"]}
{"id": "C44", "title": "Time-domain hybrid frames interleave both constellations", "statement": "TDHQAMSymbols places in every hybrid frame f_M1 symbols of the first and f_M2 symbols of the second constellation, every position belongs to exactly one; from_symbol_arrays truncates inputs that do not fill whole frames.", "quantifier": "all fractions, lengths", "why_tests_cant": "index arithmetic", "anchors": ["qampy/signals.py:TDHQAMSymbols.__new__", "qampy/signals.py:TDHQAMSymbols._cal_symbol_idx", "qampy/signals.py:TDHQAMSymbols.from_symbol_arrays"]}
{"id": "C45", "title": "segment_axis returns the right overlapping frames", "statement": "segment_axis(a, length, overlap, end) returns the frames a[i*(length-overlap) : +length]; 'cut' drops, 'pad' fills, 'wrap' continues cyclically; invalid overlap or length raises ValueError.", "quantifier": "all lengths, overlaps, end modes", "why_tests_cant": "integer boundary cases", "anchors": ["qampy/core/segmentaxis.py:segment_axis"]}
{"id": "C46", "title": "rolling_window stays inside the array", "statement": "rolling_window(data, size, wrap) returns the windows data[i..i+size-1], cyclically continued with wrap=True, and never reads outside the data.", "quantifier": "all sizes", "why_tests_cant": "memory reads through raw strides", "anchors": ["qampy/core/utils.py:rolling_window"]}
{"id": "C47", "title": "Moving average is the window mean", "statement": "moving_average(x, N) has length len(x)-N+1 and its i-th value is the mean of x[i..i+N-1].", "quantifier": "all inputs and N>=1", "why_tests_cant": "all lengths", "anchors": ["qampy/core/filter.py:moving_average"]}
{"id": "C48", "title": "Blind phase search picks the minimising test phase", "statement": "For every interior sample the BPS index is the first test phase that minimises the sum of squared decision distances over the averaging window; the compiled and the pure-Python index search agree.", "quantifier": "all signals, test phases and averaging lengths", "why_tests_cant": "hard-coded limits only matter for extreme inputs", "anchors": ["qampy/core/pythran_dsp.py:bps", "qampy/core/pythran_dsp.py:select_angle_index", "qampy/core/phaserecovery.py:_bps_idx_py", "qampy/core/phaserecovery.py:bps"]}
{"id": "C49", "title": "Phase recovery only rotates samples", "statement": "bps, comp_freq_offset, pilot CPE and the phase-noise and carrier-offset impairments keep the modulus of every sample and the number of samples.", "quantifier": "all signals", "why_tests_cant": "continuum", "anchors": ["qampy/core/phaserecovery.py:bps", "qampy/core/phaserecovery.py:comp_freq_offset", "qampy/core/impairments.py:apply_phase_noise", "qampy/core/impairments.py:add_carrier_offset"]}
{"id": "C50", "title": "Adaptive step size never grows", "statement": "During equaliser training the adaptive step size stays positive and never increases.", "quantifier": "all error sequences", "why_tests_cant": "unbounded iterations", "anchors": ["qampy/core/equalisation/pythran_equalisation.py:adapt_step", "qampy/core/equalisation/pythran_equalisation.py:adapt_step_real", "qampy/core/equalisation/pythran_equalisation.py:train_equaliser"]}
{"id": "C51", "title": "Training only reads existing samples", "statement": "With the default training length every training window of every iteration lies inside the signal, for complex and real-valued equalisers.", "quantifier": "all signal lengths, tap counts, oversampling factors", "why_tests_cant": "integer boundary cases", "anchors": ["qampy/core/equalisation/equalisation.py:_cal_training_symbol_len", "qampy/core/equalisation/pythran_equalisation.py:train_equaliser", "qampy/core/equalisation/pythran_equalisation.py:train_equaliser_realvalued"]}
{"id": "C52", "title": "Equaliser training is independent per mode", "statement": "Training changes only the taps of the selected modes, and the result for a mode does not depend on which other modes are trained or in which order/interleaving the modes are processed in parallel.", "quantifier": "all schedules of the parallel mode loop, all data", "why_tests_cant": "schedules", "anchors": ["qampy/core/equalisation/pythran_equalisation.py:train_equaliser"]}
{"id": "C53", "title": "Filter application is the sliding inner product", "statement": "apply_filter returns at symbol i, mode m the sum over polarisations and taps of input[i*os+k]*w[m]; it is linear, delta taps return the decimated delayed input, all windows lie in the input, and all implementations return the same number of symbols.", "quantifier": "all signals, taps, os", "why_tests_cant": "all lengths", "anchors": ["qampy/core/equalisation/pythran_equalisation.py:apply_filter_to_signal", "qampy/core/equalisation/equalisation.py:apply_filter", "qampy/core/equalisation/equalisation.py:apply_filter_py"]}
{"id": "C54", "title": "Radius partition picks the nearest radius", "statement": "The radius-directed error compares each output with the code radius nearest to its squared modulus.", "quantifier": "all alphabets, all samples", "why_tests_cant": "continuum", "anchors": ["qampy/core/equalisation/pythran_equalisation.py:partition_value", "qampy/core/equalisation/pythran_equalisation.py:rde_error", "qampy/core/equalisation/pythran_equalisation.py:mrde_error", "qampy/core/equalisation/equalisation.py:generate_partition_codes_radius"]}
{"id": "C55", "title": "Equaliser error functions vanish on target points and each method name selects its own error function", "statement": "Every decision-directed error is zero when the output is an alphabet point, CMA errors are zero on the target modulus, and the method name given by the user selects the error function of this name.", "quantifier": "all alphabets, all methods", "why_tests_cant": "continuum", "anchors": ["qampy/core/equalisation/pythran_equalisation.py:train_equaliser", "qampy/core/equalisation/pythran_equalisation.py:cma_error", "qampy/core/equalisation/pythran_equalisation.py:sbd_error", "qampy/core/equalisation/pythran_equalisation.py:mddma_error", "qampy/core/equalisation/pythran_equalisation.py:sgncma_error"]}
{"id": "C56", "title": "Real/complex signal conversion is a round trip", "statement": "Splitting a complex multi-mode signal into real and imaginary rows and joining it again gives the signal, and the reference symbols are split the same way.", "quantifier": "all signals", "why_tests_cant": "all shapes", "anchors": ["qampy/core/equalisation/equalisation.py:_convert_sig_to_real", "qampy/core/equalisation/equalisation.py:_convert_sig_to_cmplx", "qampy/core/equalisation/equalisation.py:_reshape_symbols"]}
{"id": "C57", "title": "Two-stage equalisation gives each stage its own reference symbols", "statement": "dual_mode_equalisation(methods=(m1,m2)) trains stage 1 with the references required by m1 and stage 2 with those required by m2.", "quantifier": "all method pairs", "why_tests_cant": "all combinations", "anchors": ["qampy/equalisation.py:dual_mode_equalisation", "qampy/core/equalisation/equalisation.py:dual_mode_equalisation"]}
{"id": "C58", "title": "Field rotation preserves power and is invertible", "statement": "rotate_field(E, theta) keeps the total power at every instant and rotate_field(rotate_field(E, theta), -theta) = E.", "quantifier": "all fields and angles", "why_tests_cant": "continuum", "anchors": ["qampy/core/impairments.py:rotate_field"]}
{"id": "C59", "title": "Modal delays are invertible circular shifts", "statement": "add_modal_delay shifts each mode circularly by its delay: out[m][k] = in[m][(k-d_m) mod N]; applying the negative delays restores the signal.", "quantifier": "all delays", "why_tests_cant": "all integers", "anchors": ["qampy/core/impairments.py:add_modal_delay"]}
{"id": "C60", "title": "Frequency offset and its compensation", "statement": "Compensating an added carrier offset with the same value restores the signal up to one constant phase common to all samples of a mode.", "quantifier": "all offsets, signals, rates", "why_tests_cant": "continuum", "anchors": ["qampy/core/impairments.py:add_carrier_offset", "qampy/core/phaserecovery.py:comp_freq_offset"]}
{"id": "C61", "title": "PMD is lossless and invertible", "statement": "apply_PMD_to_field keeps total energy and applying it with the negated delay restores the field.", "quantifier": "all fields, angles, delays, lengths", "why_tests_cant": "continuum and all lengths (DFT)", "anchors": ["qampy/core/impairments.py:apply_PMD_to_field"]}
{"id": "C62", "title": "Dispersion with D and then -D restores every mode", "statement": "add_dispersion is an all-pass filter per mode: zero dispersion is the identity, and D followed by -D restores the signal for any number of modes.", "quantifier": "all signals, mode counts, lengths", "why_tests_cant": "shape dependent", "anchors": ["qampy/core/impairments.py:add_dispersion"]}
{"id": "C63", "title": "Quantiser error is bounded by half a step", "statement": "Quantising a full-scale signal with b bits changes real and imaginary part by at most half a quantisation step, outputs at most 2^b levels and does not modify the input array.", "quantifier": "all signals, bit counts", "why_tests_cant": "continuum", "anchors": ["qampy/core/impairments.py:quantize_signal", "qampy/core/impairments.py:quantize_signal_New"]}
{"id": "C64", "title": "Clipper bounds the signal", "statement": "clipper limits real and imaginary part to the level, keeps samples inside the limits unchanged and is idempotent.", "quantifier": "all signals and levels >= 0", "why_tests_cant": "continuum", "anchors": ["qampy/core/digital_pre_compensation.py:clipper"]}
{"id": "C65", "title": "normalise_and_center gives zero mean and unit power", "statement": "After normalise_and_center every mode has zero mean and mean power 1 (unless it is constant), and applying it twice is the same as once.", "quantifier": "all non-constant signals", "why_tests_cant": "continuum", "anchors": ["qampy/helpers.py:normalise_and_center"]}
{"id": "C66", "title": "IQ imbalance compensation orthogonalises I and Q", "statement": "comp_IQ_inbalance returns a signal whose real and imaginary parts are uncorrelated and have equal power, and leaves its argument unchanged.", "quantifier": "all signals with sufficient rank", "why_tests_cant": "continuum", "anchors": ["qampy/core/analog_frontend.py:comp_IQ_inbalance", "qampy/core/analog_frontend.py:orthonormalize_signal"]}
{"id": "C67", "title": "Ideal modulator response", "statement": "With infinite extinction ratio and null bias the IQ modulator outputs sin(pi/2*I) and sin(pi/2*Q) on its two quadratures (scaled), and arcsine pre-compensation makes the cascade linear.", "quantifier": "all drive values", "why_tests_cant": "continuum", "anchors": ["qampy/core/impairments.py:modulator_response", "qampy/core/digital_pre_compensation.py:comp_mod_sin"]}
{"id": "C68", "title": "Raised cosine satisfies Nyquist's criterion", "statement": "The square of the root-raised-cosine spectrum is the raised-cosine spectrum and its 1/T shifts add up to a constant; pulse shaping without explicit T uses T=1/symbol rate.", "quantifier": "all frequencies, roll-offs, symbol rates", "why_tests_cant": "continuum", "anchors": ["qampy/core/special_fcts.py:rcos_freq", "qampy/core/special_fcts.py:rrcos_freq", "qampy/filtering.py:rrcos_pulseshaping"]}
{"id": "C69", "title": "Theoretical error rates are probabilities", "statement": "ser_vs_es_over_n0_qam lies in [0,1) and equals 1-(1-p)^2 with p the one-dimensional error probability.", "quantifier": "all M and SNR", "why_tests_cant": "continuum", "anchors": ["qampy/theory.py:ser_vs_es_over_n0_qam"]}
{"id": "C70", "title": "Probabilistic shaping probabilities", "statement": "cal_ps_probablts returns positive probabilities that sum to 1 and give equal probability to symbols of equal power, less to higher power for positive shaping parameter.", "quantifier": "all alphabets and shaping parameters", "why_tests_cant": "continuum", "anchors": ["qampy/theory.py:cal_ps_probablts"]}
{"id": "C71", "title": "dB conversions are inverse", "statement": "dB2lin(lin2dB(x))=x for x>0 and lin2dB(dB2lin(y))=y for all y.", "quantifier": "all reals", "why_tests_cant": "continuum", "anchors": ["qampy/helpers.py:dB2lin", "qampy/helpers.py:lin2dB"]}
{"id": "C72", "title": "Dropping edges keeps the middle", "statement": "dump_edges(E, N) returns E without its first and last N samples for every N with 2N <= len, also N=0.", "quantifier": "all lengths and N", "why_tests_cant": "boundary N=0", "anchors": ["qampy/helpers.py:dump_edges"]}
{"id": "C73", "title": "Pilot index helper agrees with the frame layout", "statement": "find_pilot_idx marks exactly the samples that belong to pilot symbols of the frame for any oversampling factor.", "quantifier": "all frame parameters and oversampling factors", "why_tests_cant": "all integers", "anchors": ["qampy/helpers.py:find_pilot_idx", "qampy/signals.py:SignalWithPilots._cal_pilot_idx"]}
{"id": "C74", "title": "Pattern look-up table averages the right errors", "statement": "find_sym_patterns numbers symbol patterns injectively (base M, cyclic window) and cal_lut_avg returns for each pattern the mean of the errors observed with this pattern, 0 if none.", "quantifier": "all symbol sequences, memory lengths, alphabets", "why_tests_cant": "all data", "anchors": ["qampy/core/digital_pre_compensation.py:find_sym_patterns", "qampy/core/digital_pre_compensation.py:cal_lut", "qampy/core/pythran_dsp.py:cal_lut_avg"]}
{"id": "C75", "title": "simulate_transmission applies every requested impairment", "statement": "simulate_transmission returns a signal for every combination of its optional impairments.", "quantifier": "all combinations of arguments", "why_tests_cant": "combinatorial", "anchors": ["qampy/impairments.py:simulate_transmission"]}
{"id": "C76", "title": "Worker replies exactly once per request", "statement": "A reply worker sends exactly one reply for each request it receives, whatever the handler does.", "quantifier": "all request histories", "why_tests_cant": "histories and failures", "anchors": ["qampy/core/processing.py:RepWorker"]}
{"id": "C77", "title": "SNR passed on by pilot GMI has the unit the GMI expects", "statement": "cal_gmi(use_pilot_snr=True) equals cal_gmi(snr=...) called with the same estimated SNR expressed in the unit cal_gmi documents (dB).", "quantifier": "all SNR values", "why_tests_cant": "continuum", "anchors": ["qampy/signals.py:SignalWithPilots.cal_gmi", "qampy/signals.py:SignalBase.cal_gmi"]}
{"id": "C78", "title": "The equalised signal belongs to the selected modes", "statement": "equalise_signal(apply=True) and dual_mode_equalisation return one equalised signal per selected mode, which is the filter output with the returned taps of that mode, for complex and real-valued methods.", "quantifier": "all signals, taps, mode selections, methods", "why_tests_cant": "mode selections times methods", "anchors": ["qampy/core/equalisation/equalisation.py:equalise_signal", "qampy/core/equalisation/equalisation.py:dual_mode_equalisation"]}
{"id": "C79", "title": "A training step moves the output along the error", "statement": "One training step adds mu*err*conj(window) to the taps of the trained mode, records err, and so moves the output for this window by mu*energy*err: with 'dd' the distance to the decided symbol is multiplied by 1-mu*energy, with 'cma' the output is multiplied by 1+mu*energy*(R-|x|^2).", "quantifier": "all signals, taps, step sizes, error functions", "why_tests_cant": "continuum", "anchors": ["qampy/core/equalisation/pythran_equalisation.py:train_equaliser", "qampy/core/equalisation/pythran_equalisation.py:train_equaliser_realvalued", "qampy/core/equalisation/pythran_equalisation.py:apply_filter"]}
{"id": "C80", "title": "The blind phase search returns a continuous trace of test phases", "statement": "bps returns for every mode a phase trace that equals, up to quarter turns, the test phase selected at every interior sample and -pi/4 at the N samples of both ends, with steps of at most pi/4 between interior samples, and the signal rotated by it; noise-free symbols of a quarter-turn symmetric alphabet that are rotated by one of the test phases come back on the alphabet.", "quantifier": "all signals, alphabets, numbers of test phases, averaging lengths", "why_tests_cant": "continuum; wraps of the trace are rare", "anchors": ["qampy/core/phaserecovery.py:bps", "qampy/phaserec.py:bps"]}
{"id": "C81", "title": "Viterbi-Viterbi removes a linear phase", "statement": "viterbiviterbi(E, N, M) of an M-PSK signal with a linear phase that turns, M-fold, by less than one turn over the N averaged samples returns the signal without it up to one multiple of 2*pi/M per mode (and half a phase step for even N); samples without a full averaging window are zero.", "quantifier": "all amplitudes, phases, slopes, lengths, N, M", "why_tests_cant": "continuum", "anchors": ["qampy/core/phaserecovery.py:viterbiviterbi", "qampy/phaserec.py:viterbiviterbi"]}
{"id": "C82", "title": "The pilot-based frequency offset is exact without noise", "statement": "pilot_based_foe of pilots received with a frequency offset f of each mode, |f| < 1/2 in units of the symbol rate, returns f of every mode, the mean of all modes, and the initial phases up to full turns.", "quantifier": "all pilots, amplitudes, offsets, phases, modes", "why_tests_cant": "continuum; unwrapping", "anchors": ["qampy/core/pilotbased_receiver.py:pilot_based_foe"]}
{"id": "C83", "title": "Rescaling sets the peak, set_mid_point the centre", "statement": "rescale_signal scales every mode of an array so that the largest absolute value of real and imaginary parts is swing; ideal_amplifier_response does so for the whole signal; set_mid_point shifts the array so that the middle of the range of both quadratures is mid_pos.", "quantifier": "all arrays of one or two dimensions without zero modes, all swings", "why_tests_cant": "continuum; shapes", "anchors": ["qampy/helpers.py:rescale_signal", "qampy/helpers.py:set_mid_point", "qampy/core/impairments.py:ideal_amplifier_response"]}
{"id": "C84", "title": "Pilot-based normalisation", "statement": "normalise_and_center_pil shifts and scales every mode so that the samples at the pilot positions have zero mean and unit power (unless they are all equal).", "quantifier": "all arrays of one or two dimensions, all pilot masks", "why_tests_cant": "continuum; shapes", "anchors": ["qampy/helpers.py:normalise_and_center_pil"]}
{"id": "C85", "title": "change_snr adds noise of the requested power", "statement": "change_snr(sig, snr, fb, fs) adds to both quadratures of every sample the normal draws times s/sqrt(2), where s^2*10^(snr/10) is the mean signal power times fs/fb, so the signal-to-noise ratio in the bandwidth fb is snr dB for unit-variance draws.", "quantifier": "all signals, SNRs, rates and draws", "why_tests_cant": "statistics; continuum", "anchors": ["qampy/core/impairments.py:change_snr", "qampy/core/impairments.py:add_awgn"]}
{"id": "C86", "title": "orthonormalize_signal returns orthonormal quadratures", "statement": "orthonormalize_signal returns for every mode of full rank a signal of the same length whose real and imaginary parts are uncorrelated and have equal power, and whose samples at symbol positions have zero mean and unit mean power.", "quantifier": "all signals, oversampling factors", "why_tests_cant": "continuum", "anchors": ["qampy/core/analog_frontend.py:orthonormalize_signal"]}
{"id": "C87", "title": "comp_rf_delay delays by the given time", "statement": "comp_rf_delay(sig, delay, sampling_rate) with delay*sampling_rate an integer d returns every mode circularly delayed by d samples.", "quantifier": "all real signals, delays, rates", "why_tests_cant": "continuum; units", "anchors": ["qampy/core/analog_frontend.py:comp_rf_delay"]}
{"id": "C88", "title": "Root-raised-cosine shaping and matched filtering leave no intersymbol interference", "statement": "Symbols spread by os-1 zeros, filtered twice with rrcos_pulseshaping in the frequency domain (fs*T = os) and sampled every os samples are the symbols divided by os; the filter acts as one real gain per frequency whose squares satisfy Nyquist's criterion.", "quantifier": "all symbols, lengths, os >= 2, roll-offs in (0,1]", "why_tests_cant": "continuum", "anchors": ["qampy/core/filter.py:rrcos_pulseshaping", "qampy/core/filter.py:_rrcos_pulseshaping_freq", "qampy/core/special_fcts.py:rrcos_freq"]}
{"id": "C89", "title": "pre_filter keeps the centre of the band", "statement": "pre_filter(signal, bw) with bw the rejected fraction of the band removes that fraction at the ends of the spectrum and passes the rest unchanged; pre_filter_wdm passes the bins within bw/2 of the centre frequency.", "quantifier": "all signals and fractions", "why_tests_cant": "continuum", "anchors": ["qampy/core/filter.py:pre_filter", "qampy/core/filter.py:pre_filter_wdm"]}
{"id": "C90", "title": "Gaussian and exponential filters have a 3 dB cutoff and treat modes alike", "statement": "filter_signal of type gauss and exp multiplies the spectrum of every mode with one real gain that is 1 at zero frequency and halves the power at the cutoff frequency; modes keep their order.", "quantifier": "all signals, lengths, numbers of modes, rates and cutoffs", "why_tests_cant": "continuum; shapes", "anchors": ["qampy/core/filter.py:filter_signal"]}
{"id": "C91", "title": "Dispersion compensation undoes the fibre", "statement": "CDcomp with the parameters of add_dispersion returns the signal before the fibre, in one block or in overlapping blocks of any length; it preserves energy.", "quantifier": "all signals, rates, fibre parameters, block lengths", "why_tests_cant": "continuum", "anchors": ["qampy/core/equalisation/equalisation.py:CDcomp", "qampy/core/impairments.py:add_dispersion"]}
{"id": "C92", "title": "Theoretical bit error rates agree with each other", "statement": "ber_vs_es_over_n0_qam times log2(sqrt(M)) is the one-dimensional error probability, lies in (0,1/2] and decreases with the SNR; ber_vs_evm_qam at e dB equals ber_vs_es_over_n0_qam at an SNR of -e dB; the PSK and 4-PAM error rates are probabilities, decreasing in the SNR, and 4-PAM is one dimension of 16-QAM.", "quantifier": "all M and SNR", "why_tests_cant": "continuum", "anchors": ["qampy/theory.py:ber_vs_es_over_n0_qam", "qampy/theory.py:ber_vs_evm_qam", "qampy/theory.py:ser_vs_es_over_n0_psk", "qampy/theory.py:ser_vs_es_over_n0_4pam"]}
{"id": "C93", "title": "generate_ps_symbols returns shaped symbols", "statement": "generate_ps_symbols returns N symbols whose parts are the drawn levels, normalised to zero mean and unit power by default.", "quantifier": "all levels and draws", "why_tests_cant": "randomness", "anchors": ["qampy/theory.py:generate_ps_symbols"]}
{"id": "C94", "title": "Frame synchronisation puts every mode in its place", "statement": "If the mode l of the received signal carries pilot sequence pil(l), frame_sync reports pil(l) and the sample where the sequence starts for it, and after sync2frame row pil(l) is the received mode l, for any number of modes.", "quantifier": "all numbers of modes, all permutations of pilot sequences, all positions and quarter turns", "why_tests_cant": "permutations without fixed cycles need three modes; tests use two", "anchors": ["qampy/core/pilotbased_receiver.py:frame_sync", "qampy/signals.py:SignalWithPilots.sync2frame"]}
{"id": "C95", "title": "Renormalised resampling keeps the power", "statement": "With renormalise=True rrcos_resample returns a signal of zero mean and the mean power of the input.", "quantifier": "all signals, rates, filters", "why_tests_cant": "continuum", "anchors": ["qampy/core/resample.py:rrcos_resample", "qampy/core/resample.py:resample_poly"]}
{"id": "C96", "title": "from_symbol_array returns the symbols it is given", "statement": "SignalQAMGrayCoded.from_symbol_array(symbols, M) of symbols drawn from a scaled M-QAM constellation returns the same symbols.", "quantifier": "all orders, scales and symbol sequences", "why_tests_cant": "depends on which points occur; tests draw enough symbols to see all", "anchors": ["qampy/signals.py:SignalQAMGrayCoded.from_symbol_array"]}
{"id": "C97", "title": "from_bit_array carries its bits", "statement": "The samples of SignalQAMGrayCoded.from_bit_array(bits, M) demodulate to its bits attribute.", "quantifier": "all orders, numbers of modes and bits", "why_tests_cant": "all lengths, whole numbers of symbols or not", "anchors": ["qampy/signals.py:SignalQAMGrayCoded.from_bit_array"]}
{"id": "C98", "title": "Hybrid signals have one minimum distance", "statement": "The power ratio of TDHQAMSymbols is the squared quotient of the minimum distances of its two constellations; after scaling both have the same minimum distance.", "quantifier": "all pairs of QAM orders", "why_tests_cant": "continuum; all orders", "anchors": ["qampy/signals.py:TDHQAMSymbols.calculate_power_ratio"]}
{"id": "C99", "title": "Moment-based SNR estimates are exact for ideal moments", "statement": "cal_snr_qam(E, M) returns S/N and cal_s0(E, M) returns S when the second and fourth moments of E are those of an M-QAM signal of power S with circular Gaussian noise of power N; the fourth moments used are those of the constellation.", "quantifier": "all orders M, all S and N, all signals with these moments", "why_tests_cant": "continuum; closed forms over all orders", "anchors": ["qampy/core/signal_quality.py:cal_snr_qam", "qampy/core/signal_quality.py:cal_s0", "qampy/core/signal_quality.py:_cal_gamma"]}
{"id": "C100", "title": "The blind QPSK estimate is the SNR in dB", "statement": "cal_snr_blind_qpsk(E) of a QPSK signal with noise that stays in the right quadrant is 10 log10 of the signal power (squared mean after removing the modulation) over the noise variance.", "quantifier": "all lengths, symbols and noise", "why_tests_cant": "continuum", "anchors": ["qampy/core/signal_quality.py:cal_snr_blind_qpsk"]}
{"id": "C101", "title": "cal_ser_qam counts symbol errors", "statement": "cal_ser_qam(data_rx, symbol_tx, M) returns the fraction of received symbols decided differently from the transmitted ones.", "quantifier": "all signals, orders and methods", "why_tests_cant": "never exercised", "anchors": ["qampy/core/signal_quality.py:cal_ser_qam"]}
{"id": "C102", "title": "find_freq_offset finds the carrier offset", "statement": "find_freq_offset of a QPSK signal with a carrier offset f returns f for every mode to within half a grid step os/(4n), n the transform length, or the mean over the modes repeated; comp_freq_offset with it leaves no offset.", "quantifier": "all signals, lengths, transform sizes, oversamplings and offsets", "why_tests_cant": "continuum; spectral maximum over all bins", "anchors": ["qampy/core/phaserecovery.py:find_freq_offset", "qampy/core/phaserecovery.py:comp_freq_offset"]}
{"id": "C103", "title": "Two-stage blind phase search refines the one-stage search", "statement": "bps_twostage searches B offsets over one step of the first search around the phase found there, and the result is never worse than that of the one-stage search: a signal that the one-stage search recovers exactly is recovered.", "quantifier": "all signals, alphabets, window lengths, numbers of test phases and offsets, both implementations", "why_tests_cant": "continuum", "anchors": ["qampy/core/phaserecovery.py:bps_twostage"]}
{"id": "C104", "title": "partition_16qam separates the rings", "statement": "The class-1 mask of partition_16qam marks exactly the samples of the inner and outer ring, for noise-free signals and for noise that keeps samples next to their ring.", "quantifier": "all scales, phases, sequences", "why_tests_cant": "continuum; thresholds close to a ring", "anchors": ["qampy/core/phaserecovery.py:partition_16qam"]}
{"id": "C105", "title": "phase_partition_16qam removes the carrier phase", "statement": "phase_partition_16qam returns for every mode the field turned back by the phase it reports, and the reported phase is the carrier phase up to quarter turns.", "quantifier": "all signals, modes, block lengths", "why_tests_cant": "continuum; errors look like phase noise", "anchors": ["qampy/core/phaserecovery.py:phase_partition_16qam"]}
{"id": "C106", "title": "ENOB noise is the noise of a quantiser and the reported SNR is the applied one", "statement": "apply_enob_as_awgn(sig, enob, verbose=True) adds to every real and imaginary part noise of the standard deviation of a quantiser with 2^enob steps over the range of the signal, and returns the ratio in dB of the signal power to the added noise power, for complex and for real signals.", "quantifier": "all signals, shapes, numbers of bits and noise realisations", "why_tests_cant": "statistical; a 3 dB slip hides in the noise", "anchors": ["qampy/core/impairments.py:apply_enob_as_awgn"]}
{"id": "C107", "title": "DAC clipping limits the signal at clip_rat of its peak", "statement": "sim_DAC_response with clip_rat c and no other impairment limits each mode at c times its peak and otherwise only scales the signal, by one factor for all modes; c = 1 returns it unchanged.", "quantifier": "all signals, mode counts and ratios", "why_tests_cant": "continuum", "anchors": ["qampy/core/impairments.py:sim_DAC_response", "qampy/core/digital_pre_compensation.py:clipper"]}
{"id": "C108", "title": "The transmitter simulation does not depend on the amplitude of its input", "statement": "sim_tx_response drives the modulator with the DAC output scaled to a peak of tgt_v, so a positive factor on the input changes nothing; with every impairment off the output is sin(pi/2 tgt_v x / peak)/2 in both quadratures.", "quantifier": "all signals, factors, voltages and DAC and modulator settings", "why_tests_cant": "continuum; chain of five functions", "anchors": ["qampy/core/impairments.py:sim_tx_response", "qampy/core/impairments.py:ideal_amplifier_response", "qampy/core/impairments.py:modulator_response"]}
{"id": "C109", "title": "comp_dac_resp is the minimum mean square error pre-equaliser", "statement": "At every frequency comp_dac_resp returns the p that minimises n|1 - d p|^2 + alpha |p|^2, n the power spectrum of the pulse, d the response of the DAC and alpha its quantisation noise ratio; d p is real and in [0, 1).", "quantifier": "all rates, lengths, roll-offs, filters and numbers of bits", "why_tests_cant": "optimality over a continuum of alternatives", "anchors": ["qampy/core/digital_pre_compensation.py:comp_dac_resp"]}
{"id": "C110", "title": "A measured DAC response is applied", "statement": "load_dac_response gives a response with Hermitian symmetry that takes the values of the table at its frequencies and zero beyond it, and apply_DAC_filter with a file multiplies the spectrum by it.", "quantifier": "all tables, sampling rates and lengths", "why_tests_cant": "needs a measurement file; never exercised", "anchors": ["qampy/core/impairments.py:load_dac_response", "qampy/core/impairments.py:apply_DAC_filter"]}
{"id": "C111", "title": "Bessel and Butterworth filtering is one causal linear time-invariant filter per mode", "statement": "filter_signal with ftype bessel or butter solves, for every mode of a 1-D or 2-D signal, the difference equations of the designed second-order sections from rest; it keeps the length, is linear and causal and commutes with delays.", "quantifier": "all signals, mode counts, designs and orders", "why_tests_cant": "continuum", "anchors": ["qampy/core/filter.py:filter_signal"]}
{"id": "C112", "title": "PRBS patterns are balanced and have the two-valued autocorrelation of a maximum length sequence", "statement": "For every order (7, 15, 23, 31) and non-zero seed any 2^order-1 consecutive bits of make_prbs_extXOR contain 2^(order-1) ones; comparing them with the same pattern delayed by a number of bits that is not a multiple of the period, each of the pairs (1,1), (1,0), (0,1) occurs 2^(order-2) times and (0,0) once less.", "quantifier": "all orders, seeds, lengths, positions and delays", "why_tests_cant": "2^31-1 bits per period for the largest order, for every one of as many seeds and delays", "anchors": ["qampy/core/prbs.py:make_prbs_extXOR"]}
{"id": "C113", "title": "QPSKfromBERT carries the requested patterns", "statement": "For every mode, sample k of QPSKfromBERT is the unit-power QPSK point whose real part is given by the I pattern and whose imaginary part by the Q pattern: the PRBS of the order given for that mode and port, circularly delayed by prbsshifts and inverted if requested; the bits alternate I and Q. This holds for any number of modes.", "quantifier": "all lengths, mode counts, orders, delays and inversions", "why_tests_cant": "orders, delays and lengths are unbounded; the failure needs three modes or a random zero seed", "anchors": ["qampy/signals.py:QPSKfromBERT"]}
{"id": "C114", "title": "QPSKfromBERT uses the whole constellation", "statement": "A period of the QPSKfromBERT signal contains each of the four points 2^(order-2) times, one of them once less.", "quantifier": "all orders, delays and inversions", "why_tests_cant": "depends on the delay modulo the period", "anchors": ["qampy/signals.py:QPSKfromBERT"]}
{"id": "C115", "title": "Signals of bare symbols keep their symbols, decide to the nearest one and are evaluated against them", "statement": "SymbolOnlySignal.from_symbol_array returns the nearest symbols of the alphabet, which are the given symbols if the alphabet contains them (always for the default alphabet, the distinct values); M is the size of the alphabet; cal_ser counts the wrong decisions and is zero for the signal itself; cal_mi estimates the mutual information without further arguments; the constructor draws from the alphabet and its M is the size of the alphabet.", "quantifier": "all symbol arrays, alphabets and received signals", "why_tests_cant": "continuum of symbols; the failing calls are not exercised", "anchors": ["qampy/signals.py:SymbolOnlySignal"]}
{"id": "C116", "title": "The numba equaliser agrees with the compiled one", "statement": "For every polarisation, train_eq of the numba module returns the errors and final step size of the compiled training and the complex conjugate of its taps, and every error function of the numba module (CMA, MCMA, RDE, MRDE, SBD, MDDMA, DD) returns the value of the compiled error function of that name.", "quantifier": "all signals, taps, step sizes, training lengths and symbols", "why_tests_cant": "the numba module is not exercised; unbounded number of training steps", "anchors": ["qampy/core/equalisation/numba_equalisation.py:train_eq", "qampy/core/equalisation/numba_equalisation.py:ErrorFctCMA", "qampy/core/equalisation/numba_equalisation.py:ErrorFctRDE", "qampy/core/equalisation/numba_equalisation.py:ErrorFctDD"]}
{"id": "C117", "title": "The constellation matched and the square contour errors vanish where they should", "statement": "On the points of the lattice of spacing d the error of ErrorFctCME is that of CMA, and it is odd; the error of ErrorFctSCA is zero exactly at the origin and on the square of half-width |R| and turns by a quarter when the sample does.", "quantifier": "all samples, radii, spacings and weights", "why_tests_cant": "continuum; not exercised", "anchors": ["qampy/core/equalisation/numba_equalisation.py:ErrorFctCME", "qampy/core/equalisation/numba_equalisation.py:ErrorFctSCA"]}
{"id": "C118", "title": "Periodic pilots remove the carrier phase", "statement": "For blocks that start with a pilot, pilot_based_cpe turns the symbols by the negative of the piecewise linear interpolation of the averaged pilot phases: a constant phase is removed exactly, a linear one exactly up to the last averaged pilot and held after it; removing the pilots drops the first symbol of every block only. This holds for any number of polarisations and any ratio of used pilots.", "quantifier": "all signals, block lengths, averaging lengths, pilot ratios and block limits", "why_tests_cant": "continuum of phases; the failing polarisation counts and ratios are not exercised", "anchors": ["qampy/core/pilotbased_receiver.py:pilot_based_cpe", "qampy/core/pilotbased_receiver.py:pilot_based_cpe2"]}
{"id": "C119", "title": "lfsr_int is division by the mask polynomial", "statement": "For any mask of at least two bits and any seed below its top bit, every state yielded by lfsr_int is x times the previous state modulo the mask polynomial over GF(2) and the yielded bit is the quotient; the bits obey the recurrence of the polynomial; with the lowest mask bit set different seeds never reach the same state at the same turn; the zero seed stays zero; with the order 7, 15, 23 and 31 masks the states repeat exactly every 2^order-1 turns.", "quantifier": "all masks, seeds and numbers of turns", "why_tests_cant": "unbounded masks and lengths; periods up to 2^31-1", "anchors": ["qampy/core/utils.py:lfsr_int"]}
{"id": "C120", "title": "lfsr_ext is a Fibonacci register with the given taps", "statement": "For any register length, seed and taps inside the register, every bit yielded by lfsr_ext is the GF(2) sum of the bits tap places earlier in the seeded sequence, the state is the window of the last nbits bits, with nbits among the distinct taps different seeds never meet, and a tap beyond the register raises ValueError.", "quantifier": "all register lengths, taps, seeds and numbers of turns", "why_tests_cant": "unbounded register lengths and tap sets", "anchors": ["qampy/core/utils.py:lfsr_ext"]}
{"id": "C121", "title": "Arrays loaded from MATLAB files are the named ones", "statement": "For every list of keys ndarray_from_matlab returns, row by row (or as one array for one entry), the named array or re + j*im of the two named arrays, transposed when requested; dim2cmplx joins the rows named by the port map; a missing name raises KeyError and unequal lengths ValueError.", "quantifier": "all files, keys, shapes and port maps", "why_tests_cant": "unbounded shapes and numbers of keys; mixed key formats are not exercised", "anchors": ["qampy/core/io.py:ndarray_from_matlab"]}
{"id": "C122", "title": "Emulated polarisation multiplexing keeps the loaded symbols as first mode", "statement": "With fake_polmux, load_symbols_from_matlab_file returns two modes: the loaded symbols and a copy delayed by fake_pm_delay, normalised and decided to the alphabet; without it every row of the file is one normalised and decided mode.", "quantifier": "all files, symbol arrays, formats and delays", "why_tests_cant": "unbounded lengths and delays; orientation of the array is not exercised", "anchors": ["qampy/io.py:load_symbols_from_matlab_file"]}
{"id": "C123", "title": "sim_tx distorts every mode of a frame independently", "statement": "Every mode of the result of sim_tx is the mode of the frame, delayed by its modal delay, with noise, frequency offset and phase noise of the requested size, normalised to zero mean and unit power; the field rotation is applied to two modes; the frame passed in is unchanged; a wrong number of delays raises ValueError.", "quantifier": "all frames, options and random draws", "why_tests_cant": "random draws; unbounded lengths; aliasing of the argument is not observed", "anchors": ["qampy/core/pilotbased_transmitter.py:sim_tx"]}
{"id": "C124", "title": "The frame generators of the pilot transmitter return frames", "statement": "gen_dataframe_with_phasepilots, gen_dataframe_without_phasepilots and gen_dataframe_with_phasepilots_hybridmodulation return a frame for valid parameters; different numbers of formats and ratios raise ValueError.", "quantifier": "all parameters", "why_tests_cant": "no parameters reach the code after the first failing name", "anchors": ["qampy/core/pilotbased_transmitter.py:gen_dataframe_with_phasepilots", "qampy/core/pilotbased_transmitter.py:gen_dataframe_without_phasepilots"]}
{"id": "C125", "title": "PMD response matrices are unitary and applied without loss", "statement": "For every frequency the 2x2 matrix of H_PMD is unitary, and _applyPMD_einsum with the matrices of H_PMD gives the field of _applyPMD_dot, so it keeps the energy, for every angle of the principal axis and every delay.", "quantifier": "all fields, angles, delays and frequency grids", "why_tests_cant": "continuum of angles and fields; the einsum version is not exercised", "anchors": ["qampy/core/impairments.py:H_PMD", "qampy/core/impairments.py:_applyPMD_einsum"]}
{"id": "C126", "title": "Pulse shapes are symmetric with the stated maximum", "statement": "gauss, sech and supergauss of positive amplitude and order are symmetric about x0, positive, at most A and equal to A only at x0; ttanh increases strictly through 0 at x0 and stays between -A and A.", "quantifier": "all positions, amplitudes, centres, widths and orders", "why_tests_cant": "continuum; orders that are not integers are not exercised", "anchors": ["qampy/core/special_fcts.py:gauss", "qampy/core/special_fcts.py:sech", "qampy/core/special_fcts.py:supergauss", "qampy/core/special_fcts.py:ttanh"]}
{"id": "C127", "title": "The raised cosine pulse has no intersymbol interference", "statement": "rcos_time is even in time, 1 at time zero and 0 at every other multiple of the symbol period, for every roll-off.", "quantifier": "all periods, roll-offs and multiples", "why_tests_cant": "continuum; the removable singularity is hit for isolated roll-offs only", "anchors": ["qampy/core/special_fcts.py:rcos_time"]}
{"id": "C128", "title": "Bit errors are the differing bits", "statement": "For bit arrays of one positive length cal_ber_syncd returns the number of differing positions, its ratio to the length and the length, and raises ValueError when the ratio is above the threshold; identical data has no errors, inverting the received bits turns errors into correct bits; cal_ber_nosyncd does the same after synchronising the arrays.", "quantifier": "all bit arrays and thresholds", "why_tests_cant": "unbounded lengths; the unsynchronised version is not exercised", "anchors": ["qampy/core/ber_functions.py:cal_ber_syncd", "qampy/core/ber_functions.py:cal_ber_nosyncd"]}
{"id": "C129", "title": "linspacestep and factorial", "statement": "linspacestep(start, step, N) has exactly N values start + i*step for every non-zero step (none for N <= 0), and factorial(n) is n!.", "quantifier": "all starts, non-zero steps, counts and n", "why_tests_cant": "unbounded counts; continuum of steps", "anchors": ["qampy/core/utils.py:linspacestep", "qampy/core/utils.py:factorial"]}
{"id": "C130", "title": "IQ bit streams are interleaved into one stream", "statement": "convert_iqtosinglebitstream returns, for every even number of bits per symbol, the stream which alternates between nbits/2 bits of the I stream and nbits/2 bits of the Q stream.", "quantifier": "all bit streams and numbers of bits", "why_tests_cant": "the function is not exercised", "anchors": ["qampy/core/utils.py:convert_iqtosinglebitstream"]}
{"id": "C131", "title": "A dealer gets the answer of the worker", "statement": "recv_msg of a DataDealer after send_msg to a RepWorker returns the value of the worker's method or reports its error, with and without an identity frame; a PPWorker answers its requests.", "quantifier": "all values, packings, methods, headers and identities", "why_tests_cant": "needs two processes and sockets; identities are not exercised", "anchors": ["qampy/core/processing.py:DataDealer", "qampy/core/processing.py:PPWorker"]}
{"id": "C132", "title": "Orthogonalised taps", "statement": "orthogonalizetaps keeps the energy of the taps, undoes itself when applied twice and returns taps orthogonal to the given ones, so that the two filters together can be inverted at every frequency at which the given taps respond.", "quantifier": "all taps of two polarisations", "why_tests_cant": "continuum of taps; the function is not exercised", "anchors": ["qampy/core/equalisation/equalisation.py:orthogonalizetaps"]}
{"id": "C133", "title": "The square contour constant is a ratio of moments", "statement": "For every QAM order _cal_Rsca is real and equal to the sum of the fourth powers of max(|re|,|im|) over the alphabet divided by the sum of the squares; with its square root as radius the square contour error vanishes on every 4-QAM symbol.", "quantifier": "all QAM orders", "why_tests_cant": "unbounded orders; the function is not exercised", "anchors": ["qampy/core/equalisation/equalisation.py:_cal_Rsca", "qampy/core/equalisation/equalisation.py:_cal_Rdash"]}
{"id": "C134", "title": "_lms_init prepares signal and taps", "statement": "_lms_init returns the normalised signal, the taps, the number of training symbols and the step size, with or without given taps.", "quantifier": "all signals, taps and lengths", "why_tests_cant": "the function is not exercised", "anchors": ["qampy/core/equalisation/equalisation.py:_lms_init"]}
{"id": "C135", "title": "set_mid_and_resale centres and rescales", "statement": "set_mid_and_resale moves the mid-position of real and imaginary part to the given value and scales the signal to the given swing, for one- and two-dimensional signals.", "quantifier": "all signals, mid-positions and swings", "why_tests_cant": "continuum of signals; the function is not exercised", "anchors": ["qampy/helpers.py:set_mid_and_resale"]}
{"id": "C136", "title": "get_center_shift_fac is the shift that centres", "statement": "Adding get_center_shift_fac to a mode makes its mean zero, and no other constant does.", "quantifier": "all non-empty signals", "why_tests_cant": "continuum of signals; the function is not exercised", "anchors": ["qampy/helpers.py:get_center_shift_fac"]}
{"id": "C137", "title": "Symbol based normalisation gives unit signal power", "statement": "After normalize_and_center(symbol_based=True, synced=True) the signal power that est_snr estimates is 1, the estimated SNR is that of the centred signal, every mode has mean zero and differs from the input by a shift and a positive factor.", "quantifier": "all signals, symbols and mappings for which the estimated power is positive", "why_tests_cant": "continuum of signals; the tests do not compare the estimate before and after", "anchors": ["qampy/signals.py:normalize_and_center", "qampy/core/pythran_dsp.py:estimate_snr"]}
{"id": "C138", "title": "corr_foe removes the offset found in the frame synchronisation", "statement": "corr_foe removes from every mode the frequency offset found for it, and can be called any number of times.", "quantifier": "all signals, offsets and additional offsets", "why_tests_cant": "continuum of offsets and sequences of calls; tests use equal offsets and a single call", "anchors": ["qampy/signals.py:corr_foe"]}
{"id": "C139", "title": "Monte Carlo mutual information", "statement": "The result of sim_mi_mc is at most log2 of the size of the alphabet, approaches it when the spacing is large against the noise, does not depend on scale or order of the alphabet, and the array of the caller is unchanged.", "quantifier": "all alphabets with power, SNRs and noise samples", "why_tests_cant": "continuum of alphabets and noise; the function is not exercised", "anchors": ["qampy/theory.py:sim_mi_mc"]}
{"id": "C140", "title": "Theoretical GMI", "statement": "cal_gmi gives one value per SNR, at most log2 M, which approaches log2 M when the symbol spacing is large against the noise; the value for one SNR does not depend on the others.", "quantifier": "all orders, lists of SNRs and noise samples", "why_tests_cant": "continuum of SNR and noise; tests do not bound the values", "anchors": ["qampy/theory.py:cal_gmi"]}
{"id": "C141", "title": "BER of hybrid formats", "statement": "hybrid_qam_ber_vs_esn0 is the mean of the BERs of the two formats weighted by the bits they carry, at SNRs with the given power ratio whose mean is the given SNR.", "quantifier": "all SNRs, power ratios, fractions and orders", "why_tests_cant": "the function is not exercised", "anchors": ["qampy/theory.py:hybrid_qam_ber_vs_esn0"]}
{"id": "C142", "title": "An undisturbed signal is evaluated without errors", "statement": "If every received mode is a different transmitted mode, repeated, delayed and turned by quarter turns, then sync_and_adjust finds modes, delays and turns, and cal_ser, cal_ber and cal_evm are zero without prior synchronisation, for every QAM and PSK format.", "quantifier": "all symbol sequences without self copies, numbers and orders of modes, delays, turns, lengths and formats", "why_tests_cant": "unbounded sequences and combinations; tests use random data, one shift at a time and square formats", "anchors": ["qampy/signals.py:_sync_and_adjust", "qampy/signals.py:cal_ser", "qampy/signals.py:cal_ber", "qampy/signals.py:cal_evm", "qampy/core/ber_functions.py:sync_and_adjust"]}
{"id": "C143", "title": "Bounded disturbance causes no errors without prior synchronisation", "statement": "If every sample is received within delta of a delayed and turned transmitted mode, and delta is small against the margin between the energy of the modes and their other correlations, then sync_and_adjust pairs the signal with the right symbols; below half the symbol distance cal_ser and cal_ber are zero and cal_evm is at most delta.", "quantifier": "all disturbances within the bound, sequences, numbers of modes, delays, turns, lengths and formats kept by quarter turns", "why_tests_cant": "continuum of disturbances; tests sample Gaussian noise", "anchors": ["qampy/signals.py:_sync_and_adjust", "qampy/signals.py:cal_ser", "qampy/signals.py:cal_ber", "qampy/signals.py:cal_evm", "qampy/core/ber_functions.py:find_sequence_offset_complex"]}
{"id": "C144", "title": "Signal objects from recorded MATLAB files", "statement": "create_signal_from_matlab returns a new object with the class and all attributes of the given symbols except the sampling rate, which is the given one, and with exactly the recorded samples in the order of the keys; no existing object is changed; symbols with pilots need at least one recorded frame; errors of the file are passed on.", "quantifier": "all object heaps, classes of symbols, files, key lists, transpositions, port maps and rates", "why_tests_cant": "unbounded attribute graphs and files; there is no test with recorded files", "anchors": ["qampy/io.py:create_signal_from_matlab", "qampy/signals.py:recreate_from_np_array"]}
{"id": "C145", "title": "Cutting the blind phase search into blocks does not change it", "statement": "The arrayfire index search gives every inner sample the first test angle of least cost over its window of 2N samples, however many samples fit into a block, and bps with it equals bps with the Python search; a signal of any length is searched for every positive NMAX.", "quantifier": "all signals, test angles, alphabets, window lengths and block sizes", "why_tests_cant": "the block size constant is 4 GB, so no test ever uses a second block; arrayfire is not installed in the tests", "anchors": ["qampy/core/phaserecovery.py:_bps_idx_af", "qampy/core/phaserecovery.py:_movavg_af", "qampy/core/phaserecovery.py:_bps_idx_py"]}
