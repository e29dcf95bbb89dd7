# Formal model of QAMpy in Rocq (Coq 8.16.1)

Source of truth: `/repo` at the pinned commit.  Nothing of the code is run here; every
definition of the model cites the file and the lines it was read from.

## 1. Layout

`rocq/theories/` (logical prefix `Verif`), one topic per file group:

* `Common/`    – Python/numpy primitives (`Py*.v`), complex numbers over the stdlib reals (`Cplx.v`),
                 general lemmas.  These definitions are the assumed meaning of numpy calls.
* `Model/`     – the functions of QAMpy, branch by branch, exceptions as values of type `result`.
                 No proofs, no specifications.
* `Spec/`      – small, independent vocabulary used in theorem statements (Hamming distance,
                 "is nearest", "periodic extension", ...).  Uses at most the record types of `Model/`.
* `Proofs/`    – lemmas and proofs.
* `Props/`     – property theorems only, each `exact lemma`, `Print Assumptions`, plus `Example`s
                 showing concrete, non-trivial instances of the hypotheses.

## 2. Modelling decisions

* 1-D arrays are `list A`, `(modes, N)` arrays are `list (list A)` (rows = modes).
  Array accesses that numpy would reject return `Err e`; nothing is defaulted silently.
* Python integers are `Z` (or `nat`/`N` where they cannot be negative).  Fixed width is modelled where it
  matters (`make_decision` keeps indices in 16 bits, bit operations on non-negative ints use `N`).
* Floating point is idealised: real numbers of the Coq standard library, complex numbers as pairs.
  Rounding, overflow, `-ffast-math` reassociation are NOT modelled.  `NaN` is modelled where the code
  produces it from 0/0 (`estimate_snr`), as `None`.
* `fftconvolve`/`correlate` are idealised as exact sums, FFT as the exact DFT (defined and proved
  invertible in `Common/`).
* Random generators are arbitrary inputs (oracles), so theorems hold for every outcome.
* Kernels compiled by pythran are built with `-DNDEBUG` (setup.py lines 24-28): `assert`s inside
  `pythran_*.py` are therefore not executed and are not part of the model; `assert`s in ordinary Python files are.
* Mutation is modelled by returning the new value of the mutated object; sharing (mutable default arguments,
  in-place updates of arguments) by explicit state passing.
* Signal objects are cells of a heap with a class, samples and an attribute dictionary; attribute values are opaque
  data, None or references.  numpy calls `__array_finalize__` with the source array for slices, views, copies and
  ufunc results and with None for concatenation and unpickling; pickle keeps sharing.  Floats used as rates are
  rational numbers, `Fraction.limit_denominator` of the Python library is modelled step by step.
* The OpenMP loop over modes in the training kernel is modelled by arbitrary interleavings of the per-mode steps.

## 3. Trusted base

* Coq's kernel (8.16.1), including `vm_compute`.
* The axioms printed by `Print Assumptions` under every theorem.  Integer/list theorems are closed under the
  global context; theorems about real numbers use the axioms of the standard library's classical reals
  (`ClassicalDedekindReals.sig_forall_dec`, `ClassicalDedekindReals.sig_not_dec`,
  `FunctionalExtensionality.functional_extensionality_dep`, and `Classical_Prop.classic` where listed).
* The reading of Python/numpy recorded in `Common/Py*.v` and the idealisations of section 2.

* The meaning given to the arrayfire calls of `_bps_idx_af` at the head of `Model/PhaseAf.v` (cumulative sum,
  minimum, position of the first minimum, empty arrays are errors).

Not modelled: the other GPU/ArrayFire and the cython variants, plotting, the MATLAB file format (a file is a list of named
arrays), file system, the numerical behaviour of scipy filters, and whatever is not cited by a definition in `Model/`.

## 4. Plan per property

(R) = the faithful model violates the property as users would read it; the counterexample is proved as
`..._refuted` and the part that does hold is proved separately.

| id | model | proof |
|----|-------|-------|
| C01 | `_modulate` (MSB-first index, truncation), `make_decision`+`_demodulate` on labels | list induction, binary expansion lemmas, distinctness of the alphabet |
| C02 | `bin2gray`, `gray_code_qam`, inverse permutation `u` of `_generate_mapping` | bitwise (`N.testbit`) injectivity, pigeonhole for permutation |
| C03 | label of grid point (row, col) | Hamming weight of xor of concatenated codes; cross counterexample by computation (R for cross) |
| C04 | PSK mapping | Gray adjacency + wrap-around |
| C05 | odd-integer grid over Z | sums by induction |
| C06 | folding of the rectangle over Z | case analysis with `lia`, counting argument |
| C07 | `generate_bitmapping_mtx` | filter/counting lemmas on binary labels |
| C08 | `prbs_ext` register over N | invariant: register holds last `order` outputs |
| C09 | linear map on GF(2)^n | matrix power by repeated squaring (`vm_compute`), factorisation of 2^n-1, order argument |
| C10 | PRBSBits constructor loop with random oracle | (R) witness; rest by induction |
| C11 | call with wrong arity | (R) |
| C12, C13 | `_adjust_to`, `adjust_data_length`, `sync_and_adjust` over arbitrary element type | index arithmetic mod L; (R) for lengths when offset is a multiple of the period |
| C14, C15 | exact full cross-correlation, argmax | Cauchy-Schwarz with equality case |
| C16, C17 | greedy loop over modes | invariant on remaining modes |
| C18, C19 | byte-string search | first-occurrence search; (R) for multi-byte elements |
| C20, C21 | argmin loops | loop invariants; (R) for hard-coded limits |
| C22, C23 | SER/BER counts | counting, triangle inequality |
| C24 | EVM | sums of squares |
| C25 | `estimate_snr` with NaN | law of total variance; (R) missing symbol |
| C26, C27 | L-values, GMI, MI | exp/log inequalities |
| C28-C33 | pilot index masks, frame construction, frame selection, default-argument state | mask lemmas; (R) witnesses |
| C34-C39, C94 | pilot equaliser index arithmetic, frame sync (training and offset estimators arbitrary), CPE | `lia`, interpolation lemmas; (R) witnesses |
| C45-C47 | segment_axis, rolling_window, moving_average | index lemmas; (R) out-of-bounds |
| C40, C41 | heap of signal objects, attribute inheritance, pickling, recreate, resample | invariants over any sequence of operations; (R) witnesses |
| C42, C95 | Fraction.limit_denominator, zero insertion, resampling | best approximation by continued fractions, lengths; (R) witnesses |
| C43, C96, C97 | from_symbol_array, from_bit_array | nearest points, Gray maps; (R) witnesses |
| C44, C98 | TDHQAM masks, power ratio | index arithmetic, minimum distances; (R) failures |
| C99-C101 | moment-based and blind SNR, cal_ser_qam | power sums over all orders, algebra; (R) offset of one, failures |
| C102 | find_freq_offset | geometric sums, spectral maximum; (R) aliasing |
| C103 | bps_twostage | both searches as in C80, offsets; (R) even number of offsets |
| C104, C105 | partition_16qam, phase_partition_16qam | thresholds, fourth powers; (R) witnesses |
| C106, C107, C108 | sim_tx_response, sim_DAC_response, apply_enob_as_awgn | scaling of every stage, peak of the drive; (R) real signals, unequal modes |
| C109 | comp_dac_resp | completing the square at each frequency |
| C110 | load_dac_response, apply_DAC_filter | sorted nodes symmetric under reflection; (R) fill value, TypeError |
| C111 | filter_signal, bessel and butter | difference equations of transposed form II, induction over sections |
| C112 | make_prbs_extXOR | counting over the register orbit; the sum of a pattern and its delayed copy is a pattern of another seed |
| C113 | QPSKfromBERT | interleaving and modulation computed; three modes or a random zero seed as counterexamples |
| C114 | QPSKfromBERT | C112 with the delays reduced modulo the period; equal shifts as counterexample |
| C115 | SymbolOnlySignal | decisions of C20 for an arbitrary alphabet; cal_mi and M as counterexamples |
| C116 | numba equaliser | loop invariant against the schedule of the compiled kernel; error functions pointwise; names and far samples as counterexamples |
| C117 | CME and SCA error functions | sin at multiples of pi; case analysis of the contour |
| C118 | pilot_based_cpe | unwrapping and interpolation lemmas of C38 with the edge rule of this function; polarisation count and reference length as counterexamples |
| C119 | lfsr_int | shift/xor as multiplication by x modulo the mask; recurrence by unrolling; period from the order of x used for C1 |
| C120 | lfsr_ext | invariant: the register is a window of the seeded bit sequence |
| C121 | ndarray_from_matlab | files as association lists; entrywise shape lemmas; mixed formats and transposition as counterexamples |
| C122 | load_symbols_from_matlab_file | composition with normalisation and from_symbol_array; swapped modes and column vectors as counterexamples |
| C123 | sim_tx | invariant of the loop over modes (normalised after every turn); delays, rotation and aliasing as counterexamples |
| C124 | pilot transmitter frames | evaluation up to the first failing name |
| C125 | H_PMD, _applyPMD_einsum | entrywise product of rotation and delay; the summed matrix as counterexample |
| C126 | pulse shapes | monotone function of the distance to the centre; orders that are not integers as counterexample |
| C127 | rcos_time | zeros of the sinc; zero denominator as counterexample |
| C128 | cal_ber_syncd, cal_ber_nosyncd | counting differing positions; the unassigned variable as counterexample |
| C129 | linspacestep, factorial | ceiling of an integer; induction |
| C130 | convert_iqtosinglebitstream | evaluation up to the exception |
| C131 | DataDealer, RepWorker, PPWorker | message frames as lists, the REP envelope; identities as counterexample |
| C132 | orthogonalizetaps | reversal of sums, response of reversed conjugated taps; fixed points and equal rows as counterexamples |
| C133 | _cal_Rsca | sign(x)*x = abs(x), conjugation permutes the alphabet |
| C134 | _lms_init | evaluation up to the exception |
| C135 | set_mid_and_resale | extreme values of shifted signals; a two-sample signal as counterexample |
| C136 | get_center_shift_fac | mean of a shifted row |
| C137 | normalize_and_center(symbol_based) | homogeneity of the estimate under a positive factor |
| C138 | corr_foe | composition of rotations; opposite offsets and a second call as counterexamples |
| C139 | sim_mi_mc | log-sum-exp bounds, permutation and scaling of sums |
| C140 | theory.cal_gmi | the GMI bounds for every SNR, concatenation |
| C141 | hybrid_qam_ber_vs_esn0 | evaluation up to the exception; weighted mean |
| C142 | sync_and_adjust with cal_ser, cal_ber, cal_evm | induction over the received modes: the right mode correlates with its full energy, others with less; alphabets closed under quarter turns; BPSK as counterexample |
| C143 | the same with disturbance | perturbation of correlations by delta sum abs(t), margin rho |
| C144 | create_signal_from_matlab | composition of C121 (file reader) and the object heap (recreate, recreate with pilots) |
| C145 | _bps_idx_af, _movavg_af, bps with method af | invariant over the blocks: the positions before the end of the block hold the choices of their windows; equality with the Python search by uniqueness of the first minimum |
| C48, C49, C80 | BPS kernels, unwrap, phase traces | window sums, argmin, quarter turns; (R) limits |
| C38, C39, C60, C81, C82 | pilot CPE, constant phase, frequency offset, Viterbi-Viterbi | angles modulo full turns, geometric sums, least squares; (R) witnesses |
| C50-C57, C78, C79 | equaliser kernels and front ends | induction over iterations/interleavings; (R) witnesses |
| C58-C65, C67, C71, C75, C83-C85 | impairments, quantisers, modulator, normalisation over R/C; exact DFT | DFT inversion and Parseval, trigonometry, level counting; (R) witnesses |
| C66, C86, C87 | front-end compensation and delay | second moments, shift theorem; (R) witnesses |
| C68, C88-C91 | raised cosines, pulse shaping, rectangular/Gauss/exponential filters, CDcomp | DFT of zero-stuffed sequences, Nyquist sums, gain per bin, overlap-add invariant; (R) witnesses |
| C69, C70, C92, C93 | error-rate formulas over R with erfc as an integral, shaping probabilities | Gaussian integral (Wallis), monotonicity, algebra |
| C71-C77 | theory, helpers, LUT, worker protocol, GMI units | algebra/induction; (R) witnesses |

## 5. Findings

Properties that the code does not satisfy. Each has a `_refuted` theorem giving the witness (or a general statement of the failure) and a `_partial` theorem for the part that holds.

- **C01** (Bit/symbol round trip of Gray-coded QAM): Proved for 1..16 bits per symbol, as the property is quantified; the refutation shows that the bound is needed (indices are stored in 16 bits).
- **C03** (Nearest neighbours of square QAM differ in one bit): Square QAM of every order; the cross counterexample stated in the property is 32-QAM, labels 0 and 12.
- **C10** (PRBSBits uses the orders and seeds it is given): The property is false of the code: given orders after the first are ignored when the list is short, a drawn seed may be 0, a short seed list raises.
- **C11** (make_prbs_intXOR returns a sequence): The property is false of the code: the wrapper passes three of four arguments and always raises TypeError. The underlying register is proved when called correctly.
- **C12** (Length adjustment aligns and equalises lengths): The property is false of the code: data[-0:] is the whole array, so an offset that is a positive multiple of the length gives too long a result; truncate ignores the offset. The exact condition for equal lengths is proved.
- **C13** (sync_and_adjust shifts periodically and equalises lengths): The property is false of the code only in the length for the offsets of C12; content, unchanged partner and exact length condition are proved, and recovery of a delayed turned periodic copy.
- **C17** (Synced length adjustment keeps modes and length): The property is false of the code when there are more received than transmitted modes: the extra received modes are dropped.
- **C18** (Bit-level synchronisation lines up the marker): The property is false of the code: beyond the end of rx the window is empty and is found at 0; the error raised is DataSyncError, not ValueError. One byte per element.
- **C19** (find_offset returns the first occurrence): The property is false of the code for elements of several bytes: a match across element boundaries is reported.
- **C30** (Selecting frames returns the payload of exactly these frames): The property is false of the code: get_data(frames) sizes its mask by the largest frame number, so any frame number above 0 raises and frame 0 works only for one-frame signals; cal_gmi with default frames raises on every multi-frame signal. extract_pilots is right.
- **C31** (Non-repeated pilots and data can be generated): The property is false of the code: repeat_pilots=False with two or more frames and pilots always raises ValueError.
- **C32** (from_symbol_array places given pilots and payload): The property is false of the code for an explicit pilot_idx: the index attributes are integers there and count_nonzero does not count index 0.
- **C33** (from_symbol_array has no memory between calls): The property is false of the code: M passed as keyword is stored in the mutable default of payload_kwargs.
- **C45** (segment_axis returns the right overlapping frames): The property is false of the code for end='wrap' with a frame longer than twice the array (ValueError instead of a cyclic continuation); an empty array trips an internal assertion.
- **C46** (rolling_window stays inside the array): The property is false of the code: with wrap=True and size > len+1 the strided view reaches outside the buffer.
- **C72** (Dropping edges keeps the middle): The property is false of the code for N=0, where everything is dropped.
- **C73** (Pilot index helper agrees with the frame layout): The property is false of the code: the marks are right only for two samples per symbol.
- **C74** (Pattern look-up table averages the right errors): The property is false of the code for memories longer than the sequence + 1 (windows reach outside the buffer). cal_lut with real patterns; alphabets with at most as many Q levels as I levels (all of the library's own).
- **C76** (Worker replies exactly once per request): The property is false of the code: an error text outside ascii, an unpackable result or a malformed request ends the worker without a reply. The module cannot be imported at all (it imports blindphasesearch, which core.phaserecovery does not define); the model leaves that import out.
- **C21** (Decision helpers agree with nearest neighbour): The property is false of the code: det_symbol starts from distance 1000 and symbol 1, so samples further than sqrt(1000) from every symbol give the non-symbol 1 (pythran_dsp: an unbound variable). Proved: if some symbol is nearer, all three helpers return the nearest one, first on ties; det_symbol_argmin returns the distance, the others its square.
- **C24** (EVM is a distance and blind EVM is a lower bound): True of the cal_evm method of the signal classes (both theorems). The property is false of core.signal_quality.cal_evm, which rescales both arguments by an estimated signal power: a doubled QPSK signal has EVM 0, and a 16-QAM point equal to its reference has a positive blind EVM.
- **C25** (SNR estimate splits the received power): The property is false of the code if a symbol of the alphabet does not occur in the reference: the mean over an empty selection is NaN. Proved if every symbol occurs.
- **C50** (Adaptive step size never grows): The property is false of the code with two or more modes: the OpenMP threads share the step size without synchronisation, so it can go back up. Proved: in every interleaving it stays positive and below its initial value; without threads it never increases. Threads are modelled by sequentially consistent interleavings.
- **C52** (Equaliser training is independent per mode): The property is false of the code for an adaptive step size, which is shared by the modes. Proved for a fixed step size and every interleaving; unselected modes are untouched also with an adaptive one.
- **C53** (Filter application is the sliding inner product): The property is false of the code in the number of symbols: the compiled version returns (l-ntaps+1)//os, the numpy version 1+(l-ntaps)//os. Everything else is proved.
- **C54** (Radius partition picks the nearest radius): True of rde for all alphabets. The property is false of mrde for 8-QAM (code books of different length are broadcast: wrong code or index out of range) and BPSK (nan).
- **C55** (Equaliser error functions vanish on target points and each method name selects its own error function): The property is false of the code: method 'sgncma' runs cma_error. Also found: the real-valued CMA uses the target of the real parts for the imaginary parts, wrong for 8-QAM. All other names select their error.
- **C57** (Two-stage equalisation gives each stage its own reference symbols): The property is false of the code if exactly one of the methods is data-aided and the first one is not blind: the references of the last method are used in both stages.
- **C78** (The equalised signal belongs to the selected modes): True of equalise_signal. The property is false of dual_mode_equalisation with real-valued methods and given modes: the modes are not doubled when the taps are applied, for one polarisation the result is empty.
- **C38** (Pilot-based phase recovery removes a static and a linear phase): The property is false of the code for several frames when the leading pilots are not used: the stored references of all frames are cut only once (see C39). True for one frame, and for all cases in which the references stay in step.
- **C39** (Phase pilots are compared with their own references in every frame): The property is false of the code: with nframes > 1 the references are out of step with the received pilots for signals of the constructor unless use_seq, and for every max_num_blocks below the number of pilots.
- **C48** (Blind phase search picks the minimising test phase): The property is false of the compiled search: distances are limited to 100 and window sums to 1000. True of the Python search for N >= 1, and of the compiled one below these limits.
- **C49** (Phase recovery only rotates samples): True of bps, comp_freq_offset and the impairments. The pilot CPE keeps the moduli but not the number of samples: it returns nframes frames.
- **C62** (Dispersion with D and then -D restores every mode): The property is false of the code with several modes: fftshift without axes also shifts the modes, so zero dispersion exchanges two polarisations and with three modes D followed by -D does not restore the order. True for one mode; D followed by -D also for even numbers of modes.
- **C63** (Quantiser error is bounded by half a step): The property is false of quantize_signal (rounds up to the next level, so errors reach a full step; divides its argument in place when rescaling) and of quantize_signal_New for modes of different peaks (all modes are scaled to the largest peak) and for plain arrays (AttributeError). quantize_signal_New is right for signal objects whose modes have one common peak.
- **C67** (Ideal modulator response): The modulator response is proved. The second half is false of the code: comp_mod_sin does not divide by pi, so with vpi=1 or the default 1.14 the cascade is not even monotonic; it is linear for vpi=1/pi.
- **C75** (simulate_transmission applies every requested impairment): The property is false of the code: a requested dispersion raises NameError (D is not defined). Every combination of the other impairments returns a signal.
- **C83** (Rescaling sets the peak, set_mid_point the centre): The property is false of rescale_signal for one-dimensional arrays (IndexError).
- **C84** (Pilot-based normalisation): The property is false of the code for one-dimensional arrays (IndexError although there is a branch for them).
- **C66** (IQ imbalance compensation orthogonalises I and Q): The property is false of the code: signals of full rank whose covariance reaches the power of the real part come back as nan, and the argument is centred in place. The exact conditions for both are proved.
- **C68** (Raised cosine satisfies Nyquist's criterion): The property is false of the code: without T the signal-object function passes the symbol rate itself as symbol period; a roll-off of zero raises ZeroDivisionError. Square and Nyquist criterion are proved for all frequencies.
- **C86** (orthonormalize_signal returns orthonormal quadratures): The property is false of the code: the imaginary part is divided by its power before orthogonalisation, so the powers differ whenever the parts are correlated; the exact ratio is proved.
- **C87** (comp_rf_delay delays by the given time): The property is false of the code: half the sampling rate is used as sample spacing, so the delay is 2*delay/sampling_rate samples.
- **C89** (pre_filter keeps the centre of the band): The property is false of the code: the cut is 2n/bw bins, so every fraction removes the whole signal; pre_filter_wdm always raises NameError.
- **C90** (Gaussian and exponential filters have a 3 dB cutoff and treat modes alike): The property is false of the code: a tone at the cutoff loses 24 dB (gauss) or 6 dB (exp), an odd number of modes is rotated, odd lengths shift the frequency grid by half a bin.
- **C91** (Dispersion compensation undoes the fibre): The property is false of the code: sign and frequency grid are not those of add_dispersion; block lengths that are not a multiple of four raise ValueError. One block over the whole signal is all-pass and inverted by the opposite dispersion.
- **C93** (generate_ps_symbols returns shaped symbols): The property is false of the code: the default (normalize=True) raises NameError because utils is not imported.
- **C35** (pilot_equaliser trains on the pilot sequence of the requested frame): The property is false of the code: with as many taps as the synchronisation the frame number is ignored, a pilot sequence starting before the first sample trains on an empty window, and apply=False with verbose=True returns None.
- **C37** (shift_signal compensates the frame shift for any number of modes): The property is false of the code: with one shift factor the signal is rolled in the opposite direction.
- **C77** (SNR passed on by pilot GMI has the unit the GMI expects): The property is false of the code: the estimated SNR is a ratio but cal_gmi takes decibels, so an SNR of 1 is used as 1 dB.
- **C94** (Frame synchronisation puts every mode in its place): The property is false of the code: self[mode_alignment] applies the inverse permutation, which is wrong for cycles of three modes.
- **C40** (Signal attributes survive every array operation and pickling): The property is false of the code in corners: np.concatenate loses all attributes, _power_method of hybrid signals and seeds of bits are not in the inherited lists, hybrid signals cannot be resampled, and sig.symbols refers back to sig. Slices, arithmetic, views, copies, in-place changes and pickling in any order keep every inherited attribute.
- **C41** (Recreated signals have consistent rates): The property is false of the code: the oversampling ratio is truncated to an integer, so any other ratio changes.
- **C42** (Resampling length): The property is false of the code: rates within 1.001e-5 of each other are taken as equal, and ratios below about 5e-7 become 0 and fail. The path through scipy.signal.resample_poly (beta=None) is an argument of the model.
- **C43** (from_symbol_array stores the bits of all modes): The property is false of the code: with several modes only the bits of the last mode are kept.
- **C44** (Time-domain hybrid frames interleave both constellations): The property is false of the code: from_symbol_arrays does not truncate its inputs and fails when they do not fill whole frames, and with fr 0 or 1.
- **C95** (Renormalised resampling keeps the power): The property is false of the code: without beta the flag is not passed on. A constant filtered signal has no power to restore.
- **C96** (from_symbol_array returns the symbols it is given): The property is false of the code: the scale comes from the distinct symbols present, so with points missing the symbols move.
- **C97** (from_bit_array carries its bits): The property is false of the code: bits that do not fill a symbol are not modulated but stay in the bits attribute.
- **C100** (The blind QPSK estimate is the SNR in dB): The property is false of the code: the power includes the noise, so the estimate is that of S/N + 1.
- **C101** (cal_ser_qam counts symbol errors): The property is false of the code: the default method is not accepted by make_decision, and the order M is passed as the symbols.
- **C102** (find_freq_offset finds the carrier offset): The property is false of the code beyond an eighth of the sampling rate: offsets alias modulo a quarter of it.
- **C103** (Two-stage blind phase search refines the one-stage search): The property is false of the code: with an even number of offsets, as the default 4, the phase of the first stage is not among the second ones.
- **C104** (partition_16qam separates the rings): The property is false of the code: cal_s0 gets 1.32 as the order, so the outer threshold lies 0.7 per cent above the middle ring.
- **C105** (phase_partition_16qam removes the carrier phase): The property is false of the code: the field is turned by the angle before division by four, all modes by that of the last one, and complex np.min compares real parts, not moduli.
- **C106** (ENOB noise is the noise of a quantiser and the reported SNR is the applied one): The property is false of the code: for a real signal the reported ratio is half the applied one.
- **C107** (DAC clipping limits the signal at clip_rat of its peak): The property is false of the code: every mode is scaled to its own peak.
- **C110** (A measured DAC response is applied): The property is false of the code: beyond the table the response is the magnitude in row 320, and applying a file always raises (astype of an array).
- **C113** (QPSKfromBERT carries the requested patterns): The property is false of the code: three modes raise IndexError (two default seeds), and with fewer orders than modes the remaining modes get random orders and seeds, also the seed zero (a constant signal).
- **C114** (QPSKfromBERT uses the whole constellation): The property is false of the code: equal orders and equal shifts (the defaults) make I and Q equal, so only two points occur. Proved for shifts that differ modulo the period.
- **C115** (Signals of bare symbols keep their symbols, decide to the nearest one and are evaluated against them): The property is false of the code: cal_mi without snr always raises TypeError, and the constructor does not relate M to the alphabet.
- **C116** (The numba equaliser agrees with the compiled one): The property is false of the code: ErrorFctRDE and ErrorFctMRDE always raise NameError, and further than sqrt(1000) from every symbol the compiled decision is 1 instead of the nearest symbol.
- **C118** (Periodic pilots remove the carrier phase): The property is false of the code: any number of polarisations other than two raises ValueError (reshape(2,1)), so does a shorter reference whose length is no multiple of the pilot ratio, and pilot_based_cpe2 always raises UnboundLocalError.
- **C121** (Arrays loaded from MATLAB files are the named ones): The property is false of the code: with several entries the format of the first is used for all (a later imaginary part is dropped, a later single name raises IndexError) and transpose is ignored.
- **C122** (Emulated polarisation multiplexing keeps the loaded symbols as first mode): The property is false of the code: the first mode is the delayed one, and a column vector of n symbols gives 2n modes of one symbol.
- **C123** (sim_tx distorts every mode of a frame independently): The property is false of the code: each delay rolls the whole flattened array, the rotation of two modes raises AttributeError, and without delays the caller's first row is overwritten. The quantisation options are not modelled.
- **C124** (The frame generators of the pilot transmitter return frames): The property is false of the code: the generators use names that are not imported, so no parameters give a frame.
- **C125** (PMD response matrices are unitary and applied without loss): The property is false of the code: the einsum sums the matrix over its second index instead of contracting it with the modes, so at 45 degrees a single mode is lost completely; and the product h3*H does not depend on the angle. Proved for an axis angle of zero.
- **C126** (Pulse shapes are symmetric with the stated maximum): The property is false of the code: supergauss of order 1/2 is larger than A left of the centre, and of order 3/4 not a number there. Proved for positive integer orders.
- **C127** (The raised cosine pulse has no intersymbol interference): The property is false of the code: at T/(2 beta) the value is not a number (division by zero), for roll-offs 1/(2k) this is a multiple of the period. Proved for all other multiples.
- **C128** (Bit errors are the differing bits): The property is false of the code: cal_ber_nosyncd reads a variable that is never assigned and always raises.
- **C130** (IQ bit streams are interleaved into one stream): The property is false of the code: the true division gives reshape a float dimension, TypeError for every input.
- **C131** (A dealer gets the answer of the worker): The property is false of the code: with an identity the dealer drops the reply (an empty one makes the worker fail), and PPWorker uses attributes and names that do not exist. Proved without identity. The module cannot be imported at all (it imports blindphasesearch, which core.phaserecovery does not define); the model leaves that import out.
- **C132** (Orthogonalised taps): The property is false of the code: a minus sign is missing, the determinant is |X0|^2-|X1|^2 instead of the sum. Taps exist which are returned unchanged, and with equal rows the pair is singular at every frequency. Orthogonality is proved for a single polarisation.
- **C134** (_lms_init prepares signal and taps): The property is false of the code: the name pols is not defined, so every call raises.
- **C135** (set_mid_and_resale centres and rescales): The property is false of the code: a mid-position other than zero is scaled with the signal, and one-dimensional signals raise IndexError. Proved for one mode and mid-position zero.
- **C138** (corr_foe removes the offset found in the frame synchronisation): The property is false of the code: the mean of the offsets is removed from all modes (opposite offsets are left in place), and a second call raises AttributeError. Proved for the mean offset and a first call.
- **C139** (Monte Carlo mutual information): The property is false of the code in its last part: the array of the caller is normalised in place. Bounds and invariances are proved for all alphabets; without power everything is nan.
- **C141** (BER of hybrid formats): The property is false of the code: the name theory is not defined in theory.py, so every call raises NameError. Proved for the returned expression with any BER function.
- **C142** (An undisturbed signal is evaluated without errors): The property is false of the code for alphabets not kept by a quarter turn: BPSK turned by a quarter has SER 1 and BER 0, since decisions are compared with turned symbols. Synchronisation is proved for all formats, zero error rates for all square and cross QAM and all PSK from 4 points on.
- **C145** (Cutting the blind phase search into blocks does not change it): The property is false of the code: if no sample fits into a block (NMAX below 16 times angles times symbols) the search divides by zero. Proved for all signals longer than 2N that fit into one block, or when a block is longer than N and the number of samples modulo the block is not exactly N; in the excluded case the last block is empty and the outcome depends on how arrayfire treats empty arrays, which is modelled as an error. arrayfire calls are modelled by what they compute; conversions of number types are left out.

## 6. Axioms per theorem

From `Print Assumptions` beside each theorem. All axioms are from the standard library.

- Closed under the global context: `C118_second_refuted`, `C112_balance`, `C112_pairs`, `C134_refuted`, `C51_length`, `C56_roundtrip`, `C57_mixed_order_refuted`, `C101_ser_refuted`, `C101_errors_partial`, `C89_wdm_refuted`, `C86_step`, `C59_delay`, `C59_modes`, `C83_one_dimension_refuted`, `C84_one_dimension_refuted`, `C02_bin2gray_bijection`, `C02_bin2gray_adjacent`, `C131_value_partial`, `C131_error_partial`, `C131_identity_refuted`, `C131_empty_identity_refuted`, `C131_ppworker_refuted`, `C116_names_refuted`, `C37_several_modes_partial`, `C37_one_mode_refuted`, `C37_correct_shifts_partial`, `C28_partition`, `C29_inverse`, `C30_pilots_partial`, `C30_pilots_reject_partial`, `C30_single_frame_partial`, `C30_get_data_refuted`, `C30_cal_gmi_refuted`, `C30_signals_exist`, `C31_repeated_partial`, `C31_non_repeated_pilots_refuted`, `C32_regular_partial`, `C32_whole_frame_partial`, `C32_generated_pilots_refuted`, `C32_data_first_refuted`, `C32_get_data_refuted`, `C33_no_memory_partial`, `C33_repeated_call_refuted`, `C33_stale_order_refuted`, `C08_recurrence`, `C08_default_seed`, `C09_maximal_period`, `C09_zero_seed`, `C10_given_rows_partial`, `C10_first_row_partial`, `C10_given_order_ignored_refuted`, `C10_constant_refuted`, `C10_default_seeds_refuted`, `C11_always_raises_refuted`, `C11_prbs_int_partial`, `C20_empty_alphabet`, `C93_draw_partial`, `C93_default_refuted`, `C119_remainder`, `C119_recurrence`, `C119_reversible`, `C119_zero`, `C119_maximal_period`, `C120_recurrence`, `C120_reversible`, `C120_long_tap`, `C40_operations_partial`, `C40_chains_partial`, `C40_save_load_partial`, `C40_qam_constructor`, `C40_symbol_only_constructor`, `C40_tdhqam_constructor`, `C40_pilots_constructor`, `C40_resample_partial`, `C40_concatenate_refuted`, `C40_slice_drops_refuted`, `C40_save_drops_refuted`, `C40_tdhqam_resample_refuted`, `C40_alias_refuted`, `C41_kept_partial`, `C41_ratio_partial`, `C41_ratio_refuted`, `C44_fractions`, `C124_phase_pilots_refuted`, `C124_hybrid_refuted`, `C124_format_count_partial`, `C12_extend_partial`, `C12_truncate_partial`, `C12_none_partial`, `C12_multiple_offset_refuted`, `C12_truncate_offset_refuted`, `C17_synced_partial`, `C18_rx2tx_partial`, `C18_tx2rx_partial`, `C18_error_partial`, `C18_empty_window_refuted`, `C19_byte_elements_partial`, `C19_never_missed_partial`, `C19_misaligned_refuted`, `C141_refuted`, `C129_factorial`, `C130_refuted`, `C45_segment_partial`, `C45_invalid`, `C45_counts`, `C45_wrap_refuted`, `C46_window_partial`, `C46_bounds_refuted`, `C72_dump_partial`, `C72_zero_refuted`, `C73_marks_partial`, `C73_oversampling_refuted`, `C74_injective`, `C74_memory_refuted`, `C76_replies_partial`, `C76_at_most_one`, `C76_reply_refuted`.
- Uses `ClassicalDedekindReals.sig_forall_dec`: `C115_constructor`, `C115_order_refuted`, `C56_split`, `C56_join`, `C121_one_array_partial`, `C121_one_pair_partial`, `C121_modes_partial`, `C121_mode_pairs_partial`, `C121_ports`, `C121_missing`, `C121_unequal_lengths`, `C144_signal`, `C144_pilots`, `C144_error`, `C39_constructor_partial`, `C34_short_signal`, `C42_zero_insertion`, `C111_causal`.
- Uses `ClassicalDedekindReals.sig_forall_dec`, `FunctionalExtensionality.functional_extensionality_dep`: `C132_involution`, `C132_energy`, `C132_single_partial`, `C132_product`, `C132_same_refuted`, `C50_bounded_partial`, `C50_bounded_real_partial`, `C50_sequential_partial`, `C50_sequential_real_partial`, `C50_race_refuted`, `C52_fixed_step_partial`, `C52_fixed_step_real_partial`, `C52_fixed_step_fails_alone_partial`, `C52_unselected_modes_partial`, `C52_adaptive_refuted`, `C53_filter_partial`, `C53_filter_real_partial`, `C53_numpy_partial`, `C53_linear_partial`, `C53_linear_taps_partial`, `C53_delta_partial`, `C53_counts_refuted`, `C55_decision_zero_real`, `C55_cma_zero_real`, `C55_names_real_partial`, `C79_step`, `C79_step_real`, `C99_cross`, `C63_nearest_partial`, `C63_rescaled_partial`, `C63_peaks_refuted`, `C63_ndarray_refuted`, `C64_clipper`, `C83_rescale_partial`, `C83_amplifier`, `C83_mid_point`, `C121_mixed_refuted`, `C121_transpose_refuted`, `C135_mid_zero_partial`, `C135_mid_refuted`, `C135_one_dimension_refuted`, `C136`, `C136_one_dimension`, `C116_training_partial`, `C116_partition_partial`, `C117_sca_zero`, `C117_sca_quarter_turn`, `C34_frames_complex`, `C34_frames_real`, `C34_concatenation`, `C111_cascade`, `C111_unique`, `C111_linear`, `C111_delay`, `C128_count`, `C128_same`, `C128_inverted`, `C129_linspacestep`, `C47_moving_average`, `C74_patterns_partial`, `C74_table_partial`.
- Uses `ClassicalDedekindReals.sig_forall_dec`, `ClassicalDedekindReals.sig_not_dec`, `FunctionalExtensionality.functional_extensionality_dep`: `C113_samples_partial`, `C113_modes_refuted`, `C113_default_refuted`, `C114_counts_partial`, `C114_points_refuted`, `C115_given_alphabet`, `C115_default_alphabet`, `C115_single_mode`, `C115_ser`, `C115_ser_self`, `C132_determinant`, `C132_singular_refuted`, `C133_ratio`, `C133_four`, `C51_training_windows`, `C51_default_length`, `C54_rde`, `C54_mrde_partial`, `C54_mrde_8qam_refuted`, `C54_mrde_bpsk_refuted`, `C55_decision_zero`, `C55_data_zero`, `C55_cma_target`, `C55_mcma_target`, `C55_cma_real_target`, `C55_cma_real_8qam_refuted`, `C55_cma_zero`, `C55_rde_zero`, `C55_names_cma_partial`, `C55_names_decision_partial`, `C55_names_data_partial`, `C55_names_unknown`, `C55_sgncma_refuted`, `C56_references`, `C56_reference_row`, `C56_generated`, `C57_references_partial`, `C57_mixed_refuted`, `C78_equalise`, `C78_equalise_real`, `C78_dual_partial`, `C78_dual_real_partial`, `C78_dual_real_modes_refuted`, `C79_dd`, `C79_cma`, `C99_snr`, `C99_power`, `C99_noise_free`, `C99_square`, `C102_grid_partial`, `C102_compensated_partial`, `C102_alias_refuted`, `C103_python_partial`, `C103_compiled_partial`, `C103_near_partial`, `C103_odd_partial`, `C103_even_refuted`, `C104_rings_partial`, `C104_noise_refuted`, `C68_square`, `C68_nyquist`, `C68_width_partial`, `C68_width_refuted`, `C68_rolloff_refuted`, `C88_no_isi`, `C88_filter`, `C89_lowpass_partial`, `C89_fraction_refuted`, `C89_wide_refuted`, `C91_whole_partial`, `C91_defined_partial`, `C91_gain_partial`, `C91_blocks_partial`, `C91_fibre_refuted`, `C91_blocks_refuted`, `C86_orthogonal_partial`, `C86_domain_partial`, `C86_equal_power_refuted`, `C87_delay_partial`, `C87_delay_refuted`, `C58_rotation`, `C58_modes`, `C61_lossless`, `C61_additive`, `C61_delay`, `C61_modes`, `C62_single_mode_partial`, `C62_one_row_partial`, `C62_tone_partial`, `C62_modes_partial`, `C62_even_partial`, `C62_modes_refuted`, `C63_rounds_up_partial`, `C63_half_step_refuted`, `C63_argument_refuted`, `C65_normalised`, `C65_constant`, `C67_modulator`, `C84_pilots_partial`, `C142_sync`, `C142_no_errors_partial`, `C142_alphabet_turns`, `C142_bpsk_refuted`, `C143_sync`, `C143_no_errors`, `C01_qam_roundtrip`, `C01_psk_roundtrip`, `C01_17_bits_refuted`, `C02_qam_labelling`, `C03_square_neighbours_gray`, `C03_cross_refuted`, `C04_psk_circular_gray`, `C05_square_alphabet`, `C05_unit_power`, `C05_minimum_distance`, `C06_cross_alphabet`, `C07_qam_bitmap`, `C07_psk_bitmap`, `C122_two_modes_partial`, `C122_plain`, `C122_first_mode_delayed_refuted`, `C122_column_refuted`, `C137`, `C116_moduli_partial`, `C116_decisions_partial`, `C116_far_refuted`, `C117_cme_lattice`, `C117_cme_odd`, `C38_correct_partial`, `C48_python_partial`, `C48_compiled_limits_partial`, `C48_compiled_partial`, `C48_agree_partial`, `C48_refuted`, `C48_no_window_refuted`, `C49_bps_partial`, `C49_comp_freq_partial`, `C49_phase_noise_partial`, `C49_carrier_partial`, `C60_offset_roundtrip`, `C80_bps_python`, `C80_bps_compiled`, `C80_costs`, `C80_recovers`, `C145_index_partial`, `C145_python_partial`, `C145_bps_partial`, `C145_small_refuted`, `C35_frame_partial`, `C35_window_partial`, `C35_same_taps_refuted`, `C35_negative_start_refuted`, `C35_verbose_refuted`, `C36_permutation_and_shifts`, `C94_two_modes_partial`, `C94_modes_found_partial`, `C94_three_modes_refuted`, `C125_unitary`, `C125_axis_zero_partial`, `C125_energy_refuted`, `C125_axis_refuted`, `C127_even`, `C127_nyquist_partial`, `C127_singular_refuted`, `C20_make_decision`, `C20_signal`, `C21_det_symbol_partial`, `C21_far_sample_refuted`, `C22_rates`, `C23_small_noise`, `C24_signal_evm_partial`, `C24_blind_partial`, `C24_scaled_refuted`, `C24_blind_refuted`, `C25_estimate_partial`, `C25_signal_partial`, `C25_unused_symbol_refuted`, `C70_levels`, `C70_distribution`, `C42_length_partial`, `C42_closest_partial`, `C42_polyphase`, `C42_own_rate`, `C42_almost_one_refuted`, `C42_tiny_refuted`, `C95_renormalise_partial`, `C95_no_filter_refuted`, `C43_one_mode_partial`, `C43_last_mode_partial`, `C43_several_modes_refuted`, `C96_full_alphabet_partial`, `C96_corner_refuted`, `C97_whole_symbols_partial`, `C97_truncated_partial`, `C97_truncated_refuted`, `C44_constructor_partial`, `C44_from_arrays_partial`, `C44_truncation_refuted`, `C44_single_format_refuted`, `C98_equal_distance`, `C13_adjust_tx_partial`, `C13_adjust_rx_partial`, `C13_succeeds`, `C13_recovers_periodic`, `C13_equal_length_refuted`, `C14_first_maximum`, `C14_recovers_position`, `C14_recovers_position_energy`, `C15_rotation`, `C15_empty`, `C15_recovers`, `C16_one_to_one`, `C16_too_many_modes`, `C16_succeeds`, `C17_extra_modes_refuted`, `C138_mean_partial`, `C138_carrier_partial`, `C138_mode_offsets_refuted`, `C138_second_call_refuted`, `C110_table_partial`, `C110_fill_partial`, `C110_fill_refuted`, `C110_apply_refuted`, `C128_unsynchronised_refuted`.
- Uses `ClassicalDedekindReals.sig_forall_dec`, `ClassicalDedekindReals.sig_not_dec`, `Classical_Prop.classic`, `FunctionalExtensionality.functional_extensionality_dep`: `C118_trace_partial`, `C118_constant_partial`, `C118_linear_partial`, `C118_removal_partial`, `C118_too_few_partial`, `C118_polarisations_refuted`, `C118_references_refuted`, `C115_mi_refuted`, `C100_blind_partial`, `C100_blind_refuted`, `C102_near_partial`, `C105_rotation_partial`, `C105_phase_partial`, `C105_field_refuted`, `C105_phase_refuted`, `C90_gauss_one_partial`, `C90_gauss_modes_partial`, `C90_exp_one_partial`, `C90_exp_modes_partial`, `C90_cutoff_refuted`, `C90_modes_refuted`, `C90_exp_modes_refuted`, `C90_odd_refuted`, `C66_orthogonal_partial`, `C66_domain_partial`, `C66_rank_refuted`, `C66_argument_partial`, `C66_argument_refuted`, `C67_cascade_partial`, `C67_cascade_refuted`, `C71_lin`, `C71_dB`, `C75_returns_partial`, `C75_order_partial`, `C75_dispersion_refuted`, `C85_noise_power`, `C38_const_partial`, `C38_line_partial`, `C38_find_partial`, `C38_refuted`, `C39_partial`, `C39_refuted`, `C39_blocks_refuted`, `C49_pilot_cpe_partial`, `C49_refuted`, `C81_viterbi`, `C82_pilot_foe`, `C77_pilot_snr_partial`, `C77_unit_refuted`, `C77_one_refuted`, `C126_gauss`, `C126_sech`, `C126_ttanh`, `C126_supergauss_partial`, `C126_supergauss_refuted`, `C26_gmi`, `C26_gmi_defined`, `C26_mi`, `C26_mi_defined`, `C26_mi_mc`, `C26_gmi_mc`, `C27_soft_demapper`, `C69_form`, `C69_guess`, `C69_decreasing`, `C92_ber`, `C92_ser`, `C92_range`, `C92_decreasing`, `C92_evm`, `C92_psk`, `C92_pam`, `C70_levels_power`, `C70_symbols_power`, `C123_normalised`, `C123_rows_partial`, `C123_one_mode_delay_partial`, `C123_wrong_number_of_delays`, `C123_two_delays_refuted`, `C123_rotation_refuted`, `C123_argument_refuted`, `C139_value`, `C139_scale`, `C139_order`, `C139_array_refuted`, `C139_no_power_partial`, `C140_bounds`, `C140_elementwise`, `C141_expression_partial`, `C106_complex_partial`, `C106_real_partial`, `C106_real_refuted`, `C107_off_partial`, `C107_modes_partial`, `C107_common_partial`, `C107_refuted`, `C108_amplitude`, `C108_drive`, `C108_ideal`, `C109_mmse`.
