{"id": "C01", "title": "The number of simultaneously tracked sines never exceeds max_n_sines", "statement": "Whatever sequence of spectral frames is fed to a SineTracker or ModalTracker, after every frame the number of active tracks is at most max_n_sines (0 if max_n_sines is negative), and inside one frame no peak that was left free is refused a new track while there is still room.", "quantifier": "all tracker parameters, all finite sequences of frames, each with any number of peaks", "why_tests_cant": "A test feeds a handful of recordings; the bound must survive every interleaving of continuing, dying and newborn tracks over arbitrarily long frame histories.", "anchors": ["sample/sms/sm.py: SineTracker.__call__", "sample/sms/sm.py: SineTracker.n_active_tracks"]}
{"id": "C02", "title": "Every sample of every track is a real peak of the right frame, and no peak is used twice", "statement": "For every frame history, in every active or saved track starting at frame s, sample k carries the frequency, magnitude and phase of one and the same peak of frame s+k (gaps introduced by merging excepted), and no two samples of any tracks are taken from the same peak of the same frame.", "quantifier": "all tracker parameters, all frame histories, all tracks and sample positions", "why_tests_cant": "Needs an invariant over whole histories relating a mutable track list to every past frame; tests only look at final output of a few signals.", "anchors": ["sample/sms/sm.py: SineTracker.__call__", "sample/sms/sm.py: SineTracker.deactivate", "sample/sms/mm.py: ModalTracker.deactivate"]}
{"id": "C03", "title": "Peak-to-track continuation is a loudness-prioritised nearest match within the deviation threshold", "statement": "In every frame: a peak continues a track only if its distance from the track's last frequency is strictly below freq_dev_offset + freq_dev_slope*f; a continued track is a nearest one among those not already continued by a peak at least as loud; and a peak that is left free is out of threshold for every track that dies in that frame.", "quantifier": "all tracker states, all frames, all peaks and tracks of that frame", "why_tests_cant": "The rule is a universally quantified optimality condition over all pairs (peak, track); ties, equal loudness and exhausted tracks are corner cases no finite set of frames enumerates.", "anchors": ["sample/sms/sm.py: SineTracker.__call__", "sample/sms/sm.py: min_key", "sample/sms/sm.py: SineTracker.df"]}
{"id": "C04", "title": "Reported sine tracks are long enough and none that is long enough is lost", "statement": "After any frame history, the tracks reported by a SineTracker are exactly the maximal tracks ever started whose length is at least min_sine_len (itself at least 2 frames and at least min_sine_dur seconds); saved tracks are never altered or removed by later frames.", "quantifier": "all parameters, all histories, all extensions of a history", "why_tests_cant": "Completeness (nothing lost) and immutability under all continuations quantify over unseen futures.", "anchors": ["sample/sms/sm.py: SineTracker.track_ok", "sample/sms/sm.py: SineTracker.all_tracks_", "sample/sms/sm.py: SineTracker.min_sine_len"]}
{"id": "C05", "title": "Active tracks are contiguous up to the present frame", "statement": "After every frame of any history each active track has equally long frequency, magnitude and phase lists, is not empty, and its start frame plus its length equals the number of frames processed so far.", "quantifier": "all parameters and frame histories", "why_tests_cant": "Off-by-one errors in the frame counter only show up for particular birth/death interleavings.", "anchors": ["sample/sms/sm.py: SineTracker.__call__", "sample/sms/sm.py: SineTracker._frame"]}
{"id": "C06", "title": "Modal tracks satisfy the acceptance criteria as mathematically defined", "statement": "Every contiguous segment that a ModalTracker reports has length at least min_sine_len, mean frequency inside frequency_bounds (when given), and its least-squares line of magnitude against playback-time frame index has non-positive slope and intercept at least peak_threshold; conversely every finished segment with these properties is reported (possibly merged).", "quantifier": "all parameters including reverse mode and absent bounds, all frame histories, all segments", "why_tests_cant": "Acceptance is defined through a minimisation problem; it must hold for every magnitude sequence and every history.", "anchors": ["sample/sms/mm.py: ModalTracker.track_ok", "sample/sms/mm.py: ModalTracker.deactivate"]}
{"id": "C07", "title": "Merging keeps every sample, in time order, with NaN exactly in the gaps", "statement": "For every history, each track saved by a ModalTracker is a sequence of accepted segments at increasing, non-touching frame positions separated by NaN runs exactly as long as the gaps; the segments of all saved tracks together are exactly the accepted finished segments, each used once.", "quantifier": "all parameters, merge strategies and frame histories", "why_tests_cant": "A multiset-conservation statement over mutable in-place merging along arbitrary histories.", "anchors": ["sample/sms/mm.py: ModalTracker.deactivate"]}
{"id": "C08", "title": "A finished modal track is merged into the closest earlier track within threshold, and nothing else changes", "statement": "When an accepted track ends it is appended to the saved track, among those that ended strictly before its start with at least one frame of gap, that is nearest in frequency under the merge strategy, provided that distance is below the deviation threshold at its first frequency; otherwise it becomes a new saved track. All other saved tracks are unchanged and keep their order.", "quantifier": "all tracker states, all ending tracks, both merge strategies", "why_tests_cant": "Optimality and frame (nothing-else-changes) conditions over all states.", "anchors": ["sample/sms/mm.py: ModalTracker.deactivate", "sample/sms/mm.py: _track_diff_avg", "sample/sms/mm.py: _track_diff_single", "sample/sms/sm.py: min_key"]}
{"id": "C09", "title": "Strip time selects exactly the tracks whose onset is early enough", "statement": "With strip_t=s the reported tracks are exactly the reportable ones whose onset frame (counted from the end of the analysed signal in reverse mode) is at most ceil(s*fs/h), in the same order; with strip_t=None nothing is dropped.", "quantifier": "all strip times, all histories, forward and reverse mode", "why_tests_cant": "Off-by-one at the boundary frame for arbitrary rate/hop/strip combinations.", "anchors": ["sample/sms/mm.py: ModalTracker.all_tracks_", "sample/sms/mm.py: ModalTracker.strip_n"]}
{"id": "C10", "title": "An unsupported merge strategy is reported before any track is merged or saved under it", "statement": "With an unknown merge_strategy no track is ever saved: processing raises KeyError at the first accepted track that ends, and a history in which no accepted track ends raises nothing (so the misconfiguration is silent).", "quantifier": "all frame histories and all strategy names", "why_tests_cant": "Tests exercise one signal; whether the error surfaces depends on the history.", "anchors": ["sample/sms/mm.py: ModalTracker.freq_diff_function", "sample/sms/mm.py: ModalTracker.deactivate"]}
{"id": "C11", "title": "Fitting is independent of whatever was fitted before", "statement": "For any earlier state of a model (any sequence of previous fits), fitting the same input with the same parameters yields the same tracks and the same stored intermediate frames as fitting a fresh instance.", "quantifier": "all previous states, all inputs", "why_tests_cant": "Quantifies over all possible leftover states; a test re-fits once or twice.", "anchors": ["sample/sms/sm.py: SinusoidalModel.fit", "sample/sms/sm.py: SineTracker.reset", "sample/utils/learn.py: OptionalStorage.reset"]}
{"id": "C12", "title": "min_key returns the first minimiser", "statement": "For every iterable and key function without NaN, min_key returns an element of the iterable with its key value, no element has a smaller key, every earlier element has a strictly larger key; for the empty iterable it returns (None, None). If the first key is NaN that element is returned.", "quantifier": "all finite iterables and key functions", "why_tests_cant": "First-minimum and NaN behaviour for every list.", "anchors": ["sample/sms/sm.py: min_key"]}
{"id": "C13", "title": "Overlapping windows are exact, in bounds and maximal in number", "statement": "For every array length N, window size w>=1 and hop>=1 with w<=N, overlapping_windows has 1+(N-w)//hop rows, row i column j is element i*hop+j, all those indices lie inside the array, and one more window would not fit. For shorter arrays no window is produced, or a negative shape is requested.", "quantifier": "all sizes, windows, hops and array contents", "why_tests_cant": "as_strided performs no bounds check, so an error is a silent read outside the array for some size combination.", "anchors": ["sample/utils/dsp.py: n_windows", "sample/utils/dsp.py: overlapping_windows"]}
{"id": "C14", "title": "Zero padding keeps the signal intact and every sample is analysed", "statement": "With padded=True the padded input is (w+1)//2 zeros, the signal, w//2 zeros; if the hop is at most w//2+1 every input sample is covered by at least one analysis window; without padding the input is returned unchanged.", "quantifier": "all signals, window sizes and hops", "why_tests_cant": "Coverage of the tail depends on the residue of the signal length modulo the hop.", "anchors": ["sample/sms/sm.py: SinusoidalModel.pad_input", "sample/sms/sm.py: SinusoidalModel.time_frames"]}
{"id": "C15", "title": "The zero-phase DFT buffer is a circular shift of the windowed frame", "statement": "For 2<=w.size<=n the buffer given to the FFT holds every windowed sample exactly once at position (i - w.size//2) mod n and zeros elsewhere, so bin k equals the DFT of the windowed frame referred to its centre sample; the normalised window sums to one.", "quantifier": "all frames, windows and FFT sizes", "why_tests_cant": "Odd/even window sizes and padding amounts are infinitely many.", "anchors": ["sample/sms/dsp.py: dft", "sample/sms/sm.py: SinusoidalModel._normalized_window"]}
{"id": "C16", "title": "Peak detection returns exactly the strict interior local maxima above threshold", "statement": "peak_detect returns, in increasing order and without repetition, exactly the indices strictly inside the array whose value is strictly greater than both neighbours and (if a threshold is given) than the threshold; no two returned indices are adjacent.", "quantifier": "all arrays and thresholds", "why_tests_cant": "Soundness and completeness over all arrays.", "anchors": ["sample/sms/dsp.py: peak_detect"]}
{"id": "C17", "title": "Parabolic refinement returns the vertex of the parabola through the three points", "statement": "For every detected peak the refined location differs from the bin by less than 1/2, the refined magnitude is the maximum of the parabola through the three samples (at least the centre sample), the denominator never vanishes, refined locations keep strictly increasing order and the interpolated phase lies between the phases of the two neighbouring bins.", "quantifier": "all spectra and all detected peaks", "why_tests_cant": "Universally quantified analytic fact (including no division by zero).", "anchors": ["sample/sms/dsp.py: peak_refine", "sample/sms/dsp.py: peak_detect_interp"]}
{"id": "C18", "title": "Track preprocessing keeps time, magnitude and frequency aligned and drops exactly the gaps", "statement": "For every track, the time axis, magnitudes and frequencies passed to the regressor have equal length, contain exactly the non-NaN samples in order, entry j corresponding to the same frame; times are strictly increasing (strictly decreasing in reverse mode), consecutive frames are h/fs apart; magnitudes are shifted by 20*log10(2).", "quantifier": "all tracks, forward/reverse, padded or not", "why_tests_cant": "Alignment must hold for every NaN pattern.", "anchors": ["sample/sample.py: SAMPLE._preprocess_track"]}
{"id": "C19", "title": "Decay and amplitude are recovered exactly from an exponentially decaying partial", "statement": "For all a>0 and d>0, the dB envelope of a*exp(-2t/d) is a straight line whose slope and intercept the model maps back to exactly d and a; conversely for every regression result k<0 and q the resynthesised envelope in dB is the line k*t+q.", "quantifier": "all real amplitudes, decays, slopes, intercepts and times", "why_tests_cant": "An algebraic identity over the reals.", "anchors": ["sample/sample.py: SAMPLE._fit_track", "sample/sample.py: additive_synth", "sample/utils/dsp.py: db2a"]}
{"id": "C20", "title": "Modal energy is the integral of the squared envelope", "statement": "For every amplitude a and decay d>0, modal_energy(a,d) is the improper integral over t>=0 of (a*exp(-2t/d))^2.", "quantifier": "all real a and d>0", "why_tests_cant": "An integral identity.", "anchors": ["sample/sample.py: modal_energy"]}
{"id": "C21", "title": "Fitted parameters are finite, complete and in track order", "statement": "After fit every entry of the parameter matrix is finite; its columns are exactly, in track order, the parameter tuples of the tracks that are entirely finite; with no tracks the matrix has the right number of rows and no columns.", "quantifier": "all sequences of per-track results including NaN and infinities", "why_tests_cant": "Quantifies over all result sequences, including numerically degenerate ones.", "anchors": ["sample/sample.py: SAMPLE.fit", "sample/sample.py: SAMPLE._valid_params_"]}
{"id": "C22", "title": "Mode ordering is a sorting permutation and truncation keeps the strongest modes", "statement": "mode_argsort_ is a permutation of the mode indices along which the chosen feature is non-increasing (non-decreasing with reverse=False); predict with n_modes=k uses min(k,N) distinct modes such that no omitted mode has a larger feature value than a used one; when k>=N all orders give the same output.", "quantifier": "all parameter matrices, orders and k", "why_tests_cant": "Optimality over all omitted modes for every parameter set.", "anchors": ["sample/sample.py: SAMPLE.mode_argsort_", "sample/sample.py: SAMPLE.predict"]}
{"id": "C23", "title": "Additive synthesis is the superposition of its modes, independent of their order, bounded by the total amplitude", "statement": "additive_synth at time t equals the sum over modes of a*exp(-2t/d)*cos(2*pi*f*t+phi); it is additive over concatenation of mode lists, invariant under any simultaneous permutation of the modes, homogeneous in amplitude and, for t>=0 and positive decays, at most the sum of |a|; at t=0 with zero phases it is the sum of a.", "quantifier": "all mode lists and time points", "why_tests_cant": "Algebraic laws over all inputs.", "anchors": ["sample/sample.py: additive_synth", "sample/sample.py: SAMPLE.predict"]}
{"id": "C24", "title": "The SDT export is consistent with the fitted model", "statement": "For every fitted model with at least one mode, the exported freqs, decays, gains and weights have nModes entries, position i of all lists refers to the same mode, weights sum to one, activeModes is min(max_n_modes, nModes); with zero modes the export raises ZeroDivisionError.", "quantifier": "all parameter matrices, orders and max_n_modes", "why_tests_cant": "List association for every permutation; error branch for empty fits.", "anchors": ["sample/sample.py: SAMPLE.sdt_params_"]}
{"id": "C25", "title": "Parallel fitting gives the same result as serial fitting for every completion schedule", "statement": "Whatever the order in which worker processes finish and however often the main thread polls, the parallel starmap delivers the same results in the same order as the serial one, terminates once all jobs are done and reports a non-decreasing progress count that never exceeds the number of jobs.", "quantifier": "all job lists, all completion schedules", "why_tests_cant": "Schedules are nondeterministic and unbounded.", "anchors": ["sample/_training.py: _progress_starmap", "sample/_training.py: FitArgs.starmap_progress", "sample/sample.py: SAMPLE.fit"]}
{"id": "C26", "title": "Temporary managed storages are always rolled back", "statement": "However training ends (normally or by an exception at any point), the model's storages are afterwards the original objects; after a normal end they contain exactly what the managed ones recorded, after an exception they contain what they contained before.", "quantifier": "all training bodies, all exception points, all nesting of keys", "why_tests_cant": "Crash points are universally quantified.", "anchors": ["sample/_training.py: _wrap_as_managed", "sample/_training.py: sample_training_context"]}
{"id": "C27", "title": "Optional storage: a recorder that never changes the data flow", "statement": "append always returns its value; with save=False no sequence of operations creates state; with save=True the list under a key is the sequence of appended values, an indexed append sets exactly that index and pads with None, indexed appends with distinct indices commute, other keys are unaffected, reset forgets everything.", "quantifier": "all operation sequences", "why_tests_cant": "Algebra over all operation sequences and interleavings.", "anchors": ["sample/utils/learn.py: OptionalStorage"]}
{"id": "C28", "title": "Deprecated arguments: renaming preserves every other argument", "statement": "A call with a deprecated keyword behaves as the same call with the new keyword: all other keywords are passed unchanged, exactly one warning is issued per deprecated keyword, calls without it are unchanged and silent; if both old and new are given the old value silently wins; with prefix=True exactly the keywords starting with the prefix are renamed.", "quantifier": "all keyword dictionaries, key names and values", "why_tests_cant": "All dictionaries, including overlapping names.", "anchors": ["sample/utils/__init__.py: deprecated_argument"]}
{"id": "C29", "title": "Default properties never share instances between objects", "statement": "For every history of constructions and assignments, two objects whose property was set to None hold different freshly built values, an explicitly given value is stored as is, and reading twice returns the same value.", "quantifier": "all construction/assignment histories", "why_tests_cant": "Sharing bugs depend on the history of objects created.", "anchors": ["sample/utils/learn.py: _DefaultProperty", "sample/utils/learn.py: default_property"]}
{"id": "C30", "title": "Function variants dispatch to exactly the registered variant", "statement": "After any sequence of registrations, calling with option k runs the last function registered under k with the remaining arguments untouched, with no option runs the default one, and with an unregistered option raises ValueError naming all registered options.", "quantifier": "all registration histories, options and arguments", "why_tests_cant": "History- and option-dependent.", "anchors": ["sample/utils/__init__.py: function_with_variants", "sample/utils/__init__.py: function_variant"]}
{"id": "C31", "title": "In-place evaluation gives the same result as fresh evaluation", "statement": "For every elementwise numpy-style function of the library, passing the input array itself (or any other array) as out= yields the same returned values as letting the function allocate, leaves other arrays untouched and stores the result in out; modal_energy is correct when out is the amplitude array but not when out is the decay array; a_weighting(db=True) leaves linear weights in out.", "quantifier": "all input arrays and all aliasing patterns between inputs and out", "why_tests_cant": "Aliasing patterns times array contents; numerically wrong only when an overwritten input is read again.", "anchors": ["sample/psycho.py: hz2bark, bark2hz, hz2mel, mel2hz, erb, hz2cams, cams2hz, a_weighting", "sample/utils/dsp.py: normalize, db2a, a2db", "sample/sample.py: modal_energy", "sample/utils/__init__.py: numpy_out"]}
{"id": "C32", "title": "Mel conversions are mutually inverse and increasing", "statement": "For both Mel definitions, mel2hz(hz2mel(f))=f for every admissible f, hz2mel(mel2hz(m))=m for every m, both are strictly increasing and 0 maps to 0.", "quantifier": "all real frequencies above the singularity, all mel values", "why_tests_cant": "Tests sample a grid; the law is over the continuum.", "anchors": ["sample/psycho.py: hz2mel", "sample/psycho.py: mel2hz"]}
{"id": "C33", "title": "Bark conversions are mutually inverse and increasing", "statement": "For the Traunmuller and Wang definitions bark2hz inverts hz2bark and conversely on the admissible ranges; all three hz2bark definitions are strictly increasing for non-negative frequencies.", "quantifier": "all real frequencies/bark values in range", "why_tests_cant": "Continuum.", "anchors": ["sample/psycho.py: hz2bark", "sample/psycho.py: bark2hz"]}
{"id": "C34", "title": "ERB-rate conversions are mutually inverse, increasing and consistent", "statement": "For both degrees cams2hz inverts hz2cams on the admissible range and conversely; hz2cams and erb are strictly increasing for non-negative frequencies; erb is positive everywhere.", "quantifier": "all real values in range", "why_tests_cant": "Continuum.", "anchors": ["sample/psycho.py: hz2cams", "sample/psycho.py: cams2hz", "sample/psycho.py: erb"]}
{"id": "C35", "title": "Decibel conversions are mutually inverse and the floor is respected", "statement": "a2db and db2a are mutually inverse on positive amplitudes/all dB values, turn products into sums, are increasing; with a floor the result is never below the floor, equals the floorless value above it and is defined for zero amplitude.", "quantifier": "all real amplitudes, dB values and floors", "why_tests_cant": "Continuum, including the clipped region.", "anchors": ["sample/utils/dsp.py: a2db", "sample/utils/dsp.py: db2a"]}
{"id": "C36", "title": "A-weighting is 0 dB at 1 kHz, and linear weights lie between 0 and 1", "statement": "The dB weight at 1000 Hz is exactly 0; the linear weight is 0 at 0 Hz, positive elsewhere, even in f and strictly below 1 for all frequencies.", "quantifier": "all real frequencies", "why_tests_cant": "Continuum.", "anchors": ["sample/psycho.py: a_weighting"]}
{"id": "C37", "title": "Gammatone envelope, group delay and leading time are consistent", "statement": "For every order n>=2 and bandwidth b>0 the envelope is zero before -t_c, non-negative, attains its global maximum exactly at the reported group delay; setting group_delay makes it read back the value set; with the default leading time the group delay is zero.", "quantifier": "all orders, bandwidths, leading times and time points", "why_tests_cant": "Global-maximum statement over the continuum.", "anchors": ["sample/psycho.py: GammatoneFilter"]}
{"id": "C38", "title": "Gammatone filterbank frequencies are increasing and inside the limits", "statement": "For every n_filters and limits flim[0]<flim[1] the default centre frequencies are strictly increasing, strictly inside the limits and equally spaced on the ERB-rate scale.", "quantifier": "all limits and filter counts", "why_tests_cant": "All n and real limits.", "anchors": ["sample/psycho.py: GammatoneFilterbank.__init__"]}
{"id": "C39", "title": "The triangular filterbank is a partition of unity between the outer centres", "statement": "For increasing corner frequencies every filter value is in [0,1], is 1 at its centre and 0 outside its corners; for frequencies between the first and last centre the filters sum to exactly one; at most two filters are non-zero at a frequency.", "quantifier": "all increasing corner sequences and all frequencies", "why_tests_cant": "Continuum and any number of filters.", "anchors": ["sample/psycho.py: mel_triangular_filterbank"]}
{"id": "C40", "title": "Strided convolution is the decimated convolution", "statement": "For every signal, kernel and stride>=1, strided_convolution returns exactly every stride-th sample of the valid-mode convolution, as many as exist; complex kernels are convolved by real and imaginary parts.", "quantifier": "all signals, kernels, strides", "why_tests_cant": "Index arithmetic for all sizes.", "anchors": ["sample/utils/dsp.py: strided_convolution", "sample/utils/dsp.py: strided_convolution_complex_kernel"]}
{"id": "C41", "title": "The strided cochleagram decimates the full one, except in the last columns of delayed filters", "statement": "For every bank of IRs with non-negative delays, signal and stride, entry (i,m) of the strided cochleagram equals entry (i, m*stride) of the full one whenever m*stride + (off_i mod stride) <= N + L_i + off_i - 2 and is zero otherwise; if the delay of a filter is a multiple of the stride its row is exactly the decimation of the full row. That the strided matrix is always the decimation is false.", "quantifier": "all banks, signals, strides", "why_tests_cant": "Offsets are split into quotient and remainder by the stride for each filter; errors appear only for particular residues.", "anchors": ["sample/psycho.py: GammatoneFilterbank.PrecomputedIRBank.convolve"]}
{"id": "C42", "title": "Beat duality: the AM/FM description reproduces the sum of the two partials", "statement": "For constant frequencies and phases and any amplitudes, the computed AM is the modulus of the sum of the two complex partials, the computed FM is the derivative of its phase (where the modulus is non-zero), hence am*cos(phase) with exactly integrated FM equals the sum of the two real partials; on a time axis starting at zero with steps of at most h the computed signal differs from the sum by at most AM*M*h^2*t/12 (M bounds the second derivative of FM). False through zeros of the modulus and for time axes that do not start at zero.", "quantifier": "all amplitudes (including exponentially decaying), frequencies, phases and times", "why_tests_cant": "A trigonometric/differential identity over the continuum.", "anchors": ["sample/beatsdrop/__init__.py: Beat._define_am, Beat._define_fm", "sample/beatsdrop/__init__.py: ExponentialDecay"]}
{"id": "C43", "title": "Beat parameter sorting permutes the two partials as wholes", "statement": "sort_params returns either the input or the input with the two partials exchanged (amplitude, frequency, decay and phase together), the result is sorted by the key in the requested direction; sorting again changes nothing if the keys differ or in ascending order. With equal keys and descending=True the partials are exchanged at each call.", "quantifier": "all parameter tuples, keys and directions", "why_tests_cant": "All real parameter tuples including ties.", "anchors": ["sample/beatsdrop/regression.py: sort_params"]}
{"id": "C44", "title": "Disambiguation never increases the residual and only exchanges frequencies and phases", "statement": "After DualBeatRegression.fit with disambiguate=True the parameters are either those found by the optimiser or the ones with frequencies and phases exchanged, and their sum of squared residuals is the smaller of the two (the optimiser's solution on a tie). The two hypotheses have the same AM and mirrored FM, so that only the frequency residuals decide.", "quantifier": "all optimiser results and residual functions", "why_tests_cant": "Quantifies over all residual functions.", "anchors": ["sample/beatsdrop/regression.py: DualBeatRegression.fit"]}
{"id": "C45", "title": "Feasibility of the default beat-regression start point is exactly characterised", "statement": "For tracks of at least two samples, the default starting point of the beat regression lies strictly inside the default bounds if and only if the frequency track is not constant, the linearly estimated decay lies strictly between machine epsilon and 100 seconds, and the amplitude track is not constant or its value exceeds half the linearly estimated initial amplitude; in every other case fitting raises ValueError. Shorter tracks always raise ValueError.", "quantifier": "all tracks and regression results", "why_tests_cant": "All real inputs; error branch included.", "anchors": ["sample/beatsdrop/regression.py: BeatRegression._default_bounds", "sample/beatsdrop/regression.py: BeatRegression.fit"]}
{"id": "C46", "title": "Hinge regression always starts from a feasible point", "statement": "For every time axis with at least two samples, every magnitude track and every linear estimate (k,q), the default bounds satisfy lower<upper for each coefficient and contain the default starting point; shorter tracks raise ValueError.", "quantifier": "all tracks and linear estimates", "why_tests_cant": "Degenerate inputs (constant times, k=0, perfect fit) are exactly what random tests miss.", "anchors": ["sample/hinge.py: HingeRegression._default_coeffs_init", "sample/hinge.py: HingeRegression._default_bounds"]}
{"id": "C47", "title": "Spectral losses behave like distances", "statement": "lp_distance is non-negative, symmetric, zero exactly on equal vectors and satisfies the triangle inequality for p=1 and p=2; the linear+log loss is non-negative, symmetric and zero on equal inputs; a multiscale loss is the sum of its scales and is the same with a process pool.", "quantifier": "all vectors, transforms and weights", "why_tests_cant": "Metric laws over all inputs.", "anchors": ["sample/evaluation/metrics.py: lp_distance", "sample/evaluation/metrics.py: lin_log_spectral_loss", "sample/evaluation/metrics.py: MultiScaleSpectralLoss"]}
{"id": "C48", "title": "Randomly generated beats stay inside the configured limits", "statement": "For every outcome of the random generator: beat frequency differences have modulus in [beat_min,beat_max], amplitudes are non-negative and sum to the sine amplitude, noise and sine amplitude sum to one, decays are at least decay_min, and all three frequencies lie in [f_min,f_max] whenever the sampled interval is not empty.", "quantifier": "all random outcomes and generator settings", "why_tests_cant": "Random tests cannot visit every outcome; the interval-empty case is rare.", "anchors": ["sample/evaluation/random.py: BeatsGenerator"]}
{"id": "C49", "title": "The kwargs remapper yields a valid STFT configuration and respects explicit settings", "statement": "For every input, explicitly given n, w and h are passed through unchanged; otherwise n is a power of two, the hop is between 1 and the window size; all other keywords pass through unchanged.", "quantifier": "all keyword dictionaries and numeric values", "why_tests_cant": "All combinations of present/absent keys and values.", "anchors": ["sample/optimize.py: sample_kwargs_remapper"]}
{"id": "C50", "title": "Optimizer dimensions reach the model", "statement": "SAMPLEOptimizer maps the i-th optimised value to the i-th dimension name, together with all extra keywords, and rejects a wrong number of values; with remap=None the optimised values are dropped.", "quantifier": "all dimension lists, values, remappers", "why_tests_cant": "All dictionaries; the remap=None branch.", "anchors": ["sample/optimize.py: SAMPLEOptimizer._kwargs"]}
{"id": "C51", "title": "Dichotomic search brackets a zero and halves the bracket at each step", "statement": "For every function with opposite (or zero) signs at the end points the returned point is within |hi-lo|/2^(steps+1) of a sign change, or is an exact zero; for continuous functions it is within that distance of a root; with equal strict signs ValueError is raised.", "quantifier": "all functions, brackets and step counts", "why_tests_cant": "Universally quantified over functions.", "anchors": ["sample/utils/dsp.py: dychotomic_zero_crossing"]}
{"id": "C52", "title": "Local maxima and onset selection flag exactly the specified indices", "statement": "For w>=1 and at least 2w+1 samples, local_maxima flags exactly the indices at distance at least w from both ends whose value is >= every key value within w; onset_selection flags exactly those that additionally exceed the previous filtered value and the local mean plus delta; the result never depends on uninitialised memory.", "quantifier": "all signals and parameters, all initial memory contents", "why_tests_cant": "Uninitialised memory content is not controllable in tests.", "anchors": ["sample/utils/dsp.py: local_maxima", "sample/utils/dsp.py: onset_selection", "sample/utils/dsp.py: _onset_selection_g", "sample/utils/dsp.py: _onset_selection_m"]}
{"id": "C53", "title": "Normalisation reaches its target level", "statement": "Peak normalisation gives maximum modulus one (non-zero input), rms normalisation gives zero mean and unit variance (zero for constant input), range normalisation gives minimum 0 and maximum 1 (non-constant input); signs/order of samples are preserved.", "quantifier": "all arrays", "why_tests_cant": "All arrays including degenerate ones.", "anchors": ["sample/utils/dsp.py: normalize"]}
{"id": "C54", "title": "GUI trim region always stays a valid non-empty slice", "statement": "Starting from a valid region, after any sequence of trim edits with any numeric values 0<=start<stop<=size holds, an edit moves only the requested end, and a value already valid is taken as is.", "quantifier": "all event sequences and values", "why_tests_cant": "Event histories are unbounded.", "anchors": ["sample/widgets/audioload.py: AudioLoadTab.set_trim", "sample/widgets/audioload.py: AudioLoadTab.auto_trim"]}
{"id": "C55", "title": "GUI settings parsers only produce valid parameter values", "statement": "For every text typed, next_power_of_2 gives the least power of two not below the parsed positive integer, float_clip stays within its limits, strip time is None or positive, frequency bounds come out ordered and distinct, window size does not exceed FFT size; non-finite numbers are the only inputs that break this.", "quantifier": "all parsed values including NaN and infinities", "why_tests_cant": "All strings/values; NaN and infinity corner cases.", "anchors": ["sample/widgets/settings.py: next_power_of_2, custom_positive_int, float_clip, strip_time_parse, postprocess_fbound, postprocess_windows"]}
{"id": "C56", "title": "Changelog versions are totally ordered", "statement": "The version comparison is a total order consistent with lexicographic order of the number sequences in which a proper prefix is smaller; hence the generated changelog lists versions newest first regardless of directory order.", "quantifier": "all version tuples, all file orders", "why_tests_cant": "Order laws over all tuples.", "anchors": ["scripts/utils/make_changelog.py: _version_compare"]}
{"id": "C57", "title": "Trailing silence does not change the reported sine tracks", "statement": "Appending a silent frame to any recording leaves the tracks reported by the sine tracker unchanged up to their order; for the modal tracker this is false, since a track still active at the end is only merged when it is deactivated.", "quantifier": "all frame histories, all tracker settings", "why_tests_cant": "Needs every history and every tracker state at the end of the recording.", "anchors": ["sample/sms/sm.py: SineTracker.all_tracks_", "sample/sms/mm.py: ModalTracker.deactivate"]}
{"id": "C58", "title": "Detected onsets are placed at the scaled frame positions and never outside the signal", "statement": "For every set of flagged frames and every signal size, exactly the samples floor(frame * size / frames) of flagged frames are flagged; no index error can occur.", "quantifier": "all frame flag arrays and sizes", "why_tests_cant": "All sizes of signal and detection function; rounding of the position matters at the last frame.", "anchors": ["sample/utils/dsp.py: onset_detection"]}
{"id": "C59", "title": "Spectral flux is the sum of the positive increments", "statement": "The flux has one value fewer than the spectrogram has columns, value t is the sum over the frequencies of the positive parts of the increments from t to t+1; it is never negative and it is zero exactly if no modulus increases.", "quantifier": "all spectrograms", "why_tests_cant": "Universally quantified over real matrices.", "anchors": ["sample/utils/dsp.py: spectral_flux"]}
{"id": "C60", "title": "BeatsDROP contributes one column per plain track and one per partial of a beating track", "statement": "SAMPLEBeatsDROP.fit gives, in the order of the tracks, the single column (f, d, a, 0) for a track that is not decided to be a beat and the two columns with frequency, decay, amplitude and phase of each partial for a beat; a beat is decided exactly if frequency difference and both amplitudes exceed th*eps in modulus. Synthesising the two columns gives the sum of the partials of the fitted beat. One track whose beat regression raises makes the whole fit raise.", "quantifier": "all tracks, fitted parameters and thresholds", "why_tests_cant": "Universally quantified over track lists and real parameters.", "anchors": ["sample/beatsdrop/decision.py: BeatDecisor.track_params, AlmostNotABeatDecisor.decide_beat", "sample/beatsdrop/sample.py: SAMPLEBeatsDROP._fit_track"]}
{"id": "C61", "title": "The mel spectrogram is a norm-like function of the spectrogram", "statement": "For every filterbank with non-negative weights and every positive power, stft2mel gives one non-negative value per filter and time-step, does not decrease when the magnitudes do not decrease, and scales with the modulus of a complex factor; with power None it is additive on complex values; a number of bins different from that of the filters raises ValueError.", "quantifier": "all filterbanks, spectrograms, powers and complex factors", "why_tests_cant": "Universally quantified over real and complex matrices.", "anchors": ["sample/psycho.py: stft2mel"]}
{"id": "C62", "title": "Default keyword arguments never override given ones", "statement": "default_kws returns a mapping in which every keyword given by the caller keeps its value and every missing one has the default; nothing else is added; without defaults it is a copy.", "quantifier": "all dictionaries of given and default keywords", "why_tests_cant": "All overlaps of given and default names.", "anchors": ["sample/utils/__init__.py: default_kws"]}
{"id": "C63", "title": "The changelog section of a version is found", "statement": "For every version tag made of numbers and dots, with or without a suffix that does not begin with a dot, extract_changelog reads the file whose name make_changelog parses to exactly these numbers, and prints it without its first line; a suffix after a dot (2.2.0.dev1) is not recognised.", "quantifier": "all version tags and directory contents", "why_tests_cant": "All tags and suffixes.", "anchors": ["scripts/utils/extract_changelog.py: main", "scripts/utils/make_changelog.py: main"]}
{"id": "C64", "title": "Keywords of fit reach the model or the training", "statement": "SAMPLE.fit sets exactly those keywords that get_params lists (at any depth) as parameters before training, and leaves all other parameters as they were; n_jobs, pool and mp_manager configure the training and ignore_warnings the filter of warnings; any other name, including the deprecated spelling of a parameter, is silently ignored.", "quantifier": "all models and keyword dictionaries", "why_tests_cant": "All combinations of parameters at any depth with names of the training.", "anchors": ["sample/sample.py: SAMPLE.fit", "sample/_training.py: sample_training_context"]}
{"id": "C65", "title": "set_params changes exactly the named parameters", "statement": "For every model whose estimators are nested without sharing, set_params with valid names at any depth makes get_params report exactly the given values, all other parameters and all objects outside of the model as before; a name whose first part is no parameter raises ValueError. It is not atomic: parameters before the invalid name stay set.", "quantifier": "all nested estimators, parameters and values", "why_tests_cant": "Universally quantified over nesting depth, parameter names and object graphs.", "anchors": ["sample/sample.py: SAMPLE.set_params", "sample/sms/sm.py: SinusoidalModel.set_params", "sample/utils/learn.py: default_property"]}
{"id": "C66", "title": "A clone has the same parameters and shares no estimator", "statement": "sklearn.base.clone of any model of the package yields a model of the same class with the same parameter values at every depth, with new estimators, each at one place; setting parameters of either leaves the other unchanged.", "quantifier": "all nested estimators whose parameters are values or estimators", "why_tests_cant": "Universally quantified over object graphs.", "anchors": ["sample/sample.py: SAMPLE.__init__", "sample/sms/sm.py: SinusoidalModel.__init__", "sample/sms/mm.py: ModalModel.__init__"]}
{"id": "C67", "title": "SAMPLE(**kwargs) has the given parameters and defaults for all others", "statement": "For any keywords that name parameters that are not estimators, at any depth, the constructor gives a model for which get_params reports the given values and the default ones for everything else; only new objects are made.", "quantifier": "all keyword dictionaries", "why_tests_cant": "All subsets of nested parameters.", "anchors": ["sample/sample.py: SAMPLE.__init__"]}
{"id": "C68", "title": "The progress bar of the optimizer counts the evaluations", "statement": "After any number n>0 of calls of a new TqdmCallback exactly one bar with the given total has been opened, it has advanced n times, and the text says randomize exactly in the first n_initial_points calls; reset closes the bar and the next call opens a new one counting from zero.", "quantifier": "all numbers of calls, all interleavings of calls and resets", "why_tests_cant": "Unbounded call sequences.", "anchors": ["sample/optimize.py: TqdmCallback"]}
{"id": "C69", "title": "detrend removes exactly the least-squares line", "statement": "For every signal with as many times, and every regressor that fits lines by least squares, detrend returns one residual per sample whose sum is zero, that is not correlated with the times and has the least energy of all lines; adding any line to the signal, changing unit or origin of the times, or removing the trend again changes nothing; a signal whose number of axes is not 1 raises ValueError. A signal of one sample gives a number, not an array.", "quantifier": "all signals, times and least-squares regressors", "why_tests_cant": "Universally quantified over real signals of any size.", "anchors": ["sample/utils/dsp.py: detrend"]}
{"id": "C70", "title": "f2bin gives the first bin that is not below the frequency", "statement": "For every positive sampling frequency and FFT size, f2bin of an array of frequencies is the least bin whose frequency is not below each, and inverts bin2f in exact arithmetic; this fails in binary64 (bin 3 of 1000 at 22050 Hz); zero sizes or sampling frequencies raise ZeroDivisionError; a plain number raises TypeError.", "quantifier": "all frequencies, bins, sizes and sampling frequencies", "why_tests_cant": "Universally quantified over reals; the binary64 counterexample lies outside of the tested sizes.", "anchors": ["sample/utils/dsp.py: f2bin, bin2f"]}
{"id": "C71", "title": "lombscargle_as_fft evaluates FFT frequencies inside the pass band only", "statement": "For every estimator that evaluates frequencies one by one and every low-pass frequency that is not negative, the result has nfft//2+1 bins, bin k is at k*fs/nfft; it holds the estimate if the frequency is not below the high-pass and below the low-pass frequency, the squared mean at bin zero without a high pass, and zero elsewhere. The bin at the low-pass frequency is cut off, and with a negative low-pass frequency bins above it are kept.", "quantifier": "all signals, sizes, sampling and corner frequencies", "why_tests_cant": "Universally quantified; corner frequencies on a bin or negative are not tested.", "anchors": ["sample/utils/dsp.py: lombscargle_as_fft"]}
{"id": "C72", "title": "fft2autocorrelogram computes the circular autocorrelation", "statement": "For every complex signal the result for its two-sided spectrum (or power spectrum) is the circular autocorrelation; likewise for the one-sided spectrum of a real signal whose size is given or even; with zero padding to at least 2n-1 samples it is the linear autocorrelation of the n samples; no lag of any power spectrum exceeds lag zero. For odd sizes that are not given the result is wrong.", "quantifier": "all signals of all sizes", "why_tests_cant": "Wiener-Khinchin theorem for all sizes; tests use a few random even sizes.", "anchors": ["sample/utils/dsp.py: fft2autocorrelogram"]}
{"id": "C73", "title": "The initial beat frequency is that of the first peak of the autocorrelogram", "statement": "For every track of at least two samples with a positive time, every positive fs and non-negative periodogram the default initial parameters exist: the autocorrelogram reaches to the last time with its maximum at lag zero, the frequencies are centred on the mean frequency and either equal (no peak) or apart by less than 2 fs, with a period within half a sample of the first peak; nothing is divided by zero. A track of one sample raises ValueError.", "quantifier": "all tracks, sampling frequencies and low-pass frequencies", "why_tests_cant": "Universally quantified over real tracks.", "anchors": ["sample/beatsdrop/regression.py: BeatRegression._default_params_init", "sample/utils/dsp.py: lombscargle_autocorrelogram", "sample/sms/dsp.py: peak_detect_interp"]}
{"id": "C74", "title": "What is played and exported is the resynthesis of the fitted model, clipped, for as many samples as the region", "statement": "In the GUI, after every history of loads, trims, settings and analyses that starts with the program: right after an analysis that succeeded the resynthesis that is drawn, played and written has as many samples as the region, sample i is the prediction of the fitted model at i/fs clipped to [-1, 1]; it stays the same while the user plays, saves or exports; the original that is played is the region; without audio or without a fitted model every action shows an error box and changes nothing. Later changes of the audio or of the region do not change the resynthesis that is played (stale), and a region of one sample cannot be played (scalar).", "quantifier": "all histories of user actions, all models and audio", "why_tests_cant": "Universally quantified over histories of user actions; the GUI has no tests.", "anchors": ["sample/widgets/analysis.py: AnalysisTab.get_audio, update_plot, play_cbk, wav_export_cbk", "sample/widgets/audioload.py: AudioLoadTab.play_tab"]}
{"id": "C75", "title": "One analysis at a time, of the region and the settings when the button was pressed", "statement": "Whatever happens while an analysis runs, further analyses are refused with one warning each and have no other effect; the fitted model is that of the region, rate and settings when the button was pressed; the lock is released after every analysis, also one that fails. A model that cannot be built keeps the earlier model; a fit that fails shows an error, raises an exception while drawing and loses the earlier model and its resynthesis.", "quantifier": "all states and all histories of actions during the analysis", "why_tests_cant": "Interleavings of the analysis thread and of user actions are not tested.", "anchors": ["sample/widgets/analysis.py: AnalysisTab.analysis_cbk"]}
{"id": "C76", "title": "Loading normalizes integer samples and mixes channels down", "statement": "For WAV files of 16, 32 or 64 bits sample v becomes v/2^(bits-1), which is in [-1, 1), and several channels become their mean; audio, rate and region are replaced and the region is a valid part of the new audio if it has an onset; a file that cannot be read and a cancelled dialog leave them as they are; dialogs propose the base name without extension and open in the directory saved to last. Files of 8 bits give infinities and NaN, files with floating point samples raise ValueError without an error box, and the name of a file that failed to load is proposed for the audio of another file.", "quantifier": "all files and states", "why_tests_cant": "Universally quantified over samples, channels and paths.", "anchors": ["sample/widgets/audioload.py: AudioLoadTab.load_cbk", "sample/widgets/utils.py"]}
{"id": "C77", "title": "A reload of the GUI restores the audio and its region; the theme is a supported one", "statement": "For every session with a valid region, saving the cache and starting again restores samples and rate and gives a valid region, the same one if its bounds convert to seconds and back; the cache is deleted. The theme is that of the settings file if it is supported and the default one otherwise. A region can move by one sample; audio without onsets makes this start and all later ones fail; a settings file that is no JSON object makes every start fail.", "quantifier": "all sessions and settings files", "why_tests_cant": "Universally quantified over sessions; restarts are not tested.", "anchors": ["sample/widgets/main.py: SAMPLEGUI", "sample/widgets/userfiles.py", "sample/widgets/audioload.py: AudioLoadTab.__init__"]}
{"id": "C78", "title": "The launcher runs the GUI until it is closed", "statement": "For every sequence of launches the launcher stops after launch n if and only if that is the first one that reports a close without reload. A GUI that always ends without reporting (a crash) is launched forever.", "quantifier": "all sequences of launches", "why_tests_cant": "Universally quantified over sequences of any length.", "anchors": ["sample/gui.py: main", "sample/widgets/main.py: SAMPLEGUI.on_closing"]}
{"id": "C79", "title": "The notebook formatter changes only code cells and gives commands back", "statement": "For every notebook and formatter: cells that are no code, blank cells and cells with '# yapf: ignore' in the first line stay, no cell changes type or place, and the file is written if and only if some cell changes and the run is not dry. Commands (lines that start with ! or %) are hidden from yapf behind a statement with the same indentation and restored; escaping and restoring is the identity on every line that does not look escaped already. If yapf fails, a tidy cell stays the same, or gets the error as a comment in its last line, once. A second run changes nothing if yapf is stable. Cells change though yapf fails if they end with a line end or have form feeds, and a line that continues an expression with % is taken for a command.", "quantifier": "all notebooks, all formatters", "why_tests_cant": "Universally quantified over sources and formatters; the script has no tests.", "anchors": ["scripts/utils/yapf_nbformat.py"]}
{"id": "C80", "title": "The HTML view of a model shows every parameter, with its description, in well-formed elements", "statement": "For every model: elements are opened and closed in order, there is one button and one content for each submodel and one element for each other parameter, every parameter of the model and of its submodels is shown and starts with its name; the entries of an 'Args:' section with the same indentation are found one by one, in order, without the markup of their Sphinx roles, and label their parameters. Of two roles in one line the second one is lost, and a line with spaces joins all entries that follow.", "quantifier": "all models with any nesting, all documentations", "why_tests_cant": "Universally quantified over nested models and docstrings.", "anchors": ["sample/ipython.py: CollapsibleModelParams"]}
{"id": "C81", "title": "The t60 of a gammatone filter is where its level is 60 dB below the peak, and the suggested size of its response ends at the next zero or peak of the oscillator", "statement": "For every filter of order at least 2 and every sensible options: if t60 returns a time, it is after the peak of the envelope, within range/2^steps of the only time after the peak with the wanted level, and the level there is within the warning threshold. With default options and orders up to 250000 it returns. A filter of order one has no t60 (ValueError) although its envelope decays. ir_size is the number of samples up to the first time after the t60 at which the phase is a multiple of pi/2.", "quantifier": "all filters, floors, ranges, numbers of steps and of starts", "why_tests_cant": "The bracketing and bisection depend on real parameters; tests use a few filters.", "anchors": ["sample/psycho.py: GammatoneFilter.t60, ir_size", "sample/utils/math.py: dychotomic_zero_crossing"]}
{"id": "C82", "title": "The impulse response of a gammatone filter is its envelope times its oscillator, scaled", "statement": "For every filter and every time axis (by default one sample after another from the leading time on, as many as suggested): without normalization the response is a times envelope times cosine; with normalization it is the same up to a positive factor and has norm |a|, if some sample is not zero. The analytic response has the ordinary one as its real part and the scaled envelope as its modulus if it is not normalized. The norm is not the documented one (the sampling frequency), and normalized analytic responses have another real part than the ordinary ones.", "quantifier": "all filters, time axes and sampling frequencies", "why_tests_cant": "Universally quantified over real parameters and axes.", "anchors": ["sample/psycho.py: GammatoneFilter.wavefun, ir"]}
{"id": "C83", "title": "Cochleagrams are the aligned sums of responses to all input samples; analytic ones have them as their real part", "statement": "For every bank of filters and every input: with time zero of all responses in the same column, each row is the sum over the input samples of the sample times the response of the filter at the time since then (cut after its size); frequencies are those of the filters; by default negative values become zero; banks computed beforehand give the same; the options output, input (no stride) and ir (no normalization, real bank not computed before) have the cochleagram that is not rectified as their real part; the loss compares these matrices, absolute values for analytic ones. Refused: no sampling frequency, no filters, analytic banks with other options, method and stride, input with stride. Other strings are accepted as options, a real bank with ir gives a real matrix, keywords are ignored if a bank is given, and banks cannot be copied or unpickled.", "quantifier": "all banks, inputs, options and hilbert transforms that keep the real part", "why_tests_cant": "Universally quantified over banks and signals; errors appear only for some combinations of options.", "anchors": ["sample/psycho.py: GammatoneFilterbank, cochleagram", "sample/evaluation/metrics.py: CochleagramLoss"]}
{"id": "C84", "title": "The residual of a beat regression is the amplitude minus the envelope of the beat, interpolated between sampling times", "statement": "For every sampling frequency, every list of times with a positive one, as many amplitudes and all parameters: each residual is the amplitude of the sample minus the linear interpolation of the envelope of the beat between the neighbouring multiples of the sampling period (the last of which is before the latest time). At times that are such multiples it is exactly amplitude minus envelope, elsewhere within L/fs of it if the envelope is L-Lipschitz. Without positive times, or with another number of amplitudes, it is a ValueError. The latest time is compared with an earlier value of the envelope, so true parameters can have a residual there, and a column of times (as documented for fit) compares every sample with every time.", "quantifier": "all sampling frequencies, times, amplitudes and parameters", "why_tests_cant": "Universally quantified over real parameters and times; tests only look at results of the optimisation.", "anchors": ["sample/beatsdrop/regression.py: BeatRegression._residual_fn, BeatRegression.residual_fn"]}
{"id": "C85", "title": "The residual of a dual beat regression compares amplitudes and clipped instantaneous frequencies", "statement": "For every weight, clipping, losses, list of times at which the partials do not cancel, and as many amplitudes and frequencies: the residuals are the losses of the amplitudes with the envelope of the beat (by default differences), then the weighted losses of the absolute frequencies with the clipped absolute instantaneous frequencies of the beat (by default differences in mel). Without clipping the beat itself has no residual. Clipping moves values towards the median, to at most c times half the interquartile range from it, and no others. Exchanging the partials or adding a phase to both changes no residual. With the default clipping the beat itself can have a residual.", "quantifier": "all weights, clipping factors, losses, times, amplitudes, frequencies and parameters", "why_tests_cant": "Universally quantified over real parameters; symmetries cannot be enumerated.", "anchors": ["sample/beatsdrop/regression.py: DualBeatRegression._residual_fn, _default_freq_loss, _default_amp_loss"]}
{"id": "C86", "title": "The variables of a beat can be computed by name and have the documented values", "statement": "For every beat: the names are 25 different ones, computing several of them gives the values of each, an unknown one is a KeyError, as an attribute it is an AttributeError while known names are functions of time. For exponentially decaying partials: constants are those of the parameters, envelopes, arguments and derivatives are the formulas of the docs, instantaneous frequencies are those of the beat wherever the partials do not cancel, amplitude modulation contributes nothing to the frequency if the decays are equal, and the signal is the envelope times the cosine of the phase. predict gives what compute gives for the times (x if no names are given). predict at one time is a ValueError, constant variables are numbers although one array per output is documented, and copying a beat is a RecursionError.", "quantifier": "all beats, parameters, times and names", "why_tests_cant": "Universally quantified over parameters and times.", "anchors": ["sample/beatsdrop/__init__.py: Beat.variables, compute, __getattr__", "sample/beatsdrop/regression.py: BeatRegression.predict"]}
{"id": "C87", "title": "The resynthesis of a SAMPLEBeatsDROP model is the sum of its tracks; the strongest modes keep their phases", "statement": "For every model and every list of times: predict is the sum over the tracks of their sounds at the times, with the phases given or otherwise those of the model, and with n_modes those of the strongest modes are used for the strongest modes. phases=None, which additive_synth accepts, is a TypeError.", "quantifier": "all models, phases, numbers of modes and times", "why_tests_cant": "Universally quantified over models.", "anchors": ["sample/beatsdrop/sample.py: SAMPLEBeatsDROP.predict, phases_, _pred_phases"]}
{"id": "C88", "title": "A hinge regression of exact data finds the hinge", "statement": "For every optimiser that finds a minimum wherever there is one, and all times from zero on: if the data are exactly a decreasing line that becomes constant (with three different levels among the samples, the slope between once and 8 times the least-squares slope and the intercept within the bounds), the fitted slope and intercept are the true ones, and so is the knee if there is a sample after it; decreasing lines are found exactly, and partials with amplitude A and decay d give exactly A and d. Two samples do not determine the slope, a constant level does not determine its sign, and a decay short compared with the recording cannot be found at all, because of the bound on the slope.", "quantifier": "all optimisers that minimise, times and coefficients", "why_tests_cant": "Universally quantified over data and optimisers.", "anchors": ["sample/hinge.py: HingeRegression.fit, _default_bounds, _default_coeffs_init, hinge_function"]}
{"id": "C89", "title": "The initial phase of a beat regression is the one that correlates best with the amplitudes", "statement": "For all amplitudes, times and beat frequencies: the estimate is at least 0 and less than pi and no other phase of the pattern 1 + cos(4 pi f t + 2 phase) has a larger correlation with the amplitudes; it is the only such phase unless no phase correlates. For amplitudes that are such a pattern, sampled regularly over whole periods, it is exact up to pi. The beat of the initial parameters has the envelope of the fitted line times |cos(2 pi f t + phase)|.", "quantifier": "all amplitudes, times and frequencies", "why_tests_cant": "Universally quantified over real samples.", "anchors": ["sample/beatsdrop/regression.py: BeatRegression._default_params_init"]}
{"id": "C90", "title": "The whole analysis finds the decay of every sound that decays uniformly", "statement": "For every window, FFT size, hop size, plain or modal tracker, forward or reverse, merge strategy, tolerance, threshold, sorting order, and every recording in which each sample is c < 1 times the one a hop earlier (for instance any wave whose period divides the hop, under an exponential envelope): if no bin of a frame is below the floor of the decibels, different spectral peaks are not closer than the tolerance of the tracker, and tracks have three frames or more, SAMPLE.fit succeeds and every mode has exactly the decay of the sound, the frequency of the vertex of the parabola through a peak of the first analysed spectrum, and an amplitude such that its envelope is twice the magnitude of the vertex in the middle of the first analysed frame. Peaks are never too close if the tolerance is one bin or less.", "quantifier": "all recordings, windows, FFT sizes, hops, trackers, tolerances, thresholds and sorting orders", "why_tests_cant": "Universally quantified over recordings and settings; end-to-end tests compare a few sounds with a tolerance.", "anchors": ["sample/sample.py: SAMPLE.fit, _preprocess_track, _fit_track", "sample/sms/sm.py: SinusoidalModel.fit, SineTracker.__call__", "sample/sms/mm.py: ModalTracker.deactivate, all_tracks_", "sample/sms/dsp.py: dft, peak_detect_interp, overlapping_windows", "sample/hinge.py: HingeRegression.fit"]}
{"id": "C91", "title": "Of a uniformly decaying sound the modes are exactly its spectral peaks", "statement": "Under the hypotheses of C90, if moreover all peaks stay above the detection threshold, there are not more of them than max_n_sines, their tolerances are positive, and there are at least min_sine_len and three frames: the modes are, by increasing frequency, one for each peak, and with a modal tracker one for each peak within the frequency bounds whose level in the earliest frame reaches the threshold; no other modes, no peak twice.", "quantifier": "all recordings, windows, FFT sizes, hops, trackers, tolerances, thresholds and sorting orders", "why_tests_cant": "Universally quantified over recordings and settings.", "anchors": ["sample/sample.py: SAMPLE.fit", "sample/sms/sm.py: SinusoidalModel.fit, SineTracker.__call__", "sample/sms/mm.py: ModalTracker.track_ok, all_tracks_"]}
{"id": "C92", "title": "Gain changes the amplitudes of the modes and nothing else", "statement": "For every gain g > 0, recording, window, hop, plain or modal tracker, forward or reverse: if no bin of a frame of the recording or of the amplified recording is below the floor of the decibels, the analysis of the amplified recording with detection threshold and peak threshold raised by 20 log10 g finds the same tracks with all levels 20 log10 g higher (or fails in the same way), and its modes are modes of the original recording with amplitudes multiplied by g: same number, frequencies and decays.", "quantifier": "all recordings, gains, windows, hops, trackers, thresholds and sorting orders", "why_tests_cant": "Universally quantified over recordings and gains; a test compares two analyses with a tolerance.", "anchors": ["sample/sample.py: SAMPLE.fit, _fit_track", "sample/sms/sm.py: SinusoidalModel.fit, SineTracker.__call__", "sample/sms/mm.py: ModalTracker.track_ok", "sample/sms/dsp.py: dft, peak_detect", "sample/hinge.py: HingeRegression.fit"]}
{"id": "C93", "title": "The analysis does not depend on the unit of time", "statement": "For every r > 0, the same samples at a sample rate that is r times as high, analysed with the parameters in Hz (deviation offset, frequency bounds) multiplied by r and those in seconds (minimum duration, strip time) divided by r, give the same tracks with frequencies multiplied by r (or fail in the same way); if the levels of every track have a trend (their least squares line is not horizontal, as for every uniformly decaying sound), the modes have frequencies multiplied by r, decays divided by r and the same amplitudes.", "quantifier": "all recordings, rates, factors, windows, hops, trackers, strategies and sorting orders, padded or not", "why_tests_cant": "Universally quantified over recordings and rates; tests use one or two sample rates and never compare them.", "anchors": ["sample/sample.py: SAMPLE.fit, _fit_track, _preprocess_track", "sample/sms/sm.py: SinusoidalModel.fit, SineTracker", "sample/sms/mm.py: ModalTracker", "sample/hinge.py: HingeRegression.fit, _default_bounds"]}
{"id": "C94", "title": "Plots of tracks show every frame where it was analysed", "statement": "sine_tracking_2d draws, for every track of a model and in the order of the tracks, one line of frequencies and one of magnitudes with a point for every frame: at (start_frame+j)*h/fs for forward analyses and, for reverse analyses that stored n spectra, at (n-start_frame-j)*h/fs, which lies in (0, n*h/fs]; lines are dashed exactly for tracks that the beat decisor judged to be beating. The times differ from the ones that parameters are estimated from by an offset that is the same for all frames of all tracks (half a window forward without padding, nothing with padding, half a window less a hop plus the remaining samples for reverse). The plot fails exactly if a reverse model has no stored spectra or (not storing) no tracks, or decisions are missing. sine_tracking_3d shows the same points for forward analyses.", "quantifier": "all tracks, hops, rates, windows, numbers of frames, decisions", "why_tests_cant": "Tests call the plot functions and do not look at the data of the lines.", "anchors": ["sample/plots.py: _is_beat, sine_tracking_2d, sine_tracking_3d", "sample/sample.py: SAMPLE._preprocess_track"]}
{"id": "C95", "title": "Plots of resyntheses show every signal once, in order, on the time axis of the original", "statement": "plots.resynthesis draws the original (if wanted) and then the prediction of every model at times i/fs, where fs is the one given, else the highest rate of the models, else 44100; panel i+1 shows signal i with its name and the time limits 0 and (n-1)/fs; it succeeds exactly if predictions have n samples, n > 0 and there are enough axes. LabelAndPlayForeach displays the heading 'i+1 - name' and a player of the signal, clipped to -1 and 1 unless normalising, and nothing for no arguments. beatsdrop_comparison of two or more regressions draws regression i in column i (row i if transposed), envelopes at the multiples of the factor whose stretch lies in the signal, and levels exactly where they exceed -60 dB.", "quantifier": "all signals, models, rates, numbers of axes and regressions, titles, factors", "why_tests_cant": "Tests run the plots with one or two models and do not look at the figures.", "anchors": ["sample/plots.py: resynthesis, beatsdrop_comparison", "sample/ipython.py: LabelAndPlayForeach"]}
{"id": "C96", "title": "Evaluation runs can be killed and resumed without changing the results", "statement": "However often the evaluation script of BeatsDROP was killed (between results, or while a checkpoint or the table was being written) and with whatever arguments it was run before, a run that finishes returns a table with exactly one row for every seed below n that has a result, sorted by seed, with the result of that seed, and removes all checkpoints. A resumed run computes exactly the seeds that are missing in the newest readable checkpoint (or, without checkpoints, in the table), plus those without a WAV file if files are wanted; without files, output path or resuming it computes all. After a kill, everything up to the last checkpoint is kept. The table is written unless a run resumes from the table itself without writing a checkpoint.", "quantifier": "all results, numbers of seeds, orders of completion, checkpoint periods, kills, earlier runs", "why_tests_cant": "Kills during writing and orders of completion of parallel jobs cannot be enumerated; the scripts have no tests.", "anchors": ["scripts/beatsdrop/evaluation.py: list2df, load_results, run_tests, save_dataframe, main"]}
{"id": "C97", "title": "Interrupted benchmarks resume where they stopped, and speed-ups compare to the best alternative", "statement": "Each run of the benchmark script keeps every sample of its file and appends n samples for every case that it finishes, starting at the first missing case, wherever it is interrupted; an uninterrupted run leaves n samples of all cases, in the order durations, strides, methods, with all columns in step. The grids of strides and durations are geometric progressions (after the offset) from the minimum to the maximum. The speed-up of a cell is the smallest average time of the other four methods divided by the average time of the strided one, is greater than one exactly if the strided one is the fastest, NaN if any of the five was not measured, and a number everywhere when the data is complete. Colours preserve the order of speed-ups, are 0 for one, 1 for the greatest over one and -1 for the smallest under one; a tick is where the speed-up of its label would be. The ticks of strides show the strides of their columns.", "quantifier": "all grids, numbers of samples, times, points of interruption, sequences of runs, speed-ups, numbers of ticks", "why_tests_cant": "The scripts have no tests; points of interruption cannot be enumerated.", "anchors": ["scripts/cim22/performance.py: logspace_p, logspace, clean_data, load_data, run_benchmarks, times_matrix, compute_speedup, log_speedup_imshow, main"]}
{"id": "C98", "title": "The example script analyses the part of the file that it says, and never writes clipped audio unless told to", "statement": "Signed integer samples are loaded as values in [-1, 1), in proportion, channels as their mean. With a given start the part until the next onset (or the end) is analysed, with a given end the part from the last onset before it (or the beginning), with both the part between them; with none the longest part between consecutive onsets and the end, the first of equally long ones, or everything if there is no onset. The written resynthesis is a copy of the prediction times a gain in (0, 1], which is 1 if no sample exceeds the threshold or clipping is allowed, and otherwise makes the peak equal to the threshold. Default output names insert the suffix before the extension and are never the input name. The progress counter is the number of updates however many of them are drawn, and the bar is full in the end.", "quantifier": "all paths, sample types, signals, onsets, arguments, sequences of updates", "why_tests_cant": "The scripts have no tests; paths, onsets and throttled updates cannot be enumerated.", "anchors": ["scripts/beatsdrop/example.py: load_audio, crop_audio, resynth_audio, ScriptFitArgs"]}
{"id": "C99", "title": "Curves and marks of the figures are what their labels say", "statement": "The transforms of the FFT figure are the Fourier transforms (improper integrals from zero) of damped cosines and of their sums. Marked extrema are exactly the inner samples beyond both neighbours, marked crossings exactly the changes of sign; in signals without equal neighbours maxima and minima alternate (their numbers differ by the first and last directions) and there is at most one crossing more than there are extrema; crossings are drawn halfway. Without flags all figures are made, otherwise exactly those asked for. Horizontal and vertical arrangements return the same array of panels, sharing the same axes, with the same proportions. Changing the saturation multiplies the distance of every channel from the brightest one.", "quantifier": "all frequencies, decays, amplitudes, phases, signals, flags, shapes, colours, multipliers", "why_tests_cant": "Integrals and signals cannot be enumerated; the scripts have no tests.", "anchors": ["scripts/beatsdrop/figures.py: ArgParser.register_plot, ArgParser.custom_parse_args, subplots, resaturate, _exp_ft, _cos_ft, _beat_ft, plot_fft, _find_extrema, _find_zerox, plot_beat_imf"]}
{"id": "C100", "title": "Evaluation reports compare what they say they compare", "statement": "One kind of test is chosen. With a folder for logs no test raises: it yields a result, or a log with its seed and exception; otherwise exceptions are raised. If all tracks have finite parameters, the evaluated track is that of greatest energy; its data are the levels (plus 6 dB) and frequencies of its frames in order of time. Decisions are read from the track whose median frequency is nearest, if no track has gaps. A single mode is split into two halves that sound the same. Residuals are zero exactly for true values, do not depend on the gain, and are zero for exact estimates in either order when the energies differ; every variable and model has its own column, and stands under its heading in the report. Comparisons of two models in either order have opposite answers. The classification report counts decisions of beats and of single partials. With a progress bar, importances of all folds and targets are in the table. Posteriors are shares of the counts of a bin. The FFT report counts the cases with two tracks at least, out of all.", "quantifier": "all arguments, paths, exceptions, tracks, parameters, decisions, tables of results, ranks, folds, counts", "why_tests_cant": "Combinations of tracks and results cannot be enumerated; the scripts have no tests.", "anchors": ["scripts/beatsdrop/evaluation.py: ArgParser.custom_parse_args, prepare_folders, test_case_context, test_case, test_case_decision, test_case_fft, statistical_tests, print_report, decision_report, fft_report"]}
{"id": "C101", "title": "Widgets share data, are laid out without overlaps, and user files keep what is saved", "statement": "A widget reads the value of a shared property that was assigned last by any widget with the same parent; every listed name that a class does not define is such a property, also by inheritance. widget_children lists every widget inside a widget once, each before those in it. responsive() gives weight 1 to the lines asked for and changes no others. An attribute of the responsive module is looked up in its modules in order; accesses of one class give the same new class, of different classes different ones. Settings with different names are in consecutive rows, no two widgets cover the same place, and labels and entries are in responsive lines. The three axes of the analysis tab are inside the figure and disjoint for margins that leave room. Released versions are not shown in the title, others are. Toolbar buttons get the style they are given and keep the rest. A file that was saved is loaded unchanged until it is saved or deleted, and no other file changes; files of different names in a folder differ. Themes that exist are kept silently, others are dropped with a message.", "quantifier": "all widget trees, histories of assignments, classes, lines, settings, margins, version strings, styles, paths, file contents, themes", "why_tests_cant": "The GUI has no tests; trees, histories and texts are unbounded.", "anchors": ["sample/widgets/utils.py: get_root, RootProperty, DataOnRootMeta, widget_children, root_color", "sample/widgets/responsive.py: ResponsiveMixin.responsive, __getattr__", "sample/widgets/settings.py: SettingsTab.add_setting, reset_selections, postprocess_guitheme", "sample/widgets/userfiles.py: UserDir, UserTtkTheme.is_valid", "sample/widgets/analysis.py: AnalysisTab.__init__", "sample/widgets/main.py: SAMPLERoot.__init__, SAMPLEGUI.reset_selections", "sample/widgets/pyplot.py: PyplotFrame.__init__"]}
{"id": "C102", "title": "Wrappers change only what they say and put everything back", "statement": "A function decorated with warnings_simplefilter leaves the warning filters as they were, whether it returns or raises; the new filter decides first, the others keep their order; the toggle (or its default) never reaches the function, and when it is off the call is the plain one; ignored classes are neither shown nor raised unless the function adds filters, others are treated as without the decorator; every filtered call adds to traces. mock_tk2ttk: inside, the named classes are the replacements and nothing else changes; afterwards the originals are back however the block ends; a missing name raises, the block is not run, all is as before. try_func catches only the given exceptions. custom_bool is false exactly for false, f, the empty text and zeros. np2pg makes one operator per name. time_this shows the duration once, within half of the last digit, unless the block raises. WebAudio makes a channel of each row. tf_plot is aspect_ratio times as wide as high for any limits. complex2db is the level of the magnitude, or the floor in dB if greater; levels of products add.", "quantifier": "all filters, classes of warnings, functions, keyword arguments, modules, blocks, texts, histories of accesses, durations, arrays, limits, complex numbers", "why_tests_cant": "Programs, histories and real numbers are unbounded; tests call each wrapper once with one function.", "anchors": ["sample/utils/__init__.py: warnings_simplefilter, Numpy2Paragraph.__getattr__", "sample/widgets/pyplot.py: mock_tk2ttk", "sample/widgets/settings.py: try_func, custom_bool", "sample/ipython.py: time_this, WebAudio", "sample/plots.py: tf_plot", "sample/utils/dsp.py: complex2db"]}
{"id": "C103", "title": "Partials at the frequencies of bins are measured exactly", "statement": "With a window that is a sum of cosines (boxcar, hann, hamming, blackman, nuttall, blackmanharris, flattop of get_window) as long as the transform, the spectrum of the window is zero beyond as many bins as it has cosines and |a_m| / (2 a_0) up to there. If a sound is a sum of sinusoids at bins that far apart from each other, from zero and from half of the sample rate, then in every frame at any hop the peaks are the sinusoids, no more and no less, at exactly their frequencies and half their amplitudes, and the bin of each has the phase of the sinusoid at the middle of the frame. SinusoidalModel.fit gives one track per sinusoid over all frames (the modal tracker those in the band and above the threshold, forwards or in reverse), and what SAMPLE passes to the regression is exactly the frequency and the amplitude of the sinusoid in dB in every frame.", "quantifier": "all coefficients that decrease, sizes, numbers of sinusoids, bins, amplitudes, phases, lengths of sounds, hops, sample rates, thresholds, settings of both trackers, phase spectra and orders of peaks", "why_tests_cant": "Real amplitudes and phases and sounds of any length; tests compare one synthetic sound within a tolerance.", "anchors": ["sample/sms/dsp.py: dft, peak_detect, peak_refine, peak_detect_interp", "sample/sms/sm.py: SinusoidalModel.fit, SineTracker.__call__", "sample/sms/mm.py: ModalTracker.track_ok", "sample/sample.py: SAMPLE._preprocess_track"]}
{"id": "C104", "title": "Old names of settings mean the settings that they became", "statement": "Settings that moved into the parts of the sinusoidal model may still be given by their former names, alone or mixed with new ones, in any order: SAMPLE(**kwargs), set_params and the optimizer's dimensions and keywords have exactly the effect of the names that they stand for (sinusoidal_model__x for sinusoidal__x, and of the latter twelve names such as max_n_sines for tracker__max_n_sines). Every candidate of the tuning script is a new model with a transform of 2^log_n samples, a Hamming window of this size, a hop of half the window, the values of the point, and all other settings of the optimizer's model.", "quantifier": "all dictionaries of settings whose meanings are distinct, all values that are not estimators, all worlds of objects, all depths, all points of the search space", "why_tests_cant": "Any number of names in any mix, order and state of the model; tests rename a single argument.", "anchors": ["sample/sms/sm.py: _decorate_sinusoidal_model", "sample/sms/mm.py: _decorate_modal_model", "sample/sample.py: SAMPLE.set_params", "sample/optimize.py: sample_kwargs_remapper, SAMPLEOptimizer", "scripts/cim22/autotuning.py: main"]}
{"id": "C105", "title": "The trackers do in double precision what they do in exact arithmetic", "statement": "Whatever the numbers are (rounded, infinite, NaN), and whatever averages and regression lines the modal tracker gets: no more than max_n_sines tracks are active, they have no holes and reach the current frame, each sample of each track is copied from a peak of its frame, no peak is used twice, and merging keeps each accepted track whole, once. In binary64, SineTracker reports exactly the tracks of at least two frames that are not shorter than round(min_sine_dur * round(fs / h)) frames; if all frequencies are finite, peaks are matched by loudness to the nearest free track as rounded distances compare, and the matched track is never farther than one that ends, up to a factor of (1 + 2^-53) / (1 - 2^-53).", "quantifier": "all histories of frames of peaks, all settings, all arithmetics (structure); all histories of binary64 numbers (durations, nearness)", "why_tests_cant": "Ties, overflow, NaN and rounding at the last bit cannot be enumerated; tests use a few ordinary signals.", "anchors": ["sample/sms/sm.py: SineTracker", "sample/sms/mm.py: ModalTracker, glue_sines"]}
{"id": "C106", "title": "In double precision peaks are found where they are, and frequencies are in order", "statement": "For magnitudes and phases that are finite doubles up to 2^1020: peak_detect returns, in order, exactly the inner bins above both neighbours and the threshold, at least two apart. For each of them peak_detect_interp returns finite numbers: a location at most half a bin (plus 2^-51) away, on the side of the greater neighbour and exactly at the bin if they are equal; a magnitude not below that of the bin, so above the threshold; a phase on the line between the two bins around the location, up to 2^-50 of their sizes. If the second difference is at least 2^-20 of the magnitudes, location and magnitude are those of the vertex of the parabola up to 2^-32. With a sampling rate between 2^-500 and 2^500 and up to 2^40 bins, the frequencies given to the tracker are strictly increasing and strictly between 0 and fs/2, each is location * fs / n up to 2^-51 of it, and SineTracker reports no NaN and no infinity.", "quantifier": "all arrays of doubles up to 2^1020 of any length up to 2^40, all thresholds (also infinite or NaN), all histories", "why_tests_cant": "Cancellation, subnormal numbers and neighbouring binades are not met by a few spectra; for tests all peaks look alike.", "anchors": ["sample/sms/dsp.py: peak_detect, peak_refine, peak_detect_interp", "sample/sms/sm.py: SinusoidalModel.dft_frames, SineTracker"]}
{"id": "C107", "title": "In double precision times stay in order and hinges keep their shape", "statement": "For sampling rates between 2^-500 and 2^500 and sizes and counts up to 2^40, the time axis that SAMPLE computes for a track has one finite number for each frame that is not NaN, in order; it is (start + i) * h / fs, plus half a window if frames are not padded, taken from the end if the signal was analysed backwards, up to 2^-50 of the numbers it is computed from; no two times are equal, they strictly increase (decrease, if backwards). hinge_function of doubles is monotone in x as its slope says, constant beyond the knee, never above the intercept if the slope is not positive and x and the knee are not negative, and k * min(x, a) + q up to 2^-51 of its terms.", "quantifier": "all tracks with gaps anywhere, all settings within the stated sizes, all finite coefficients whose terms are up to 2^1020", "why_tests_cant": "Whether two rounded times coincide or a rounded line is monotone cannot be seen on examples with round numbers.", "anchors": ["sample/sample.py: SAMPLE._preprocess_track", "sample/hinge.py: hinge_function", "sample/sms/sm.py: SineTracker.frame_rate"]}
{"id": "C108", "title": "Bisection in double precision ends at a change of sign", "statement": "For every function from doubles to doubles that is not above zero at one end and not below zero at the other (both up to 2^1022), dychotomic_zero_crossing does not raise, and returns a finite number between the ends; there the function is zero (or NaN), or the number lies between two doubles at which the function is not above and not below zero, whose distance is at most |hi - lo| / 2^steps + 2^-52 * max(|lo|, |hi|) + 2^-1074. It raises ValueError whenever both values are finite and their exact product is at least 2^-1074.", "quantifier": "all functions on doubles (also with NaN and infinite values in between), all ends, all numbers of steps", "why_tests_cant": "Functions are universally quantified; rounding of midpoints and underflow of the product are not met by smooth examples.", "anchors": ["sample/utils/dsp.py: dychotomic_zero_crossing"]}
{"id": "C109", "title": "In double precision beats have the envelope and frequency of two partials, until both are silent", "statement": "Whatever the library's cosine and sine are (values in [-1, 1], no cosine as small as 2^-100), the envelope of Beat is a finite number and not negative for all amplitudes up to 2^500. If the cosine is within 2^-50 of the real one, the square of the envelope is a0^2 + a1^2 + 2 a0 a1 cos(2 pi (f0 - f1) t + p0 - p1) up to 2^-46 (1 + F U + P) (|a0| + |a1|)^2, with F, U, P the sizes of frequencies, times and phases. The instantaneous frequency is that of the sum of both partials up to 2^-40 K^2 times the sizes of frequencies and derivatives, where 1 / K is how close the partials come to cancelling each other. If amplitudes are not negative, their sum is at least 2^-100, and everything is of moderate size, all samples of the audio are finite and at most a0 + a1 (up to 2^-47). Each sample is the envelope times the cosine of the area under the instantaneous frequencies before it (by trapezoids, up to 2^-50 for each of them) plus the mean of the initial phases plus the angle of ((z0 + z1) / 2 cos((p0 - p1) / 2), (z0 - z1) / 2 sin((p0 - p1) / 2)), with z0, z1 the amplitudes at time 0. An ExponentialDecay is a exp(-2 t / d) and its derivative -2 / d times that, up to 2^-49 (1 + U / D) of it. But once both amplitudes are below 2^-538 every sample from there on is NaN; a ModalBeat is NaN from 201 times its longer decay on.", "quantifier": "all finite inputs within the stated sizes, all lists of up to 2^50 samples, all implementations of cos, sin, arctan2 and exp with the stated ranges", "why_tests_cant": "Cancellation and underflow depend on sizes and on the length of the signal; the implementations of the transcendental functions are universally quantified.", "anchors": ["sample/beatsdrop/__init__.py: Beat._define_am, Beat._define_fm, Beat._define_pm, Beat.compute, ExponentialDecay, ModalBeat"]}
{"id": "C110", "title": "In double precision additive synthesis is the sum of its partials, in whatever order it is added", "statement": "Whatever the library's cosine and exponential are (cosine in [-1, 1], exponential of a non-positive number in [0, 1]), and in whatever order, with or without fused multiply-add, BLAS adds the partials, every sample of additive_synth is finite and at most (1 + 2^-51 n) A + n 2^-1073, where n is the number of partials and A the sum of the moduli of their amplitudes. If cosine and exponential are within 2^-50 of the real ones, every sample is the sum of a exp(-2 t / d) cos(2 pi f t + p) up to (2^-51 n + 2^-46 (1 + F U + P + U / D)) A + n 2^-1073, where F, P, U are the sizes of frequencies, phases and times and D the smallest decay. Lists of different sizes are a ValueError. But if any decay is 0, the sample at time 0 is NaN, whatever the order.", "quantifier": "all lists of up to 2^50 partials and all time axes within the stated sizes, all orders of summation, all implementations of cos and exp with the stated ranges", "why_tests_cant": "The order in which a matrix product adds, and whether it uses fused operations, depends on the machine and on the BLAS; a test sees one of them.", "anchors": ["sample/sample.py: additive_synth"]}
{"id": "C111", "title": "Threads that play audio exclude each other, and get stuck if the garbage collector interferes", "statement": "Whatever a number of threads do with objects of TempAudio, and whenever finalizers run: a thread touches pygame or a buffer only while it has the class's lock, so two threads never do so at once. What is loaded and played is an open buffer, after pygame and its mixer have been initialised, at the rate of that buffer if pygame.init leaves the mixer alone (and at 44100 Hz otherwise). A buffer is closed at most once and stays closed. If finalizers run between calls only, then while a thread is in a call some thread can go on, every schedule finishes within the number of operations left to do, and then nobody has the lock. But if the cyclic garbage collector finalizes an object in a thread that is within play, that thread waits for itself: it keeps the lock and no thread ever plays again. And an object that is finalized while it plays closes the buffer that pygame plays from.", "quantifier": "all numbers of threads and objects, all interleavings of their operations, all times of finalization", "why_tests_cant": "Tests run one thread, or a few interleavings of two, and do not make the garbage collector run at a chosen bytecode.", "anchors": ["sample/widgets/audio.py: TempAudio"]}
{"id": "C112", "title": "Normalization in double precision: what is exact, what is NaN, and what is neither", "statement": "normalize of finite doubles, mode peak: if not all are zero, every result is the number divided by the largest modulus, rounded once; results are in [-1, 1], the largest become exactly 1 or -1, signs and order stay, and normalizing once more changes nothing. Only zeros, or a NaN, make everything NaN; an infinity makes infinities NaN and the rest zero. Mode range, numbers up to 2^1022 that are not all equal: results are in [0, 1], the least becomes exactly 0, the greatest exactly 1, the order stays and results are right up to 2^-51 of themselves; equal numbers become NaN. Mode rms, up to 2^40 numbers up to 2^400, in whatever order numpy adds: results are finite, and at most the square root of the number of elements (up to 2^-50), unless the difference from the mean is below 2^-480; the mean is right up to 2^-50 of the sum of the moduli. But a constant array does not become zeros in mode rms: three times 0.1 becomes three times -1, in whatever order numpy adds; and in mode range a difference that overflows makes the greatest number NaN.", "quantifier": "all arrays of doubles within the stated sizes, all orders of summation", "why_tests_cant": "Properties of rounding hold or fail on particular bit patterns; tests compare a few arrays up to a tolerance.", "anchors": ["sample/utils/dsp.py: normalize, _normalize_rms, _normalize_range"]}
{"id": "C113", "title": "Deciding on beats in double precision: almost the same frequency means the same frequency", "statement": "AlmostNotABeatDecisor.decide_beat on doubles. If frequencies are at least twice the threshold th * eps (and up to 2^1022), the decision is what it would be in real numbers: a beat exactly if the amplitudes and the difference of the frequencies are larger than the threshold in modulus. If frequencies are at least 2^k and th is less than 2^k, frequencies only count as almost equal if they are equal; so with the default th = 1 frequencies from 2 Hz on are compared exactly, and 440 Hz and the next double are a beat although it takes half a million years. Exchanging the partials never changes the decision, whatever the numbers are; a NaN anywhere, or two infinite frequencies of the same sign, are never a beat.", "quantifier": "all doubles within the stated sizes as amplitudes, frequencies and threshold; NaN and infinities where stated", "why_tests_cant": "Whether a difference of neighbouring doubles exceeds a scaled eps depends on the binade; tests use frequencies that are far apart or equal.", "anchors": ["sample/beatsdrop/decision.py: AlmostNotABeatDecisor._th, _not_amost_zero, decide_beat"]}
{"id": "C114", "title": "The filter of onset selection in double precision: errors do not add up, a NaN stays where it is", "statement": "_onset_selection_g on doubles. For finite numbers up to F and alpha at most 1 - 2^-k, every result is finite and right up to 2^(k-49) F, however long the signal is. Whatever the numbers and alpha are, a result is NaN exactly where the signal is NaN, is never below the signal, and after a NaN the filter restarts at the next number. In onset_selection a sample passes the comparison with the filter exactly if it is not below the filter at the sample before it; then it is not below that sample either. But with alpha = 0.95 a constant signal of 0.59 does not pass, as in real numbers it would: the filter rises above it.", "quantifier": "all arrays of doubles (within the stated sizes for the error), of any length, all alpha", "why_tests_cant": "Recursive filters accumulate rounding errors over any length; tests run a few short signals and do not contain NaN.", "anchors": ["sample/utils/dsp.py: _onset_selection_g, onset_selection"]}
{"id": "C115", "title": "Strided convolution in double precision: accurate in whatever order products are added, and a NaN only spoils outputs that depend on it", "statement": "strided_convolution on doubles, however BLAS orders additions and whether it fuses them with multiplications: output i is sample i * stride of the valid part of the convolution, for exactly those i for which it exists. If the n products it depends on have finite factors and moduli that sum up to at most 2^1000, output i is finite and right up to 2^-51 n of that sum (plus 2n of the least double); so with a signal up to X and a kernel whose moduli sum up to K, up to n (2^-51 K X + 2^-1073). If one of the numbers it depends on is NaN, it is NaN; other outputs do not change. Signals shorter than the kernel give no output, or a ValueError if the stride is too short to reach the end of the kernel. With a complex kernel this holds of the real and the imaginary parts.", "quantifier": "all signals and kernels of doubles, all strides, all orders of addition with and without fused operations", "why_tests_cant": "The order of additions depends on the machine and the library that runs the tests.", "anchors": ["sample/utils/dsp.py: strided_convolution, strided_convolution_complex_kernel, overlapping_windows"]}
{"id": "C116", "title": "Onset selection in double precision: exact maxima, and nothing at all if a number is not finite", "statement": "onset_selection on doubles, whatever the numbers are and in whatever order numpy adds: sample i is an onset exactly if it is at least w samples from both ends, >= each sample at most w away, and its normalized value is >= the filter at the sample before and >= the mean of the normalized window around it plus delta (plus 0 in place of the mean for the first m w samples). If all numbers are finite, onsets are exactly maxima among the samples at most w away, and onsets at most w apart have the same value. If any number is NaN or infinite, wherever it is, there is no onset. local_maxima alone: exactly the samples at least w from both ends that are >= each key at most w away (comparisons with NaN are false) and, with logical_and, were selected before.", "quantifier": "all arrays of doubles, all window sizes that fit, all alpha, delta and orders of summation, all contents of uninitialised memory", "why_tests_cant": "A single NaN in a long detection function silences it all; tests use clean synthetic signals.", "anchors": ["sample/utils/dsp.py: local_maxima, _onset_selection_m, onset_selection"]}
{"id": "C117", "title": "Spectral flux and onset detection in double precision: accuracy, positions, and when nothing is detected", "statement": "spectral_flux_from_tf on the moduli of a matrix, as doubles, in whatever order numpy adds: one value for each two successive frames, finite, never negative, 0 exactly if no modulus rises between them, and within 2^-50 times the number of rows, relatively, of the real sum of what rises. onset_detection places the onset of frame i of n, in a signal of size samples, exactly at floor(i size / n) as long as n size <= 2^53, and flags no other sample; beyond, it can be one sample late, as for the last of 2^23 frames of 2^32+1 samples. If the matrix has one NaN anywhere or an infinity after the first frame, no sample is flagged; nor if no modulus ever rises and delta > 0.", "quantifier": "all matrices with moduli up to 2^900 and up to 2^50 rows (any doubles for NaN and infinities), all sizes, all window sizes that fit, all alpha and delta, all orders of summation", "why_tests_cant": "The floor of a rounded quotient is right for all short signals; tests never use one with 2^32 samples, nor every order of summation.", "anchors": ["sample/utils/dsp.py: spectral_flux_from_tf, onset_detection"]}
{"id": "C118", "title": "Random beats in double precision: limits, sums and lengths", "statement": "On doubles, whatever numbers are drawn: beta_twosides of x in [0,1] has a modulus never below left, at most right(1+2^-51), within 2^-51 right of left + x(right-left), and exactly left if x is 0; its sign is positive exactly if the uniform number drawn is at most positive. The difference of the frequencies that beat has a modulus in [beat_min(1-2^-50), beat_max(1+2^-50)]; it can be below beat_min, with the default limits if 1 is drawn. decays raises ValueError exactly if decay < decay_min; otherwise no decay is below decay_min, and each is the nearest double to the number drawn plus it. The amplitudes of amps are not negative and their sum is sine_amp up to 2^-48 of it; with onlybeat the last is exactly 0. audio has floor(dur fs) samples, or one more if dur fs is within 2^-53 of itself of the next integer; for dur = k/fs it has k samples or k-1: 14 for 15/44100 at 44100 Hz. Without dur, the duration is the nearest double to three times the decay.", "quantifier": "all draws, all limits with moduli within the stated ranges (2^-100..2^100 for beats, up to 2^1000 otherwise), all orders of summation, all durations and rates up to 2^52 samples, all k and integer rates up to 2^40", "why_tests_cant": "Draws at the ends of the interval hardly ever happen, and one sample less is not noticed.", "anchors": ["sample/evaluation/random.py: BeatsGenerator.beta_twosides, freqs, decays, amps, audio"]}
{"id": "C119", "title": "Bark and equivalent rectangular bandwidths in double precision", "statement": "On doubles: erb and _erb_linear are right up to 2^-49 of their value, and never decrease with the frequency. The default hz2bark is right up to 2^-44 Bark, but can decrease: there are frequencies above 274 Hz such that the higher one gives fewer Bark. The default bark2hz is right up to 2^-27 Hz from -1 to 26 Bark and never decreases from minus the double 0.53 to 26 Bark. Up to 32768 Hz, bark2hz(hz2bark(f)) is f up to 2^-26 Hz.", "quantifier": "all frequencies that are 0 or from 2^-400 Hz up to 2^400 Hz (32768 Hz for the round trip), all Bark from -1 to 26", "why_tests_cant": "Errors of rounding depend on every bit of the frequency; two adjacent doubles are hardly ever compared.", "anchors": ["sample/psycho.py: _hz2bark_traunmuller, _bark2hz_traunmuller, erb, _erb_linear"]}
{"id": "C120", "title": "The distance of the spectral losses in double precision", "statement": "On doubles, lp_distance(x, y) with the default p=1, for n finite numbers each: it is finite, not negative, right up to 2^-50 (n+1) of the sum of the absolute differences, and 0 exactly if the vectors are equal. It is the same to the bit in both directions, also with infinities and NaN. A NaN in one vector, or the same infinity at the same place of both (where they are equal), gives NaN. The triangle inequality holds up to 2^-47 (n+1) of the sum of the two distances, but not exactly: -1 is at 2^53 and 1 from 2^53 and -2, which are at 2^53+2. ValueError is raised exactly if y has neither the length of x nor one element, so a distance can exist in one direction only.", "quantifier": "all vectors of up to 2^40 finite doubles with moduli up to 2^900, all orders of summation; all doubles and lengths for symmetry, NaN and errors", "why_tests_cant": "Errors of rounding depend on the order of the sum and on every bit; counterexamples to the triangle inequality are rare.", "anchors": ["sample/evaluation/metrics.py: lp_distance"]}
{"id": "C121", "title": "Naming an object keeps what calling it does", "statement": "NamedObject(obj, name), repeated any number of times, is callable exactly if obj is, and calling it returns or raises what calling obj does. Its __name__ is the last name given; if the last one is None reading it raises AttributeError, even if obj has a name. Only NamedObject itself chooses the class: objects of a class derived from it are never callable, even around a function, and those of NamedCallable always are, also around objects that are not (calling them raises TypeError).", "quantifier": "all objects, functions, arguments and sequences of names", "why_tests_cant": "Tests try one function and one name; nesting is unbounded.", "anchors": ["sample/utils/__init__.py: NamedObjectMeta, NamedObject, NamedCallable"]}
{"id": "C122", "title": "Half sums and half differences in double precision", "statement": "On doubles: the half sum of two numbers is never below the lower nor above the higher one, does not depend on their order, is right up to 2^-51 of it and, of a number and itself, is that number; for numbers above the range it can be infinite. The half difference is right up to 2^-51 of it, changes sign with the order, never has the wrong sign and is 0 if the numbers are equal; it can be 0 for numbers that differ by the smallest double, but not for differences of 2^-1072 or more. Sum and difference of the two are the numbers again up to 2^-50 of the sum of their moduli, but not exactly: with 2^53, 1 comes back as 0.5.", "quantifier": "all finite doubles with moduli up to 2^1000", "why_tests_cant": "Errors of rounding depend on every bit; counterexamples need very different magnitudes or subnormal numbers.", "anchors": ["sample/utils/__init__.py: Numpy2Paragraph._semisum, Numpy2Paragraph._semidiff"]}
