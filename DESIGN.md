# Design

Machine-checked model (Rocq / Coq 8.16.1) of the behaviour of LIMUNIMI/SAMPLE
described in `properties.jsonl`.  Sources live in `rocq/theories/`.

## Layout

For each area of the code there are three kinds of file.

* `<Area>_Model.v` - definitions only.  Every definition cites the file and the
  lines of `/repo` it models and says where it simplifies.
* `<Area>_Proofs.v` - lemmas.
* `<Area>_Props.v` - the specification vocabulary, the property theorems (each
  closed by `exact`), a `Print Assumptions` for each, and a concrete example
  that satisfies the theorem's hypotheses.

Theorem names start with the property id in lower case (`c01_...`).  A theorem
ending in `_partial` proves less than the property says; the comment above it
says what is missing.  A theorem ending in `_refuted` is a witness that the
property, as a user would expect it, is false of the code.

## Modelling conventions

* Python exceptions are values: `res A = Ok a | Err exn`.
* Numbers.  Discrete algorithms (tracking, peak picking, trimming, parsing) are
  modelled over `Z`, `nat` and exact rationals `Q` so that they compute.
  Formulas (psychoacoustic scales, envelopes, beats) are modelled over Coq's
  real numbers `R`.  IEEE rounding, overflow and signed zero are **not**
  modelled, except where a property is about them (then `SpecFloat`/Flocq is used).
  NaN is modelled where the code relies on it (`option` or an explicit
  constructor).
* `np.argsort` without `kind=` is not stable: the model takes the order as an
  argument and the theorems quantify over every order that sorts the keys.
* Python dicts are association lists with insertion order.
* Mutable objects are state passed through `init`/`step` functions; histories
  are `fold_left` over lists of events.  `out=` aliasing is modelled with an
  explicit store.
* Uninitialised memory (`np.empty`) is an arbitrary argument.
* Third-party numerics (`fft`, `LinearRegression`, `least_squares`, `skopt`,
  random generators) enter either through their mathematical specification
  (least squares = a minimiser of the squared residuals, DFT = the defining
  sum, random draw = any value of the distribution's support) or as an
  arbitrary function argument.

## Trusted base

* Coq's kernel (no kernel check is switched off, no plugin, no native compute).
* The axioms printed by `Print Assumptions` below each theorem.  For theorems
  over `Z`, `nat`, `Q` and lists: none.  For theorems over `R`:
  `ClassicalDedekindReals.sig_forall_dec`, `ClassicalDedekindReals.sig_not_dec`,
  `FunctionalExtensionality.functional_extensionality_dep` and, where Coquelicot
  is used, `Classical_Prop.classic` - all from the standard library.
* The correspondence between `*_Model.v` and `/repo`, which is by reading.

## Plan per property

| id | what is modelled | how it is proved |
|----|------------------|------------------|
| C01 | `SineTracker.__call__` and both `deactivate` over `Q`, `max_n_sines : Z` | invariant by induction over the frame list |
| C02 | same, with existential peak indices | invariant with ghost indices, `NoDup` of (frame, peak) pairs |
| C03 | the matching loop for one frame, any loudness order | invariant of the loop over the order |
| C04 | `track_ok`, `all_tracks_`, `min_sine_len` | conservation invariant (every track ever started is active, saved or too short) |
| C05 | `__call__` | part of the tracker invariant |
| C06 | `ModalTracker.track_ok`, closed-form OLS over `Q` | OLS shown to be the minimiser; criteria stated on any minimiser |
| C07 | `ModalTracker.deactivate` | segments as ghost data, permutation invariant |
| C08 | `ModalTracker.deactivate`, `min_key` | case analysis plus C12 |
| C09 | `all_tracks_`, `strip_n` | filter specification |
| C10 | `freq_diff_function`, error propagation | induction over histories with `res` |
| C11 | `SinusoidalModel.fit`, `reset`, storage | fit is a function of parameters and input only |
| C12 | `min_key` incl. NaN comparison | induction over the list |
| C13 | `n_windows`, `overlapping_windows` | integer arithmetic |
| C14 | `pad_input`, `time_frames` | integer arithmetic and list lemmas |
| C15 | `dft` buffer, DFT as finite complex sum, window normalisation | index bijection; sums over `R` |
| C16 | `peak_detect` | filter specification |
| C17 | `peak_refine` | field arithmetic over `R` |
| C18 | `_preprocess_track` | list induction |
| C19 | `_fit_track`, envelope, `db2a` | exp/ln algebra |
| C20 | `modal_energy` | Coquelicot improper integral |
| C21 | `fit` column assembly, `_valid_params_` | list induction, NaN/inf as constructors |
| C22 | `mode_argsort_`, `predict` truncation | any sorting permutation |
| C23 | `additive_synth` | sums over lists of reals |
| C24 | `sdt_params_` | list lemmas, error branch |
| C25 | `_progress_starmap` as a transition system | induction over schedules |
| C26 | `_wrap_as_managed`, `sample_training_context` | state and exception model |
| C27 | `OptionalStorage` | induction over operation lists |
| C28 | `deprecated_argument` | association-list lemmas |
| C29 | `_DefaultProperty` with an allocator | invariant over histories |
| C30 | `function_with_variants` | fold over registrations |
| C31 | imperative array programs with a store | execution lemma per function |
| C32-C36 | scale formulas over `R` | analysis over `R` |
| C37 | `GammatoneFilter` envelope and delays | derivative-free inequality on `u^m e^(-u)` |
| C38 | centre-frequency formula | monotonicity of the ERB scale |
| C39 | `mel_triangular_filterbank` | case analysis over `R` |
| C40 | strided convolution | finite sums |
| C41 | `PrecomputedIRBank.convolve` | index arithmetic plus C40 |
| C42 | beat formulas over `R` | trigonometry and derivatives |
| C43-C46 | decision logic over `R` | case analysis |
| C47 | losses over lists of `R` | induction, Cauchy-Schwarz |
| C48 | generator with arbitrary draws | order reasoning plus C33 |
| C49-C50 | kwargs as association lists | case analysis |
| C51 | bisection loop | induction over steps, intermediate value theorem |
| C52 | `local_maxima`, onset selection over `Q`, arbitrary initial memory | index reasoning |
| C53 | `normalize` over `R` | list max/min lemmas |
| C54 | trim state machine | invariant over event lists |
| C55 | parsers on parsed values | case analysis; `Z.log2_up` |
| C56 | `_version_compare` | list induction |
| C57 | `SineTracker`, `ModalTracker` | simulation of the two histories; witness for the modal tracker |
| C58-C59 | onset detection, spectral flux | index and order reasoning |
| C60 | `BeatDecisor`, `SAMPLEBeatsDROP._fit_track` | list induction |
| C61 | `stft2mel` | norm inequalities on finite sums |
| C62 | `default_kws` | association-list lemmas |
| C63 | changelog scripts as functions of texts | list and string lemmas |
| C64 | keywords of `SAMPLE.fit` | on top of C65 |
| C65-C67 | constructors, `get_params`, `set_params`, `clone` with a heap of objects | invariants over reachable objects, frame lemmas |
| C68 | `TqdmCallback` | induction over calls |
| C69-C70 | `detrend` with any least-squares regressor, `f2bin`/`bin2f` | normal equations, ceiling |
| C71-C73 | Lomb-Scargle periodogram, autocorrelograms, initial beat parameters | slices, orthogonality of the Fourier basis |
| C74-C78 | GUI sessions: analysis, playback, export, loading, reload, launcher | invariants over histories of user actions |
| C79-C80 | notebook formatter, HTML view of a model | texts as lists of characters, roundtrips, induction over nested models |
| C81-C83 | gammatone responses, banks, cochleagrams | real analysis (monotone level, bisection), exchange of sums, real parts of complex convolutions |
| C84-C89 | residuals, variables, resynthesis of beats; hinge regression of exact data; initial phases | real analysis, orthogonality of sampled sinusoids, uniqueness of minima of sums of squares |
| C90-C91 | the whole analysis of uniformly decaying sounds | invariants of the tracker: every track follows one spectral line; exact regression |
| C92 | gain of the recording | homomorphism: raised levels commute with every step of the analysis |
| C93 | unit of time | homomorphism: scaled frequencies commute with every step of the tracker, scaled slopes with the regression |
| C94 | plots of tracks | points of lines by induction over tracks; time axis of C18 |
| C95 | plots of resyntheses and comparisons | panels by position; squeezing of axes |
| C96 | killed and resumed evaluation runs | invariant over files for every kill; refuted corner cases |
| C97 | interrupted benchmarks, speed-ups, colours | prefix invariant over columns; averages by group; order of colours |
| C98 | the example script: loading, cropping, resynthesis, names, progress | extremal specs of onsets; gain; splitext against an inductive grammar of paths |
| C99 | figures: transforms, extrema, crossings, panels, colours | improper integrals by antiderivatives (Coquelicot); potential argument for crossings; sectors of hue |
| C100 | evaluation reports: selection of tracks and decisions, residuals, comparisons, importances, posteriors | first-maximum lemma; loop invariant over rows of the table; refutations by witnesses |
| C101 | widgets: shared data, trees, layout, classes made once, title, toolbar style, files of the user, themes | invariants of caches and grids; induction over trees; automaton of the version equals joined numbers |
| C102 | wrappers: filters of warnings, replaced classes, parsers, operators made once, timing, channels, time-frequency plots, levels of complex numbers | programs of warnings; nested patches by induction; logarithms of magnitudes |
| C103 | sinusoids at the frequencies of bins: peaks, phases, tracks, amplitudes are exact; spectra of windows that are sums of cosines | products of cosines; orthogonality on `n` points; one sinusoid per bin; steady tracks of C90 |
| C104 | old names of settings at any depth: constructor, `set_params`, optimizer, tuning script | calls as own values and groups per child; equal groups give equal runs; renaming as a bijection on names |
| C105 | the trackers in any arithmetic, and in binary64 | the invariants of C01-C07 again without any law of arithmetic; comparisons of non-NaN doubles as a strict weak order; rounding of differences from Flocq |
| C106 | detection and interpolation of peaks in binary64 | error analysis of the parabola with Flocq: the denominator is never zero and the quotient never above one half but for rounding; relative errors for the frequencies; C105 for the tracks |
| C107 | time axis and hinge function in binary64 | relative errors of the four operations against the spacing of frames; monotonicity of rounding |
| C108 | bisection in binary64 | a midpoint never leaves its interval; induction on the steps with a bracket whose width halves up to rounding |
| C109 | beat model in binary64 | error bounds carried through every operation as (exact value, size, number of roundings); pi from Machin's series; NaN propagates through the cumulative sum |
| C110 | additive synthesis in binary64 | the scalar product is a relation with every order of summation and fused operations; induction on it bounds the error by 2^-51 per term |
| C111 | threads that play audio | small-step semantics of threads, a lock and finalizers; an invariant says which calls can be within the lock and what holds of pygame there; the number of operations left decreases |
| C112 | normalization in binary64 | rounding is monotone and keeps 0 and 1; sums in any order are a relation; a sum of squares is at least each of them |
| C113 | decision on beats in binary64 | Sterbenz: differences near the threshold are exact; doubles from 2^k on are multiples of 2^(k-52) |
| C114 | onset filter in binary64 | the filter is a contraction by alpha, so the rounding of one step is summed geometrically; Python's max keeps its first argument against NaN |
| C115 | strided convolution in binary64 | the bound on scalar products in any order of C110, on windows; NaN goes through every operation |
| C116 | onset selection in binary64 | >= a maximum means >= each element, with NaN too; a sum with a NaN or an infinity is NaN or that infinity |
| C117 | spectral flux and onset detection in binary64 | a difference of doubles keeps its sign; a quotient of integers below 2^53 is farther from the next integer than it can round |
| C118 | random beats in binary64 | rounding is monotone, so lower limits are exact; relative errors for the others |
| C119 | Bark and bandwidths in binary64 | relative errors composed by a predicate closed under sums, products, inverses and roundings; monotone by rounding |
| C120 | `lp_distance` in binary64 | differences have relative errors, sums are bounded for all orders |
| C121 | named objects | induction on the names |
| C122 | half sums and differences in binary64 | rounding is monotone and doubles are closed under doubling |

<!-- scope -->
## What is modelled

| model file | code |
|------------|------|
| `Tracker_Model.v` | `sample/sms/sm.py` `SineTracker`, `sample/sms/mm.py` `ModalTracker` and its merge strategies, over `Q` |
| `Stft_Model.v`, `Dft_Model.v` | `sample/sms/dsp.py`, `sample/utils/dsp.py` windows, `SinusoidalModel` framing (`pad_input`, `time_frames`), the DFT as its defining sum over `R` |
| `Train_Model.v` | `SinusoidalModel.fit` with its storage, `sample/_training.py`, the fit of the tracks in `sample/sample.py`, appends of managed storages statement by statement, `sample/widgets/sample.py` progress |
| `Sample_Model.v` | `sample/sample.py`: regression of the tracks, `param_matrix_`, selection and order of modes, `predict`, `sdt_params_`, `additive_synth`, `modal_energy`, over `R` |
| `Np_Model.v`, `Psycho_Model.v` | `numpy_out` and in-place programs on a store of arrays; scales, levels, A-weighting and gammatone filters of `sample/psycho.py`, over `R` |
| `Bank_Model.v` | gammatone filterbank, mel filterbank, `stft2mel`, `sample/hinge.py` |
| `Dsp_Model.v` | convolution with strides, `PrecomputedIRBank.convolve`, zero crossing, onsets, spectral flux, `normalize` |
| `Corr_Model.v` | `detrend`, `f2bin`, `bin2f`, periodogram and autocorrelograms of `sample/utils/dsp.py`, `_default_params_init` of the beat regression (except its phase) |
| `Beat_Model.v` (`Beat_Trapz.v`) | `sample/beatsdrop/`: `Beat`, `sort_params`, initial parameters and bounds, decisions, `SAMPLEBeatsDROP` |
| `Utils_Model.v` | `sample/utils/__init__.py` (variants, deprecated arguments, `default_kws`), `sample/utils/learn.py` (default properties, `OptionalStorage`) |
| `Params_Model.v`, `Opt_Model.v` | parameters of the estimators with objects as a heap: constructors, `get_params`, `set_params`, `clone`; keywords of `fit`; `sample/optimize.py` |
| `Eval_Model.v` | `sample/evaluation/metrics.py` and `random.py` with arbitrary draws |
| `Gui_Model.v` | trim region of `sample/widgets/audioload.py` (times in binary64 through `SpecFloat`), parsers and callbacks of `sample/widgets/settings.py` |
| `Session_Model.v` | state and callbacks of the GUI: `load_cbk` of `sample/widgets/audioload.py`, `sample/widgets/analysis.py`, cache, theme and reload of `sample/widgets/main.py` and `sample/widgets/userfiles.py`, `sample/gui.py`; the file dialogs, boxes and sounds are observations, fit and predict are parameters |
| `Changelog_Model.v` | `scripts/utils/make_changelog.py`, `extract_changelog.py` |
| `Nb_Model.v` | `scripts/utils/yapf_nbformat.py` (yapf is a parameter) and the HTML view of a model of `sample/ipython.py` |
| `Gamma_Model.v` | `t60`, `ir_size`, `ir` of `GammatoneFilter`, `GammatoneFilterbank` (attributes, precomputed banks), `cochleagram` of `sample/psycho.py`, options of `CochleagramLoss` of `sample/evaluation/metrics.py` |
| `Resid_Model.v` | residual functions, frequency clipping, phase estimate and `predict` of `sample/beatsdrop/regression.py`; `variables`, `compute`, `__getattr__` of `Beat` of `sample/beatsdrop/__init__.py`; `predict` and `phases_` of `sample/beatsdrop/sample.py` |
| `Pipe_Model.v` | the whole analysis over the reals, from samples to modes: frames, spectra, peaks and trackers of `sample/sms`, `SAMPLE.fit` of `sample/sample.py` with the hinge regression; `Pipe_Agree.v` proves that its peaks and trackers agree with the rational models |
| `Plot_Model.v` | the data of the plots of `sample/plots.py`: sine tracks in two and three dimensions, panels of resyntheses, axes of comparisons of beat regressions; labels and players of `sample/ipython.py`. Matplotlib, colours, images are not modelled |
| `Study_Model.v` | `scripts/beatsdrop/evaluation.py`: loading of results and checkpoints, arrival of results, checkpoints, saving. Test cases are any function of the seed; reports and figures are not modelled here |
| `Perf_Model.v` | `scripts/cim22/performance.py`: grids, cleaning, loading, running with interruptions, matrices of times, speed-ups, colours, ticks. Timing and drawing are not modelled |
| `Script_Model.v` | `scripts/beatsdrop/example.py`: conversion of samples, mono, choice of the crop, gain of the resynthesis, default names (`os.path.splitext`), progress. Reading and writing of WAV, downloading, logging and plotting are not modelled |
| `Fig_Model.v` | `scripts/beatsdrop/figures.py`: choice of figures, panels, saturation, transforms of beats, extrema and zero crossings. Drawing, EMD and AR spectra are not modelled |
| `Report_Model.v` | `scripts/beatsdrop/evaluation.py`: choice of the test, folders, exceptions of test cases, selection of tracks and decisions, residuals, statistical comparison, decision report, FFT report. autorank, scikit-learn, LaTeX layout and drawing are not modelled |
| `Widget_Model.v` | `sample/widgets/utils.py`, `responsive.py`, `userfiles.py`; the grid and the selections of `settings.py`, axes and rows of buttons of `analysis.py` and `audioload.py`, title and selections of `main.py`, style of the toolbar of `pyplot.py`. tkinter, drawing and events are not modelled |
| `Wrap_Model.v` | `warnings_simplefilter` and `Numpy2Paragraph.__getattr__` (`utils/__init__.py`), `mock_tk2ttk` (`pyplot.py`), `try_func`, `custom_bool` (`settings.py`), `time_this`, the channels of `WebAudio` (`ipython.py`), `tf_plot` (`plots.py`), `complex2db` (`dsp.py`) |
| `Alias_Model.v` | `scripts/cim22/autotuning.py` (the fixed settings and the search space; the loss, the audio and the plots are not modelled) |
| `Double_Model.v` | `sample/sms/sm.py` (`SineTracker`), `sample/sms/mm.py` (`ModalTracker`, `glue_sines`) once more, in any arithmetic and in binary64 |
| `Peak_Model.v` | `sample/sms/dsp.py` (`peak_detect`, `peak_refine`, `peak_detect_interp`) and the frequencies of `sample/sms/sm.py` line 327 once more, in binary64 |
| `Clock_Model.v` | the time axis of `SAMPLE._preprocess_track` (`sample/sample.py`) and `hinge_function` (`sample/hinge.py`) once more, in binary64 |
| `Bisect_Model.v` | `dychotomic_zero_crossing` (`sample/utils/dsp.py`) once more, in binary64 |
| `Ripple_Model.v` | `Beat`, `ExponentialDecay` and `ModalBeat` (`sample/beatsdrop/__init__.py`) once more, in binary64 |
| `Synth_Model.v` | `additive_synth` (`sample/sample.py`) once more, in binary64, with `analytic=False` |
| `Mixer_Model.v` | `TempAudio` (`sample/widgets/audio.py` 11-60) as threads with a lock, finalizers at any time; pygame's mixer as far as initialisation, loading and playing go |
| `Level_Model.v` | `normalize` and its variants (`sample/utils/dsp.py` 12-59) in binary64 |
| `Choice_Model.v` | `AlmostNotABeatDecisor.decide_beat` (`sample/beatsdrop/decision.py` 106-151) in binary64 |
| `Rise_Model.v` | `_onset_selection_g` and its use in `onset_selection` (`sample/utils/dsp.py` 572-584, 632) in binary64 |
| `Kernel_Model.v` | `strided_convolution`, `strided_convolution_complex_kernel` (`sample/utils/dsp.py` 436-490) in binary64 |
| `Attack_Model.v` | `local_maxima`, `_onset_selection_m`, `onset_selection` (`sample/utils/dsp.py` 540-639) in binary64 |
| `Flux_Model.v` | `spectral_flux_from_tf` from the moduli, `onset_detection` (`sample/utils/dsp.py` 521-537, 642-679) in binary64 |
| `Draw_Model.v` | arithmetic of `BeatsGenerator` (`sample/evaluation/random.py` 141-145, 156-159, 185-187, 201-204, 227-233) in binary64, from the numbers drawn |
| `Scale_Model.v` | `_hz2bark_traunmuller`, `_bark2hz_traunmuller`, `erb`, `_erb_linear` (`sample/psycho.py` 67-85, 106-124, 223-266) in binary64, for one number |
| `Dist_Model.v` | `lp_distance` with `p=1` (`sample/evaluation/metrics.py` 13-33) in binary64 |
| `Named_Model.v` | `NamedObjectMeta`, `NamedObject`, `NamedCallable` (`sample/utils/__init__.py` 215-248) |
| `Half_Model.v` | `_semisum`, `_semidiff` (`sample/utils/__init__.py` 257-292) in binary64, for one number |

`Base.v`, `Py.v`, `Dict.v` define exceptions, python values and dictionaries;
`RLists.v`, `ListLemmas.v`, `PyLemmas.v`, `StrLemmas.v`, `Np_Lemmas.v` are
lemmas; `Tracker_Spec.v` and `Sample_Spec.v` hold specification vocabulary.

Taken as arguments (any function, or any one that satisfies the stated
specification): `fft`, `scipy.signal.get_window` and `stft`, `numpy.argsort`
(any sorting order), `LinearRegression`, `scipy.signal.lombscargle`, `scipy.optimize.least_squares`,
`skopt.gp_minimize`, `scipy.integrate`, random generators, audio files,
`float()` of a text, the class given as `sine_tracker_cls`.

Not modelled: what matplotlib draws (the calls, coordinates, transforms and
colours given to it are, where C97, C98 and C102 say so), audio playback and file
formats, rendering of video frames, the audio widgets of `sample/ipython.py`,
argument parsers and `main` functions of the scripts other than what the rows
above name, logging, warnings (except that they are raised or not), packaging,
notebooks, documentation building.  Rounding of binary64 is modelled in
`Gui_Model.v`, for `f2bin`, for the trackers (`Double_Model.v`), for peaks
(`Peak_Model.v`), times and hinges (`Clock_Model.v`), bisection
(`Bisect_Model.v`), normalization (`Level_Model.v`), decisions on beats (`Choice_Model.v`), the onset filter (`Rise_Model.v`), strided convolution (`Kernel_Model.v`), onset selection (`Attack_Model.v`), spectral flux and onset detection (`Flux_Model.v`), random beats (`Draw_Model.v`), perceptual scales that need only arithmetic (`Scale_Model.v`), the distance of the losses (`Dist_Model.v`), half sums and differences (`Half_Model.v`), beats (`Ripple_Model.v`) and additive synthesis (`Synth_Model.v`), these two with the
library's cosine, sine, arctangent and exponential as arguments; everywhere else numbers are exact reals.
<!-- /scope -->

<!-- findings -->
## Findings

Behaviour of the code that a user would not expect.  Each one is a theorem with
a witness (`_refuted`) or a theorem that says exactly what happens.

### Analysis

| theorem | finding |
|---------|---------|
| `c57_modal_silence_refuted` | Appending silence to a recording changes the modes: a track that is still active at the end is reported unmerged, one silent frame more and it is merged (`ModalTracker.deactivate`). |
| `c10_unknown_strategy` | An unsupported `merge_strategy` is only noticed (KeyError) when the first reportable track ends; short recordings pass. |
| `c14_first_frame_centred_refuted` | For odd window sizes the first padded frame is not centred on the first sample (`pad_input` says it is). |
| `c14_large_hop_loses_samples` | For hops above `w // 2 + 1` samples exist that are in no frame, although `pad_input` says it pads "to analyze all samples". |
| `c13_short_input` | An input that is shorter than a window gives no rows, or a ValueError of numpy, depending on how much is missing. |
| `c15_one_sample_window_raises` | A window of one sample raises. |
| `c15_long_window_refuted` | A window longer than the FFT is accepted and samples are lost. |
| `c18_reverse_time_refuted`, `c18_time_offset` | The times of the tracks are late: half a sample for odd windows, one sample in reverse mode with even windows (also one sample for padded odd windows). |
| `c22_predict_none_refuted` | `predict(phases=None)` raises TypeError although `additive_synth` accepts `None`. |
| `c24_no_modes` | Exporting a model without modes raises. |
| `c11_given_storage_refuted` | A storage given to `fit` is installed after the reset: what it contains stays in front of the new frames. |
| `c11_decisions_refuted` | Nothing resets the storage of the beat decisor; a fit with fewer tracks leaves old decisions behind. |
| `c11_unfitted` | A fit that raises still makes `tracks_` available (of the frames so far). |

### Signal processing and psychoacoustics

| theorem | finding |
|---------|---------|
| `c31_modal_energy_out_refuted` | `modal_energy(a, d, out=d)` is wrong. |
| `c31_a_weighting_out_refuted` | `a_weighting(f, out=o)` in dB leaves linear weights in `o`. |
| `c31_wavefun_inplace_refuted` | `wavefun(t, out=t)` is wrong. |
| `c38_frequencies` | The centre frequencies start half a distance above the lower limit but end one and a half distances below the upper one. |
| `c41_decimation_refuted` | A strided cochleagram is not the decimation of the full one. |
| `c41_one_sample_bank_raises` | A bank whose longest IR has one sample raises with a stride (slice `[0:-0]`). |
| `c52_zero_radius_raises` | `local_maxima` with a radius of zero raises (same slice). |
| `c40_short_input` | An input that is shorter than the kernel: nothing, or ValueError. |

### Beats

| theorem | finding |
|---------|---------|
| `c42_time_origin_refuted` | `Beat` on a time axis that does not start at zero has the wrong phase. |
| `c42_node_refuted` | With equal amplitudes (the default) the signal of the AM/FM form has the wrong sign after the first node. |
| `c42_constant_first_raises` | A constant first amplitude with a time-varying second one raises; the other way round works. |
| `c43_ties_refuted` | `sort_params` in descending order exchanges partials with equal keys at every call. |
| `c45_constant_frequency_raises` | A track of constant frequency makes the decision raise. |
| `c60_error_propagates` | One track whose beat regression raises makes the whole fit raise. |

### Parameters and call plumbing

| theorem | finding |
|---------|---------|
| `c27_negative_index_refuted` | `append` with a negative index on a short list raises after creating the key. |
| `c28_prefix_collision_refuted` | Renaming of prefixed deprecated keywords can lose an argument. |
| `c28_sine_tracker_cls_raises` | The deprecated keyword `sine_tracker_cls` raises TypeError on every call. |
| `c28_safe_sine_len` | The deprecated `safe_sine_len` raises TypeError as soon as there is a positional argument. |
| `c30_unhashable_raises` | An unhashable option raises TypeError instead of the ValueError that lists the options. |
| `c65_atomic_refuted` | A `set_params` that raises may have set parameters. |
| `c65_reset_refuted` | `set_params(sinusoidal=None, sinusoidal__n=...)` resets the estimator and raises. |
| `c49_hop_refuted` | The remapper gives an empty window with hop 1 if the window is less than one sample. |
| `c49_side_effect_refuted` | The remapper changes a sinusoidal model that is given among the keywords. |
| `c49_unknown_refuted` | An unknown keyword raises only if a model has to be built for the window or the hop. |
| `c50_model_window_refuted` | The optimizer discards window and hop of its own model, and computes new ones from the default FFT size. |
| `c50_sample_kw_refuted` | The deprecated `sample_kw` changes the model that is given. |
| `c50_sample_fn`, `c50_deprecated_no_remap` | The deprecated `sample_fn` always raises TypeError with the default remapper; neither deprecated argument works without a remapper. |
| `c50_no_remap` | Without a remapper the point of the optimizer is ignored: all evaluations train the same model. |
| `c64_deprecated_refuted` | `fit` silently ignores misspelled and deprecated names that `set_params` and the constructor know. |
| `c68_restart_refuted` | `TqdmCallback.start` on an open bar leaves it open. |

### Parallel training

| theorem | finding |
|---------|---------|
| `c25_gui_progress_refuted` | The progress bar of the GUI is moved beyond its maximum. |
| `c25_append_race_refuted`, `c25_cache_race_refuted` | Appends of workers to a managed storage are not atomic; records can be lost. |
| `c25_refit_refuted` | Serial and parallel fits differ in the decisions if there are records of an earlier fit. |
| `c25_inactive_cache_refuted` | A storage that is switched off has a `cache_` after a parallel fit only. |
| `c26_shared_refuted` | A storage shared by two parameters loses records in a parallel fit. |

### Trends and autocorrelograms

| theorem | finding |
|---------|---------|
| `c69_one_sample_refuted`, `c73_one_sample` | `detrend` of one sample is a number and not an array; the beat regression of such a track raises. |
| `c70_binary64_refuted` | `f2bin(bin2f(b))` can be `b + 1` in binary64. |
| `c70_number` | `f2bin` of a plain number raises TypeError (`np.ceil` with a number as `out`). |
| `c71_lpf_refuted` | The bin exactly at the low-pass frequency is cut off, although the documentation says frequencies above it. |
| `c71_negative_lpf_refuted` | A negative low-pass frequency keeps bins (negative slice bound). |
| `c72_odd_refuted` | The default size of the autocorrelogram of a one-sided spectrum is wrong for signals of odd size. |

### Evaluation

| theorem | finding |
|---------|---------|
| `c47_triangle_refuted` | For `p < 1` `lp_distance` is not a metric. |
| `c47_shape_refuted` | `y` is broadcast to `x` but not the other way round. |
| `c47_unsigned_refuted` | The distance of unsigned integers wraps around. |
| `c47_phase_refuted` | The spectral loss does not see phases. |
| `c47_override` | A keyword of the call replaces the one of every scale of the multi-scale loss. |
| `c48_narrow_refuted` | `BeatsGenerator` returns frequencies outside of its limits if the range is too narrow. |

### GUI and scripts

| theorem | finding |
|---------|---------|
| `c54_other_end_refuted` | Moving one end of the trim region can move the other one by a sample (double rounding). |
| `c54_load_refuted` | The region after loading is not always that of the onsets, for the same reason. |
| `c54_stale_side_refuted` | A click released outside of the plot leaves its end chosen. |
| `c54_no_onset_refuted` | Loading an audio without onset keeps the region of the audio before. |
| `c55_strip_refuted`, `c55_fbound_refuted` | A typed "nan" is accepted as strip time and as frequency bound. |
| `c55_window_loop_refuted`, `c55_window_size_refuted` | A settings file with a window size that is not whole makes the program hang; a negative one gives a window larger than the FFT. |
| `c56_ties_refuted` | With two files of the same version the order of the changelog depends on the directory listing. |
| `c63_dev_suffix_refuted` | The section of a development version (`1.2.dev3`) is not found. |
| `c74_stale_refuted`, `c74_stale_region_refuted` | After another file was loaded or the region was moved the resynthesis of the earlier region is played and saved. |
| `c74_one_sample_refuted` | The resynthesis of a region of one sample is a scalar; playing it raises an exception. |
| `c75_failed_refuted` | A fit that fails raises an exception while drawing and loses the model that was there. |
| `c76_u8_refuted`, `c76_float_refuted` | WAV files of 8 bits are divided by zero; those with floating point samples raise an exception without a message. |
| `c76_failed_name_refuted` | After a file failed to load its name is proposed for saving the resynthesis of the file loaded before. |
| `c77_region_refuted` | A reload can move the region by one sample. |
| `c77_crash_refuted`, `c78_crash_refuted` | Reloading with audio without onsets makes every later start of the GUI raise an exception, and the launcher starts it again for ever. |
| `c77_theme_total` | A settings file that is no JSON object makes every start of the GUI raise an exception. |
| `c79_error_refuted` | The notebook formatter changes a cell although yapf failed: a final line end is dropped and a form feed becomes a line feed. |
| `c79_operator_refuted` | A line that continues an expression with `%` is taken for a notebook command and hidden from yapf. |
| `c80_two_roles_refuted` | In the HTML view of a model, of two Sphinx roles in one line the second one and the text between them are lost. |
| `c80_spaces_refuted` | A line of spaces in a docstring, or a space after `Args:`, joins the descriptions of all parameters that follow. |
| `c81_order_one_refuted` | `t60` of a gammatone filter of order one is a ValueError: the range that is searched is empty. |
| `c82_norm_refuted` | A normalized impulse response has norm one, not the sampling frequency as documented. |
| `c82_analytic_normalized_refuted` | The real part of a normalized analytic response is not the normalized response: it is divided by the norm of the complex one. |
| `c83_ir_option_refuted`, `c83_ir_with_real_bank` | `cochleagram(..., filterbank=<real precomputed bank>, analytic="ir")` is silently real and not rectified. |
| `c83_other_options` | Unknown strings are accepted as `analytic`; the result is real and not rectified. |
| `c83_keywords` | With a filterbank all other keywords are ignored, so the documented `postprocess` of `GammatoneFilterbank.convolve` has no effect. |
| `c83_loss_input_stride` | `CochleagramLoss(analytic="input", stride=...)` can be made, every use is a ValueError. |
| `c83_no_copy` | `copy.copy`, `copy.deepcopy` and `pickle.loads` of a `GammatoneFilterbank` are a RecursionError. |
| `c84_latest_refuted` | `BeatRegression` compares the latest sample with an earlier value of the envelope: true parameters have a residual there. |
| `c84_column_refuted` | A column of times, as documented for `fit`, makes the residuals those of every sample at every time. |
| `c85_clip_refuted` | With the default `freq_clip` of `DualBeatRegression` even the beat itself has a residual. |
| `c86_single_refuted` | `BeatRegression.predict` at a single time is a ValueError: the axis is squeezed to no dimension. |
| `c86_scalar_refuted` | Constant variables (frequencies, phases) are numbers, not one array per output as documented. |
| `c86_copy_refuted` | `copy.copy` and `copy.deepcopy` of a `Beat` are a RecursionError. |
| `c87_none_refuted` | `SAMPLEBeatsDROP.predict(x, phases=None)` is a TypeError. |
| `c88_two_refuted` | Two samples do not determine the slope of a hinge: every slope up to 8 times the true one fits exactly. |
| `c88_flat_refuted` | A constant level is fitted exactly by rising hinges too, for which the decay is negative. |
| `c88_short_decay_refuted` | The slope of a hinge is bounded by 8 times the least-squares slope: a decay in the first 3 of 12 samples is found at least 15 % too long by every optimiser. |
| `c93_flat_refuted` | Where the least squares line of the levels is horizontal the slope of the hinge is sought between -1 and 1 dB per second, whatever the time scale: levels 0, -10, 0 dB at 0, 1, 2 s and at 0, 0.1, 0.2 s give slopes that are not proportional, hence decays that depend on the unit of time. |
| `c94_storing_refuted` | `sine_tracking_2d` of a reverse model depends on whether intermediate results were stored: if not, the end of the analysis is taken to be the end of the last track, so the first point of the plot is always at one hop, whenever the sound starts (`c94_unsaved_onset`, `c94_unsaved_forgets`); without tracks it raises `ValueError`. |
| `c94_3d_refuted` | `sine_tracking_3d` ignores that an analysis is reverse: its time axis runs backwards (`c94_3d_mirrored`). |
| `c95_single_refuted` | `beatsdrop_comparison` of a single regression raises `TypeError`, because `subplots` squeezes the axes to one dimension and they are indexed twice. |
| `c95_time_axes_refuted` | `beatsdrop_comparison` labels the time axis of the last column of every row; without transposition that is the right side of the figure and the bottom row has one label only. |
| `c96_lost_refuted` | `evaluation.py`: resuming from the table with more test cases and without writing a checkpoint computes the new results and never saves them (`csv_path != last_file or not resume` is false). |
| `c96_torn_results_refuted` | `evaluation.py`: when killed while writing the table without checkpoints, every later resumed run raises on reading it. |
| `c96_torn_checkpoint_refuted` | `evaluation.py`: a checkpoint of which only a readable prefix was written is preferred to the older complete one, so finished seeds are computed again. |
| `c96_stale_refuted` | `evaluation.py --no-resume` leaves old checkpoints, whose numbers may be greater than those of the new run; a later resumed run loads them instead of the new ones. |
| `c96_checkpoint_errors` | `evaluation.py`: checkpoints without an output path raise `TypeError`; a period of 0 raises `ZeroDivisionError`. |
| `c97_larger_refuted` | `performance.py`: resuming a file with a larger grid counts cases of the old grid, so cells of the new one are never measured and stay NaN. |
| `c97_smaller_refuted` | `performance.py`: resuming a file with a smaller grid measures nothing and raises `IndexError`. |
| `c98_uint8_refuted` | `example.py` `load_audio`: 8-bit WAV files are unsigned, `np.iinfo(np.uint8).min` is 0, so all samples are divided by zero (inf or NaN). |
| `c98_crop_end_refuted` | `example.py` `crop_audio`: with `--crop-end` after the end of the file, the end of the file counts as the last onset before it, so the crop is empty. |
| `c99_fft_curve_refuted` | `figures.py` `plot_fft`: the spectrum is `_beat_ft` with both frequencies of each cosine, but the signal beside it is analytic; its transform is `_beat_ft` with `half=True` (`c99_signal_ft`), so the curve is too high in the centre of every beat. The phase of `_cos_ft` is subtracted, unlike that of `additive_synth`. |
| `c99_plateau_refuted` | `figures.py` `_find_extrema`: extrema of two or more equal samples are not marked, so a signal can have more crossings than an intrinsic mode function may. |
| `c99_share_refuted` | `figures.py` `subplots`: `sharex="all"` or `"none"` raises `KeyError` if horizontal. |
| `c99_oversaturated` | `figures.py` `--saturation`: values that would leave the colour space raise `ValueError`. |
| `c100_plain_output_refuted` | `evaluation.py -O results` (no folder in the path) raises `FileNotFoundError`: `os.makedirs("")`. |
| `c100_select_refuted` | `evaluation.py` `test_case`: `tracks_[np.argmax(energies_)]` takes an index into the modes with finite parameters for an index into all tracks; after a track whose parameters were dropped another track is evaluated. |
| `c100_onset_refuted` | `evaluation.py` `test_case`: time zero is the first sound of the track, not of the recording, so amplitudes of an exact regression are too low by the decay until the onset (`c100_onset`); levels are raised by 6 dB instead of 20 log10 2. |
| `c100_gap_refuted` | `evaluation.py` `test_case_decision`: `np.median` of a track with a gap is NaN and `np.argmin` takes it for the nearest, whatever the frequency. |
| `c100_fft_loudest_refuted` | `evaluation.py` `test_case_fft`: the first two modes are compared, even if a later one is louder. |
| `c100_tie_refuted` | `evaluation.py`: for partials of the same energy the order of the estimate matters, although it sounds the same. |
| `c100_rank_stale_refuted` | `evaluation.py` `statistical_tests`: results of the statistical test are read from `*_rankresult.dat` if it exists, whatever the data and also with `--no-resume`. |
| `c100_distance_refuted` | `evaluation.py` `print_report`: post-hoc tests without a critical distance raise `TypeError`; with a distance of 0 equal ranks are "larger" in both directions. |
| `c100_importances_refuted` | `evaluation.py` `decision_report`: the loop that computes importances is inside `if args.tqdm:`; without `--tqdm` uninitialised memory is written and no row has a target. |
| `c100_importances_stale_refuted` | `evaluation.py` `decision_report`: that table is written to the file of importances, which later runs read even with `--tqdm`. |
| `c100_posterior_refuted` | `evaluation.py` `decision_report`: when all decisions are the same, `hist` returns one axis and all bars of the posterior have the height of the share of the first bin. |
| `c100_fft_report_refuted` | `evaluation.py` `fft_report`: without results (all tests logged) the report raises `ZeroDivisionError`. |
| `c101_root_refuted` | `widgets/utils.py` `get_root` gives the parent, not the root: "shared via the root widget" holds of the tabs only, a widget inside a tab reads `None`. |
| `c101_reset_refuted` | `widgets/settings.py` `reset_selections` reads `entry` of every setting, which spacers do not have; the first setting is a spacer, the `AttributeError` is passed over in `main.py`, and no selection is ever cleared. |
| `c101_buttons_refuted` | `analysis.py` and `audioload.py`: `responsive(1, 4)` for rows of 5 and 6 widgets; "Export WAV", the stop time and "Play" do not grow with the window. |
| `c101_grid_refuted` | `widgets/settings.py` `add_setting`: after a name was added twice, the next setting is put over it (the row is the number of names). |
| `c101_toolbar` | `widgets/pyplot.py`: `"active background"` and `"active foreground"` are neither ttk styles nor Tk options; they are never applied, and a style that had them would raise `TclError`. |
| `c101_lost_refuted` | `widgets/userfiles.py` `save_json` opens the file before the data are serialised: when that raises, the old content is lost, and the next start fails to decode the file. |
| `c101_theme_refuted` | `widgets/settings.py` `postprocess_guitheme`: `"gui_theme": null` in `settings.json` is `TypeError` (`len(None)`), although the window itself falls back to the default theme. |
| `c102_width_refuted` | `plots.py` `tf_plot`: "width: Width for figure size" is the height; the figure is `aspect_ratio * width` wide. |
| `c104_safe_sine_len_refuted` | `sms/sm.py` lines 207-212: the old `safe_sine_len`, a number of frames, becomes `tracker__min_sine_dur`, which is in seconds (the message says "already expressed in frames"): `safe_sine_len=2`, as in `autotuning.py`, drops all tracks shorter than two seconds, 177 frames at the default hop. |
| `c104_fixed_overlap_refuted` | `optimize.py`: `sinusoidal__overlap` (also `wtype`, `wsize`) among the fixed settings (`sample_kw`) shapes the optimizer's model only; every candidate gets a window and a hop of the defaults. |
| `c105_decimal_duration_refuted` | `sms/sm.py` line 93: `min_sine_dur=0.07` at a hundred frames per second (44100 Hz, hop 441) asks for eight frames, not seven: `math.ceil(0.07 * 100.0)` is 8, as 0.07 * 100.0 rounds to 7.000000000000001. |
| `c105_nan_ends_all_tracks` | `sms/sm.py` lines 27-38, 170-173: if the newest frequency of the first active track is NaN, the next frame continues no track; `min_key` keeps a NaN distance once it has it. A partial that does not change is cut in two (`c105_nan_example`). |
| `c106_flat_refuted` | `sms/dsp.py` lines 84-85: on a peak that is flat up to the last bits the vertex is wrong by a twelfth of a bin (magnitudes one and two units in the last place below 2): `mx_l - 2 * mx_c` is rounded before `mx_r` is added. With a second difference of at least 2^-20 of the magnitudes the error is at most 2^-32 (`c106_accurate`). |
| `c106_infinite_refuted` | `sms/dsp.py` lines 84-86: a neighbour of -inf makes location and magnitude NaN; the analyses avoid it, because magnitudes are floored at the machine epsilon before the logarithm. |
| `c107_order_refuted` | `sample.py` line 116: with a window of 2^60 samples two frames would get the same time; up to 2^40 samples they do not (`c107_times_ordered`). |
| `c108_underflow_refuted` | `utils/dsp.py` line 169: `f_lo * f_hi > 0` misses equal signs if the product underflows: a function that is 2^-600 everywhere has a "zero crossing" and no error is raised. |
| `c108_overflow_refuted` | `utils/dsp.py` lines 174, 183: `(lo + hi) / 2` of ends beyond 2^1023 is infinite, and so is the result. |
| `c109_audio_finite_refuted`, `c109_silence`, `c109_modal_silence` | `beatsdrop/__init__.py` lines 116-160: the frequency is divided by the squared envelope, which underflows to zero when both amplitudes are below 2^-538; 0 / 0 is NaN, and the cumulative sum keeps it. Two partials of 440 and 441 Hz with decays of 1/128 s are NaN from 2 seconds on, whatever numpy's functions are. |
| `c110_zero_decay` | `sample.py` line 374: `col(x) @ (-2 / row(decays))` with a decay of 0 is 0 * -inf = NaN at time 0, and the product with the amplitudes makes the whole sample NaN, also with amplitude 0 for that partial. |
| `c111_stuck`, `c111_deadlock_refuted` | `widgets/audio.py` lines 18, 49, 58: the lock is not reentrant and `__del__` acquires it, so if the cyclic garbage collector finalizes another `TempAudio` while the thread is within `play`, the thread waits for itself for ever, and so does every other thread that plays. |
| `c111_closed_music_refuted` | `widgets/audio.py` lines 56-60: the finalizer closes the buffer even if pygame is playing from it. |
| `c111_load` | `widgets/audio.py` lines 40-44: `pygame.init()` initialises the mixer too (as pygame documents), with its default of 44100 Hz; then `mixer.init(frequency=self.sr)` does nothing, and the rate of the recording is not the rate of the mixer. |
| `c112_rms_constant_refuted` | `utils/dsp.py` lines 42-43: `np.std(x) or 1` does not catch constant arrays, because their mean is rounded: 0.1 three times has the standard deviation 2^-56, and normalizes to -1 three times. `onset_selection` (line 627) normalizes so. |
| `c112_range_constant`, `c112_peak_special` | `utils/dsp.py` lines 27, 59: constant arrays (range) and zeros (peak) become NaN; unlike mode rms, nothing replaces the divisor. |
| `c112_range_overflow_refuted` | `utils/dsp.py` line 58: `x - min(x)` overflows for numbers beyond 2^1022 and the greatest becomes NaN. |
| `c113_same`, `c113_almost_refuted` | `beatsdrop/decision.py` lines 126-131: the threshold `th * eps` is absolute, so with the default `th = 1` frequencies from 2 Hz on count as almost equal only if they are the same double. |
| `c114_constant_refuted` | `utils/dsp.py` line 583: with some `alpha` (0.95) rounding lifts the filter of a constant signal above it, and constant stretches fail the comparison of line 632; in real numbers they pass. |
| `c116_nan` | `utils/dsp.py` line 627: `onset_selection` normalizes by the mean and the standard deviation of the whole detection function, so one NaN or infinity anywhere means that no onset is found, without a warning. |
| `c117_index_refuted` | `utils/dsp.py` lines 674-678: `onset_detection` computes `floor(i * size / n)` through a double, so positions can be one sample late once `i * size` exceeds 2^53 (signals of some 2^32 samples); `//` would be exact. |
| `c118_duration_refuted` | `evaluation/random.py` line 233 (and the crops of `scripts/beatsdrop/example.py` 155-156): `int(dur * fs)` truncates a rounded product, so the duration of k samples can give k-1, as 15 / 44100 at 44100 Hz. |
| `c118_beat_refuted` | `evaluation/random.py` lines 156-159: limits are inverted and inverted back, so with the default limits a draw of 1 gives a difference of 1.7999999999999998 Hz, below `beat_min`. |
| `c119_decreasing_refuted` | `psycho.py` lines 83-85: in double precision the default `hz2bark` is not monotone: of two adjacent doubles just above 274 Hz the higher one gives fewer Bark. |
| `c120_symmetric_refuted` | `evaluation/metrics.py` lines 24-26: `y` is broadcast to the shape of `x` but not `x` to the one of `y`, so `lp_distance(x, y)` can exist while `lp_distance(y, x)` raises ValueError. |
| `c120_triangle_refuted` | `evaluation/metrics.py` lines 13-33: in double precision the distance does not obey the triangle inequality exactly. |
| `c121_call_refuted` | `utils/__init__.py` line 220: `cls is NamedObject` excludes derived classes, so a function named with a class derived from `NamedObject` cannot be called. |
| `c122_overflow_refuted` | `utils/__init__.py` lines 272-273: the half sum adds before halving, so that of the largest double and itself is infinite. |
| `c122_semidiff_refuted`, `c122_back_refuted` | `utils/__init__.py` lines 290-291: half differences of different numbers can be 0, and a number next to a much larger one is not recovered from half sum and half difference (1 becomes 0.5 next to 2^53). |
<!-- /findings -->

<!-- assumptions -->
## Assumptions of each theorem

As printed by `Print Assumptions` (generated).

**No axioms (closed under the global context)** (313 theorems):

* C01: `c01_active_bounded`, `c01_no_refusal`
* C02: `c02_sine_samples_are_peaks`, `c02_modal_samples_are_peaks`
* C03: `c03_greedy_matching`, `c03_matching_unique`
* C04: `c04_reported_iff_long`, `c04_saved_forever`
* C05: `c05_active_contiguous`
* C06: `c06_acceptance`
* C07: `c07_merge_conserves`, `c07_never_raises`
* C08: `c08_merge_rule`, `c08_reachable_states`
* C09: `c09_strip`
* C10: `c104_set_params`, `c104_constructor`, `c104_trained`, `c104_tuning`, `c104_safe_sine_len_refuted`, `c104_fixed_overlap_refuted`, `c105_active_bounded`, `c105_sine_samples_are_peaks`, `c105_modal_samples_are_peaks`, `c105_active_contiguous`, `c105_merge_conserves`, `c106_detected`, `c100_modes`, `c100_folders`, `c100_plain_output_refuted`, `c100_logged`, `c100_raised`, `c100_generator_error`, `c100_bayesian`, `c100_table`, `c100_confusion`, `c100_labels`, `c10_unknown_strategy`, `c101_shared`, `c101_root_refuted`, `c101_properties`, `c101_inherited`, `c101_children`, `c101_color`, `c101_responsive`, `c101_classes`, `c101_attribute`, `c101_grid`, `c101_grid_refuted`, `c101_reset`, `c101_reset_refuted`, `c101_buttons_refuted`, `c101_title`, `c101_toolbar`, `c101_paths`, `c101_home`, `c101_saved`, `c101_lost_refuted`, `c101_theme`, `c101_theme_refuted`, `c102_restored`, `c102_toggle`, `c102_filter`, `c102_ignored`, `c102_mock`, `c102_mock_missing`, `c102_try`, `c102_bool`, `c102_operators`, `c102_channels`
* C11: `c111_exclusive`, `c111_alone`, `c111_load`, `c111_close`, `c111_monotone`, `c111_progress`, `c111_bounded`, `c111_returns`, `c111_stuck`, `c111_deadlock_refuted`, `c111_closed_music_refuted`, `c11_refit`, `c11_history`, `c11_fit_result`, `c11_reported`, `c11_unfitted`, `c11_given_storage_refuted`, `c11_decisions_refuted`
* C12: `c121_call`, `c121_plain`, `c121_names`, `c121_derived`, `c121_call_refuted`, `c12_min_key`, `c12_min_key_nan`
* C13: `c13_windows_exact`, `c13_short_input`
* C14: `c14_padding`, `c14_all_samples_analysed`, `c14_large_hop_loses_samples`, `c14_frame_centre`, `c14_first_frame_centred_refuted`
* C15: `c15_buffer_is_rotation`, `c15_one_sample_window_raises`, `c15_long_window_refuted`
* C16: `c16_peaks_exact`, `c16_increasing`, `c16_not_adjacent`
* C17: `c17_vertex`, `c17_all_refined_increasing`, `c17_below_nyquist`
* C21: `c21_columns`, `c21_no_tracks`
* C25: `c25_results`, `c25_terminates`, `c25_progress`, `c25_gui_progress_refuted`, `c25_gui_serial`, `c25_storage`, `c25_serial_raises`, `c25_append_race_refuted`, `c25_cache_race_refuted`, `c25_append_serial`, `c25_fit`, `c25_refit_refuted`, `c25_inactive_cache_refuted`
* C26: `c26_restored`, `c26_contents`, `c26_shared_refuted`, `c26_resources`
* C27: `c27_returns`, `c27_inactive`, `c27_records`, `c27_indexed`, `c27_any_order`, `c27_reset`, `c27_negative`, `c27_negative_index_refuted`
* C28: `c28_rename`, `c28_absent`, `c28_prefix`, `c28_prefix_collision_refuted`, `c28_convert`, `c28_sinusoidal_model`, `c28_modal_model`, `c28_sine_tracker_cls_raises`, `c28_safe_sine_len`, `c28_sample`
* C29: `c29_explicit`, `c29_not_shared`, `c29_none`, `c29_names`, `c29_anonymous_raises`
* C30: `c30_dispatch`, `c30_unsupported`, `c30_message`, `c30_unhashable_raises`, `c30_signature`
* C41: `c41_method_and_stride`, `c41_aligned`
* C42: `c42_constant_first_raises`
* C47: `c47_unsigned_refuted`
* C48: `c48_size`
* C49: `c49_pass_through`, `c49_power_of_two`, `c49_deprecated`, `c49_configuration`, `c49_positional`, `c49_hop_refuted`, `c49_side_effect_refuted`, `c49_unknown_refuted`
* C50: `c50_count`, `c50_dimensions`, `c50_duplicate`, `c50_no_remap`, `c50_clip`, `c50_state`, `c50_trained`, `c50_sample_fn`, `c50_deprecated_no_remap`, `c50_run`, `c50_loss`, `c50_model_window_refuted`, `c50_sample_kw_refuted`
* C54: `c54_region`, `c54_auto`, `c54_typed`, `c54_click`, `c54_other_end_refuted`, `c54_load_refuted`, `c54_stale_side_refuted`, `c54_no_onset_refuted`
* C55: `c55_positive_int`, `c55_pow2`, `c55_strip`, `c55_strip_refuted`, `c55_clip`, `c55_fbound`, `c55_fbound_refuted`, `c55_windows`, `c55_window_loop_refuted`, `c55_window_size_refuted`, `c55_apply`, `c55_again`, `c55_file`
* C56: `c56_compare`, `c56_order`, `c56_listed`, `c56_directory_order`, `c56_ties_refuted`
* C57: `c57_sine_silence`, `c57_modal_silence_refuted`
* C58: `c58_onset_positions`
* C62: `c62_default_kws`, `c62_copy`
* C63: `c63_file`, `c63_extract`, `c63_dev_suffix_refuted`
* C64: `c64_fit`, `c64_deprecated_refuted`
* C65: `c65_set_params`, `c65_unknown`, `c65_replace`, `c65_constructor`, `c65_atomic_refuted`, `c65_reset_refuted`
* C66: `c66_clone`, `c66_independent`
* C67: `c67_sample`
* C68: `c68_calls`, `c68_bars`, `c68_restart_refuted`
* C70: `c70_binary64_refuted`
* C74: `c74_resynthesis`, `c74_fresh`, `c74_original`, `c74_no_audio`, `c74_not_analysed`, `c74_export_errors`, `c74_stale_refuted`, `c74_stale_region_refuted`, `c74_one_sample_refuted`
* C75: `c75_released`, `c75_one_at_a_time`, `c75_model`, `c75_figure`, `c75_failed`, `c75_failed_refuted`, `c75_build`, `c75_no_audio`
* C76: `c76_mono`, `c76_channels`, `c76_u8_refuted`, `c76_float_refuted`, `c76_unreadable`, `c76_loaded`, `c76_names`, `c76_failed_name_refuted`
* C77: `c77_reload`, `c77_region_refuted`, `c77_crash_refuted`, `c77_theme`, `c77_theme_total`, `c77_valid`
* C78: `c78_launches`, `c78_crash_refuted`
* C79: `c79_roundtrip`, `c79_hidden`, `c79_untouched`, `c79_commands`, `c79_error`, `c79_error_refuted`, `c79_tag`, `c79_stable`, `c79_operator_refuted`, `c79_file`
* C80: `c80_roles`, `c80_two_roles_refuted`, `c80_parse`, `c80_label`, `c80_spaces_refuted`, `c80_page`, `c80_counts`, `c80_shown`
* C83: `c83_attributes`, `c83_no_copy`
* C95: `c95_comparison`, `c95_single_refuted`, `c95_none`, `c95_time_axes`, `c95_time_axes_refuted`, `c95_envelope`
* C96: `c96_complete`, `c96_killed`, `c96_history`, `c96_unique`, `c96_resumed`, `c96_afresh`, `c96_progress`, `c96_saved`, `c96_lost_refuted`, `c96_torn_results_refuted`, `c96_torn_checkpoint_refuted`, `c96_stale_refuted`, `c96_checkpoint_errors`
* C97: `c97_no_samples`
* C98: `c98_splitext`, `c98_named`, `c98_out_name`, `c98_out_name_new`, `c98_resynth_empty`
* C99: `c99_select`, `c99_register`

**`ClassicalDedekindReals.sig_forall_dec`** (10 theorems):

* C40: `c40_short_input`
* C41: `c41_one_sample_bank_raises`
* C42: `c42_derivatives`
* C47: `c47_multiscale_raises`, `c47_multiscale_processes`
* C69: `c69_default_times`, `c69_shape`
* C97: `c97_run`, `c97_complete`
* C99: `c99_extrema`

**`ClassicalDedekindReals.sig_forall_dec`, `FunctionalExtensionality.functional_extensionality_dep`** (134 theorems):

* C10: `c106_vertex`, `c100_select`, `c100_no_tracks`, `c100_select_refuted`, `c100_samples`, `c100_decision`, `c100_gap_refuted`, `c100_decisions`, `c100_fft_two`, `c100_fft_loudest_refuted`, `c100_frequentist`, `c100_distance_refuted`, `c100_comparison`, `c100_importances`, `c100_importances_refuted`, `c100_importances_stale_refuted`, `c100_posterior`, `c100_probabilities`, `c100_posterior_refuted`, `c100_fft_report`, `c100_fft_report_refuted`, `c101_axes`, `c102_time`, `c102_tf`, `c102_width_refuted`
* C15: `c15_window_sums_to_one`
* C20: `c20_order`
* C22: `c22_argsort`
* C24: `c24_export`, `c24_no_modes`
* C31: `c31_modal_energy_out_refuted`
* C33: `c33_traunmuller_inverse`
* C34: `c34_erb_positive`
* C39: `c39_values`, `c39_partition_of_unity`, `c39_overlap`, `c39_no_filter_raises`, `c39_default_limits`, `c39_bandwidth`
* C40: `c40_strided_convolution`, `c40_complex_kernel`
* C41: `c41_full`, `c41_strided`, `c41_strided_aligned`, `c41_decimation_refuted`
* C43: `c43_sorted`, `c43_idempotent`, `c43_ties_refuted`, `c43_energy`
* C44: `c44_choice`
* C45: `c45_strict`
* C46: `c46_feasible`, `c46_slope`, `c46_short_raises`, `c46_hinge_function`
* C47: `c47_multiscale`, `c47_override`
* C48: `c48_freqs`, `c48_freqs_zero`, `c48_freqs_total`, `c48_default`, `c48_narrow_refuted`, `c48_decays`
* C51: `c51_bracket`, `c51_same_sign`
* C52: `c52_local_maxima`, `c52_zero_radius_raises`
* C53: `c53_peak`, `c53_range`
* C59: `c59_spectral_flux`
* C60: `c60_columns`, `c60_error_propagates`
* C61: `c61_complex_additive`, `c61_complex_homogeneous`
* C69: `c69_residuals`, `c69_line`, `c69_times`, `c69_idempotent`, `c69_one_sample_refuted`
* C70: `c70_bins`, `c70_inverse`, `c70_number`, `c70_zero`
* C73: `c73_am_frequency`, `c73_vertex`
* C85: `c85_clip`
* C88: `c88_hinge`, `c88_line`, `c88_two_refuted`, `c88_flat_refuted`
* C90: `c90_regression`
* C93: `c93_flat_refuted`
* C94: `c94_forward`, `c94_reverse`, `c94_succeeds`, `c94_reverse_offset`, `c94_unsaved_forgets`, `c94_unsaved_onset`, `c94_storing_refuted`, `c94_3d_forward`, `c94_3d_mirrored`, `c94_3d_refuted`
* C95: `c95_resynthesis`, `c95_succeeds`, `c95_label_and_play`
* C97: `c97_times`, `c97_speedup`, `c97_faster`, `c97_finished`, `c97_missing`, `c97_outside`, `c97_larger_refuted`, `c97_smaller_refuted`
* C98: `c98_load`, `c98_mono`, `c98_uint8_refuted`, `c98_crop_given`, `c98_crop_start`, `c98_crop_end`, `c98_crop_end_refuted`, `c98_crop_longest`, `c98_crop`, `c98_resynth`, `c98_progress`
* C99: `c99_zerox`, `c99_empty`, `c99_alternate`, `c99_crossings`, `c99_plateau_refuted`, `c99_zerox_times`, `c99_subplots`, `c99_share_refuted`, `c99_resaturate`, `c99_oversaturated`

**`ClassicalDedekindReals.sig_forall_dec`, `ClassicalDedekindReals.sig_not_dec`, `FunctionalExtensionality.functional_extensionality_dep`** (41 theorems):

* C10: `c100_fft_one`, `c103_windows`
* C11: `c110_modes`
* C15: `c15_spectrum_centred`, `c15_zero_phase`, `c15_constant_level`
* C22: `c22_predict_strongest`, `c22_predict_count`, `c22_all_modes`, `c22_predict_none_refuted`
* C23: `c23_superposition`, `c23_phases`, `c23_concatenation`, `c23_permutation`, `c23_homogeneous`, `c23_onset`
* C31: `c31_wavefun`
* C36: `c36_linear`
* C37: `c37_group_delay`
* C42: `c42_am`
* C51: `c51_continuous`
* C52: `c52_onset_selection`
* C53: `c53_rms`, `c53_out`
* C71: `c71_periodogram`, `c71_lpf_refuted`, `c71_raises`, `c71_negative_lpf_refuted`
* C72: `c72_two_sided`, `c72_one_sided`, `c72_padded`, `c72_peak`, `c72_odd_refuted`
* C73: `c73_correlogram`, `c73_values`
* C87: `c87_sound`, `c87_strongest`, `c87_none_refuted`
* C90: `c90_partials`
* C92: `c92_floor`
* C99: `c99_transform_unique`

**`ClassicalDedekindReals.sig_forall_dec`, `ClassicalDedekindReals.sig_not_dec`, `Classical_Prop.classic`, `FunctionalExtensionality.functional_extensionality_dep`** (258 theorems):

* C10: `c108_crossing`, `c108_raises`, `c108_underflow_refuted`, `c108_overflow_refuted`, `c107_times`, `c107_times_ordered`, `c107_hinge`, `c107_order_refuted`, `c105_reported_iff_long`, `c105_greedy_matching`, `c105_nearest_up_to_rounding`, `c105_nan_ends_all_tracks`, `c105_decimal_duration_refuted`, `c106_detected_apart`, `c106_interpolated`, `c106_above_threshold`, `c106_accurate`, `c106_frequencies`, `c106_frequency_values`, `c106_tracks`, `c106_flat_refuted`, `c106_infinite_refuted`, `c100_onset`, `c100_onset_refuted`, `c100_residual`, `c100_gain`, `c100_exact`, `c100_tie_refuted`, `c100_columns`, `c100_rank`, `c100_rank_stale_refuted`, `c109_decay`, `c109_modal`, `c109_phase`, `c109_envelope_real`, `c109_envelope`, `c109_frequency`, `c109_audio`, `c109_silence`, `c109_modal_silence`, `c109_audio_finite_refuted`, `c109_integral`, `c109_start`, `c109_sound`, `c103_frame`, `c103_tracks`, `c102_db`
* C11: `c116_local_maxima`, `c116_selection`, `c116_maxima`, `c116_nan`, `c113_exact`, `c113_same`, `c113_default`, `c113_symmetric`, `c113_nan`, `c113_almost_refuted`, `c118_side`, `c118_beat`, `c118_beat_refuted`, `c118_decays`, `c118_amps`, `c118_samples`, `c118_duration`, `c118_duration_refuted`, `c118_default`, `c117_flux`, `c117_index`, `c117_index_refuted`, `c117_positions`, `c117_silent`, `c117_quiet`, `c115_convolution`, `c115_uniform`, `c115_short`, `c115_complex`, `c112_peak`, `c112_peak_special`, `c112_range`, `c112_range_constant`, `c112_range_overflow_refuted`, `c112_mean`, `c112_rms`, `c112_rms_constant_refuted`, `c114_filter`, `c114_nan`, `c114_restart`, `c114_rising`, `c114_test`, `c114_constant_refuted`, `c119_erb`, `c119_erb_linear`, `c119_bark`, `c119_hz`, `c119_roundtrip`, `c119_decreasing_refuted`, `c110_bounded`, `c110_accuracy`, `c110_zero_decay`
* C12: `c120_distance`, `c120_symmetric`, `c120_nan`, `c120_triangle`, `c120_triangle_refuted`, `c120_lengths`, `c120_symmetric_refuted`, `c122_semisum`, `c122_semidiff`, `c122_semidiff_refuted`, `c122_back`, `c122_back_refuted`, `c122_overflow_refuted`
* C15: `c15_magnitude_floor`
* C18: `c18_alignment`, `c18_monotone`, `c18_spacing`, `c18_time_offset`, `c18_reverse_time_refuted`
* C19: `c19_recovery`, `c19_resynthesis`, `c19_doubling`
* C20: `c20_energy`, `c20_energy_until`
* C23: `c23_bound`
* C31: `c31_elementwise`, `c31_two_arrays`, `c31_a_weighting_db`, `c31_a_weighting_out_refuted`, `c31_wavefun_inplace_refuted`
* C32: `c32_mel_inverse`, `c32_fant_inverse`, `c32_increasing`
* C33: `c33_wang_inverse`, `c33_increasing`
* C34: `c34_cams_inverse`, `c34_cams_linear_inverse`, `c34_increasing`
* C35: `c35_inverse`, `c35_homomorphism`, `c35_floor`
* C36: `c36_reference`
* C37: `c37_envelope`
* C38: `c38_frequencies`, `c38_default_number`
* C39: `c39_n_filters`, `c39_n_filters_raises`
* C42: `c42_fm`, `c42_duality`, `c42_signal_error`, `c42_modal`, `c42_time_origin_refuted`, `c42_node_refuted`
* C44: `c44_hypotheses`, `c44_frequency_decides`
* C45: `c45_feasible`, `c45_constant_frequency_raises`
* C47: `c47_distance`, `c47_triangle`, `c47_triangle_refuted`, `c47_values`, `c47_scale`, `c47_broadcast`, `c47_shape_refuted`, `c47_spectral_loss`, `c47_equal_zero`, `c47_loss_triangle`, `c47_phase_refuted`, `c47_loss_value`, `c47_loss_default`, `c47_cochleagram`
* C48: `c48_noise`, `c48_amps`, `c48_audio`, `c48_audio_total`
* C60: `c60_resynthesis`
* C61: `c61_monotone`, `c61_homogeneous`, `c61_size_raises`
* C73: `c73_params_init`, `c73_one_sample`
* C81: `c81_t60`, `c81_range`, `c81_default`, `c81_order_one_refuted`, `c81_ir_size`, `c81_ir_size_total`
* C82: `c82_values`, `c82_axis`, `c82_normalized`, `c82_norm_refuted`, `c82_analytic`, `c82_analytic_normalized_refuted`
* C83: `c83_cochleagram`, `c83_default`, `c83_analytic_default`, `c83_real_part`, `c83_precomputed`, `c83_errors`, `c83_other_options`, `c83_ir_with_real_bank`, `c83_keywords`, `c83_loss`, `c83_loss_input_stride`, `c83_ir_option_refuted`
* C84: `c84_residual`, `c84_on_grid`, `c84_close`, `c84_latest_refuted`, `c84_errors`, `c84_column`, `c84_column_refuted`
* C85: `c85_residual`, `c85_custom`, `c85_arrays`, `c85_exact`, `c85_ambiguous`, `c85_clip_refuted`
* C86: `c86_names`, `c86_compute`, `c86_unknown`, `c86_constants`, `c86_functions`, `c86_frequencies`, `c86_equal_decays`, `c86_signal`, `c86_attribute`, `c86_predict`, `c86_single_refuted`, `c86_scalar_refuted`, `c86_copy_refuted`
* C88: `c88_decay`, `c88_short_decay_refuted`
* C89: `c89_best`, `c89_unique`, `c89_sinusoid`, `c89_envelope`
* C90: `c90_decays`, `c90_wave`, `c90_tolerance`
* C91: `c91_modes`
* C92: `c92_tracks`, `c92_modes`
* C93: `c93_tracks`, `c93_modes`, `c93_trend`
* C94: `c94_offset`
* C95: `c95_levels`
* C97: `c97_grid`, `c97_grid_increasing`, `c97_grid_one`, `c97_colours`, `c97_ticks`, `c97_stride_ticks`, `c97_stride_places`
* C99: `c99_cos_ft`, `c99_beat_ft`, `c99_signal_ft`, `c99_fft_curve_refuted`
<!-- /assumptions -->
