# Formal model of CHECLabPy — design

Prover: Rocq/Coq 8.16.1. Sources in `rocq/theories`, logical root `Verif`.

## 1. Layout

Each topic is a directory `theories/<Topic>/` with

* `Model.v`  – shallow, total, executable transcription of the Python code, function by
  function; every definition cites the file and lines it models and says where it simplifies.
  No proofs.
* `Spec.v`   – the small independent vocabulary in which the properties are stated (does not
  use the helpers of `Model.v`).
* `Proofs.v` – lemmas.
* `Props.v`  – only the property theorems (`Theorem Cnn_... : statement. Proof. exact lemma. Qed.`),
  each followed by `Print Assumptions`, with non-vacuity `Example`s beside it.

`theories/Base` holds Python primitives (exceptions as values, insertion ordered dicts, slices,
argmax, strings) and a tactic layer for canonical rationals.

## 2. Modelling conventions (apply everywhere unless a comment says otherwise)

* **Exceptions** are values: `res A := Ok a | Raise e`, `e` a Python exception class.
* **Floating point**: finite floats are modelled by exact numbers (`Qc`, canonical rationals, when the
  code only uses field operations and comparisons; `R` when it uses exp/log/sqrt). Rounding is not
  modelled, except for `Waveform.t_cpu` (C27), where Flocq's `round` is used, for the loading of reference pulses (C84),
  where Flocq's binary64 operations are used (`Base/F64.v`), and for np.histogram (C78, C83), the rolling baseline (C91) and
  the charges (C92; sums are trees of additions in any order, `Base/FlSum.v`), where `fl prec emin` of
  `Base/Fl.v` rounds rational numbers; it is computable and proved equal to Flocq's `round` (C78_rounding), without a
  largest exponent (the hypotheses on the sizes exclude overflow). NaN is modelled by `option` where the code depends on it.
* **Integers**: Python/NumPy integers are `Z` (unbounded); fixed width casts (`astype('uint32')`, …)
  are modelled as `mod 2^w` where they occur.
* **Arrays**: 1-d arrays are lists, 2-d arrays lists of rows (`waveforms` = list of pixels). A shape
  error raised by NumPy is modelled as `Raise ValueError` where the code can reach it.
* **In-place mutation** is modelled by returning the new state. Aliasing is modelled explicitly only
  in C20, where it is the point.
* **pandas/HDF5**: the store is a map key → node (format fixed/table, rows, attributes). A dataframe is
  its list of rows; all frames appended under one key have the same columns. The row index is not
  modelled. `put` removes the old node with its attributes; `append` to a fixed-format node raises
  ValueError; appending a frame without rows is a no-op (pandas `HDFStore._write_to_group`).

## 3. Trusted base

1. The Coq kernel (8.16.1) and `coqc`; no axioms are added, no kernel check is switched off.
2. Standard-library axioms, only where `Print Assumptions` lists them (recorded per theorem in
   section 6): the real-number axioms `ClassicalDedekindReals.sig_forall_dec`,
   `ClassicalDedekindReals.sig_not_dec`, `FunctionalExtensionality.functional_extensionality_dep`
   and, through Flocq/Coquelicot/Reals lemmas, `Classical_Prop.classic`. Coquelicot is used for the statements and
   proofs about integrals over the real line (Stats/Proofs2.v, Stats/Props2.v).
3. Faithfulness of the transcription (`Model.v` files) to /repo, including the semantics assumed for
   the external libraries named in each model file (pandas HDFStore, numpy, scipy correlate1d, …).

## 4. What is modelled per property

| id | what is modelled | how proved |
|----|------------------|------------|
| C01 | HDF5Writer buffering/flush/finish + HDF5Reader contents/read, store as map | invariant `disk ++ buffered = appended` by induction over operations; refinement to `concat` |
| C02 | metadata dict-of-dict-of-dict, `_save_metadata`, `get_metadata` | induction; last-wins lookup spec |
| C03 | n_bytes counters, `finish` | induction, permutation invariance over key order |
| C04 | prefix of operations then `finish` | corollary of the C01 invariant for every prefix |
| C05 | add_metadata guard | state equality |
| C06 | reader opening | refuted by a metadata-only key without a 'metadata' dict; proved when every metadata key also has one |
| C07 | HDF5Appender on a file | induction as C01 from a non-empty store |
| C08 | appender counters | n_bytes refuted, total_bytes proved |
| C09 | write() | proved when nothing is buffered for the key; refuted (ValueError at finish) otherwise |
| C10 | pandas TableIterator + iterate_over_chunks | induction on the table |
| C11 | read | case analysis against recorded size |
| C12, C13 | write_dl1_file, DL1Writer preparation (casts, sort), DL1Reader lookups | refinement: file = events in order; index arithmetic |
| C14 | metadata keys `TM%02d(_SP%02d)` | injectivity of zero padded decimal printing |
| C15 | str.replace | refuted for paths without '.tio'/'.simtel.gz', proved otherwise |
| C16, C17 | class hierarchy as rose tree | induction on the tree |
| C18–C20 | column registry, metaclass, chain | induction over definitions; heap model for aliasing |
| C21 | saturation reducer inside the chain | refuted; characterised |
| C22 | generate_dl1_config text, real reducer table | text lemma for all docstrings; equivalence refuted |
| C23–C26 | WaveformReader indexing, slice.indices, file detection, max_events | arithmetic |
| C27 | binary64 product via Flocq | representability |
| C28–C31 | SpectrumParameterCollection, load/save config, curve normalisation | induction, linearity |
| C32–C35 | Welford, pdf, mapm_spe, gentile weights over R | algebra, series, induction |
| C36–C40 | AmplitudeMatcher state machine | invariants, well-founded measure |
| C41–C43 | BaselineSubtractor ring buffer, shift_array, averages | invariant by induction |
| C44–C47 | PixelMasks, natural sort, commit history | list algebra, string tokenisation |
| C48 | regex line parser | printing/parsing round trip |
| C49–C52 | apply_t_cor, calibrators, data sheet | rational arithmetic |
| C53–C59 | concrete reducers | list arithmetic, Cauchy–Schwarz |
| C60, C61 | nnls with arbitrary lstsq oracle | invariant + fuel bound |
| C62, C63 | ChargeResolution / ChargeStatistics | group-by algebra |
| C64–C66 | mappings, pixel order, image | list/map algebra |
| C67 | PixelFitApplier under arbitrary schedules | permutation invariance; order refuted |
| C68 | limit curves | real inequalities |
| C69 | monitor reader | table lookup |
| C70 | saturation reducer with its arguments | proved alone, refuted inside the chain |
| C71 | Common reducer | slices, means and variances (squares of the standard deviations) |
| C72 | nnls | the optimality conditions at a converged end, for an exact least-squares oracle |
| C73 | get_row_column (histograms, digitize) | proved on square grids; the other cases are findings below |
| C74 | _get_likelihood of both fitters | real analysis (x ln x - x) |
| C75 | add_mapping / get_mapping | last call wins, by induction over the calls |
| C76 | write_dl1_file, the tables beside 'data' | appended rows per key by induction over the events; file contents from C01-C03, C75 |
| C77 | AmplitudeMatcher.process, one call and successive calls | case analysis; invariant on the last change of DAC |
| C78 | SpectrumFitter.apply up to the minimiser, np.histogram with its index corrections | for every rounding that is off by at most one bin; exact, double precision and single precision arithmetic as instances (error bounds with Flocq) |
| C79 | _get_spectra, _get_likelihood of both fitters with the lookup of C28 | parameter lookup lemma, map over illuminations |
| C80 | `initial` of extract_spe.py | dict algebra; equality with the fit's start values refuted after load_config |
| C81 | DL1Extractor.__call__ and the event loop | induction over the events, C41 for the baseline, C12/C13 for the file; claim refuted before the 50th kept event |
| C82 | several inputs of extract_dl1.py | disk as a dictionary, induction over the paths; refuted with -o |
| C83 | charges of extract_spe.py | reshape of the DL1 table, then C78 |
| C84 | loading of the reference pulse in binary64 (Flocq) | error bounds of the division and of linspace |
| C85, C86 | NNLS template and bases in exact numbers | index arithmetic; equal spacing |
| C87 | plot_spe.py on the tables of C67 | permutation of the rows; order refuted |
| C88 | colour limits of the two camera images as a state machine | induction over the calls; refuted for set_z_log and for partly filled grids |
| C89, C90 | pages of pixel and module waveforms (plotting/waveform.py) | division of rows and columns; list filters; outlines refuted for a single module |
| C91, C92 | rolling baseline and charge extraction in double precision (utils/waveform.py, waveform_reducers) | error analysis over arbitrary trees of additions (Base/FlSum); integers exact; peaks that stand out are found |
| C93 | binned curves of resolution and mean charge (plotting/resolutions.py) | edges are counted, bins found by position in a sorted list; permutation of the values into groups; values below 0.1 refuted |
| C94 | paths of run lists (utils/files.py) | str.format as a parser with numbering state; decimal digits; the exact set of directories that work (no curly bracket) |
| C95 | time correction in floating point (calib/time_calibrator.py) | positions and values rounded operation by operation; x - floor(x) is exact; monotony of rounding keeps a position in its cell |
| C96 | attributes of events, containers of simulations (core/io/waveform.py, tio.py, simtel.py, calib/waveform.py) | numpy's rule for subclasses as an evaluator of calculations; induction over the calculation; folds over any sequence of accesses |
| C97 | charge resolution and statistics in double precision (utils/resolutions.py) | groupby as a relation (any order of additions); rows cover a permutation of the entries; sums of sums are sums; error bounds from Base/FlSumFacts |
| C98 | figures: files, open figures, style (plotting/setup.py, camera.py save and crop, plot_spe.py) | disk as a map from paths to files and directories; invariant that whatever exists lies in a directory; figures as numbers never reused; the settings as a sequence of updates, the last that sets a key decides |
| C99 | annotations of camera images (plotting/camera.py 139-264, 433-509) | the first outermost pixel of each column as a split of the mapping; modules at the edge as a set, sorted lists with equal sets are equal; coarse and fine mappings related block by block; widths of outlines after a sequence of assignments |
| C100 | conversion of DL1 files to ROOT (scripts/convert_hd52root.py) | disk as a map from paths to files; the two passes over the metadata (strings, numbers) keep a permutation of its entries; everything that can fail before and after the output is opened |
| C101 | Welford's algorithm in double precision, with every rearrangement that fastmath=True permits (stats/welfords.py) | Flocq rounding; a step of at most half of the rounded difference cannot pass the sample (differences of doubles do not underflow); simulation against the exact recurrence of C32 |
| C102 | extraction of the reference pulse, its text file ('%.5e', characters) and its loading (examples/extract_reference_pulse.py, cross_correlation.py) | '%.5e' is Flocq's rounding with radix 10 and precision 6; reading inverts writing by induction on the text; the times of C84; the averages of C43 |
| C103 | obtain_pulse_timing in double precision (waveform_reducers/timing.py) | the function of C59 with every operation rounded (a parameter; no rounding gives C59's function); order of crossings from monotonicity of rounding; the vertex in R with Flocq: exactness of halves and doubles, Sterbenz, error of quotients |
| C104 | running statistics per module and their comparison with pandas (examples/pandas_cookbook.py) | the groupby and merging of C62/C63; alignment of columns on the index as a lookup by row number |
| C105 | times of the cross correlation in double precision (cross_correlation.py:17-34) | every operation rounded as in C103; the cross correlation is an argument (its rounding is in C92); no overflow |
| C106 | opening any HDF5 file: version, warnings, tables and metadata listed | the model of C01-C11; versions M.x.y (packaging's other forms left out) |
| C107 | charges at the peak of the neighbours (CrossCorrelationNeighbour, SlidingWindowNeighbour) | the correlation of C55 and the windows of C56 applied to the neighbours' waveforms; ctapipe's average over neighbours and sum around the peak by their documentation |
| C108 | which pulses AverageWF and Timing see, for readouts of every length | the model of C53 and C59; case analysis on the clamped time; what lies behind the waveform in memory is a parameter |
| C109 | memory limits of read and of the chunks, in fresh files and after appending | the model of C07 with rows of equal size (the index that pandas counts in memory_usage is left out); the chunk size also in double precision |
| C110 | gaps in the SiPM data sheet, and the sheet that comes with the code | the converter of C52 with NaN as None; scipy's sorting and bounds and np.interp's handling of NaN; the file's decimal numbers without rounding |
| C111 | the shipped time corrections never divide by zero | C95's floating point model with the numbers of the file, to within 10^-6 |
| C112 | amplitude calibration and illumination profile in double precision, with the shipped profile | every operation rounded; no overflow, no zero divisors |
| C113 | standard deviations of Common in double precision | np.std's two passes, sums in any order; no overflow |
| C114 | a pulse from the waveform to the DL1 file | exact arithmetic; CrossCorrelationLocal; disturbances bounded per sample |

### Files of /repo/CHECLabPy and where they are modelled

| file | modelled | not modelled |
|------|----------|--------------|
| core/io/hdf5_writer.py, hdf5_reader.py, hdf5_appender.py | `Hdf5/Model.v`: everything that decides the contents of a file and what is read; `Hdf5/ModelChunks.v`: the default chunk size in double precision | printing, warnings, tqdm, compression, the order of `dir(attrs)`, `iterate_over_chunks` beyond row blocks |
| core/io/dl1_reader.py | `Dl1/Model.v` (lookup, iteration, metadata), `Monitor/Model.v` | plotting helpers, `tc_mapping` (see findings) |
| scripts/extract_dl1.py | `Dl1/Model.v`, `Pipeline/Model.v` (extractor, several inputs) | command line, progress bar, time of day |
| core/reducer.py, core/chain.py, core/factory.py, core/__init__.py, scripts/generate_dl1_config.py | `Chain/Model.v` | YAML parsing (a loader function is a parameter), import side effects |
| core/io/waveform.py, tio.py, simtel.py | `Reader/Model.v` (indexing, slices, detection, max_events, t_cpu), `Reader/ModelWave.v` (attributes of events, containers), `Camera/Model.v` (pixel order) | target_io, eventio and their packet formats |
| core/spectrum_fitter.py | `Fitter/Model.v`, `Spectrum/Model.v` and `Spectrum/ModelFloat.v` (histograms) | MINUIT (an arbitrary function of its arguments), iminuit errors |
| spectrum_fitters/*.py, stats/*.py | `Stats/Model.v`, `Stats/ModelWelford.v` over R and Qc, `Stats/ModelWelfordFloat.v` in double precision; `Spectrum/Model.v` (several illuminations) | float rounding (except welfords.py), numba |
| calib/amplitude_matcher.py | `Matcher/Model.v` | printing |
| calib/*.py (rest) | `Calib/Model.v`, `Calib/ModelFloat.v` (rounding), `Calib/ModelGaps.v` (gaps of the data sheet, with its numbers), `Calib/ModelShipped.v` (numbers of the time corrections and the profile), `Calib/ModelAmpFloat.v` (amplitudes and profile, rounded), `Files/Model.v` | reading the data files |
| utils/waveform.py | `WfUtils/Model.v`, `WfUtils/ModelFloat.v` | obtain_dead_pixel_list_r1 (see findings), progress bars |
| utils/files.py | `Files/Model.v`, `Files/ModelRuns.v` (run lists) | read_runlist (pandas) |
| utils/resolutions.py | `Resol/Model.v`; in double precision `Resol/ModelFloat.v` | pandas dtypes, NaN keys, compensated group sums of pandas 1.2 and later, overflow |
| utils/mapping.py | `Camera/Model.v` | construction from target_calib / ctapipe objects |
| waveform_reducers/*.py | `Reducers/Model.v`, `Reducers/ModelFloat.v`, `Reducers/ModelTimingFloat.v`, `Reducers/ModelCrossFloat.v`, `Reducers/ModelNeighbour.v`, `Reducers/ModelRms.v`, `Nnls/Model.v`, `Pulse/Model.v` | ctapipe_integrators.py, the constructors and t_sliding_nn of the neighbour reducers (ctapipe code), the cubic and PCHIP interpolation of reference pulse files (a parameter of `Pulse/Model.v`) |
| plotting/*.py | `Resol/ModelCurves.v`, `Resol/ModelBins.v` (binned curves; np.geomspace a parameter), `Camera/Model.v` (image placement), `Camera/ModelLabels.v` (annotations), `Plots/Model.v` (colour limits, waveform pages), `Plots/ModelFigures.v` (saving, open figures, style) | drawing, fonts, ticks, contents of PDF files |
| scripts/extract_spe.py | `Spe/Model.v` (all interleavings of the processes), `Spectrum/Model.v` (`initial`), `Pipeline/Model.v` (charges) | command line, HDF5 output (covered by `Hdf5`) |
| scripts/plot_spe.py | `Plots/Model.v`, `Plots/ModelFigures.v` | drawing |
| scripts/convert_hd52root.py | `Dl1/ModelConvert.v` | format of ROOT files, char[256] (a parameter) |
| examples | `Pulse/ModelFile.v` (extract_reference_pulse.py), `Resol/ModelRunning.v` (get_running_mean of pandas_cookbook.py) | the other examples |

## 5. Findings (places where the code violates what a user would rely on)

Machine-checked refutations (theorem names in brackets); line numbers as cited in the model files.

* **C06** A key that only carries metadata, none of it in the dict named `metadata`, makes the finished file impossible
  to open: the reader raises AttributeError, which its `except KeyError` does not catch [C06_every_file_opens_refuted].
* **C08** After appending to an existing file `n_bytes` of a table is the size of the new rows only [C08_n_bytes_refuted].
* **C09** append() and write() on the same key: finish() raises ValueError because the stored table has fixed format
  [C09_append_then_write_refuted].
* **C15** The output path of extract_dl1 equals the input path when the name has none of the expected patterns
  [C15_output_path_refuted].
* **C21, C70** The on/off switch of the column `t_event` is handed to the saturation reducer as the extraction time; with
  the default configuration the sum covers the last samples only [C21_refuted, C70_chain_refuted].
* **C22** The generated configuration switches on columns that are off by default (waveform_max, flasher_unit)
  [C22_equivalence_refuted].
* **C29** load_config and update_initial leave the minimiser settings stale [C29_load_config_refuted,
  C29_update_initial_refuted].
* **C35** An optical crosstalk of exactly 1, or a mean beyond the fit limits (for instance 20), makes the first weight
  fall below the cut, so the loop ends at once and everything but the pedestal is dropped [C35_dropped].
* **C38** The amplitude matcher never finishes if some DAC gives exactly the aim, or if two DACs one step apart are
  symmetric about it [C38_termination_refuted, C38_endless]; otherwise it finishes within 993 calls.
* **C40** The reduction of a per-pixel bad HV mask to superpixels is computed and thrown away
  [C40_per_pixel_mask_refuted].
* **C50** A time correction that is a whole number smaller than the waveform length, in particular 0, raises
  ZeroDivisionError for the whole event [C50_refuted].
* **C58** With fewer modules than the flasher code expects, every event is attributed to unit 0 [C58_refuted].
* **C60** A 0/0 step of the active set solver makes coefficients NaN [C60_nan].
* **C67** With several processes the rows of the three tables are in completion order, and the tables may differ from
  each other in order [C67_order_refuted].
* **C80** With a configuration file, extract_spe stores (and plots) the file's initial values although the fits start
  from the built-in ones, a consequence of C29 [C80_configured_refuted].
* **C81** The raw samples of the first 50 events, stale and incomplete ones included and not time-corrected, are part of
  the baseline of the first 49 kept events; a source shorter than 50 events counts zeros for the missing ones
  [C81_skipped_refuted].
* **C82** extract_dl1 with -o and several inputs overwrites its own output: only the last input is kept
  [C82_every_input_refuted]. Default names also collide for `a_r1.tio` and `a.simtel.gz` [C82_ex].
* **C84** A reference pulse file in whole nanoseconds (as examples/extract_reference_pulse.py writes it) cannot be loaded
  (ValueError) if it ends at 3, 6, 12, 24, 45, 48, 90, 93 or 96 ns, because max_sample * 1E-9 rounds above the last
  abscissa; for other lengths (7, 9, 11, ..., 100) the last sample is dropped [C84_whole_refuted, C84_ex].
* **C86** The NNLS reducer adds the template length in seconds to 127 before int(), so that it has always 127 * bases_bin
  candidates, however long the template is [C86_density_refuted].
* **C87** plot_spe paints the rows of the tables on the pixels in the order they are stored, which with several processes
  is the order of completion [C87_order_refuted]. The spectrum of a single pixel is looked up by its number and is right.
* **C88** set_z_log computes new limits although the user has fixed them, and since automatic scaling stays off these are
  kept for every later image [C88_log_refuted, C88_log_frozen]. In CameraImageImshow cells without a pixel that are not
  corners of a known camera count as zeros in the automatic limits [C88_imshow_refuted].
* **C89** The pixel waveform page takes a sixth of the rows as the size of a module for every camera; for a single module all
  sides of all pixels are drawn [C89_single_refuted].
* **C93** The resolution plots keep charges above 0.001, but their bins start at 0.1: a value in between is kept by set_store and
  never enters a curve; a pixel whose values are all below 0.1 makes plot_pixel raise ValueError [C93_store_refuted].
* **C94** open_runlist_r1 / _dl1 put the directory of the run list into the template of str.format: a directory with curly
  brackets raises IndexError, KeyError or ValueError, and doubled brackets lead to another directory [C94_braces_refuted].
* **C95** in floating point a time correction up to 2^-54 of a sample is rounded away and raises ZeroDivisionError
  [C95_refuted], and a corrected sample in single precision can exceed every sample of its waveform [C95_between_refuted].
* **C96** WaveformCalibrator marks its result with an attribute `r1` that nothing reads and the next operation drops;
  `is_r1` stays False [C96_calibrated_refuted]. For simulations with several runs the metadata of the dl1 file names
  the last run and its mcheader the first [C96_run_refuted]. Events read by a slice have no attributes [C96_several];
  get_sn and get_sp_dac accept negative numbers [C96_slow_control].
* **C97** In double precision the tables depend on the batches [C97_batches_refuted], by rounding only
  [C97_resolution_batches]. ChargeStatistics subtracts the square of the mean from the mean of the squares: three charges of 0.1 give
  std NaN instead of 0, in every order of additions [C97_std_refuted]; the error bound is relative to the mean of the squares
  [C97_statistics_error]. With mc_true a negative true charge can give NaN [C97_negative_refuted].
* **C98** SPECamera, CameraTMWaveformPlotter and CameraPixelWaveformPlotter open a second figure and never close the
  first, on which self.ax is: plot_spe leaves one figure per column open [C98_leak_refuted] and a legend added to such a plot
  is not in the file [C98_legend_refuted]. A plot made with talk=True leaves its typeface to all plots after it
  [C98_style_refuted]. SpectrumFitPlotter(n, ax=ax) closes the figure of ax and draws elsewhere [C98_axes_refuted]. Without an
  extension the path printed does not exist [C98_extension_refuted]; saving a.pdf replaces a picture a_cropped.pdf
  [C98_cropped_refuted]; a camera image named .pdf raises FileNotFoundError [C98_hidden_refuted].
* **C99** Labels of modules use DataFrame.ix, removed in pandas 1.0 (setup.py asks for 0.21 or later): AttributeError
  [C99_pandas_refuted]. The arrow of CameraImageImshow keeps counting pixels on images of superpixels and modules and lies
  outside [C99_arrow_refuted]; the LED flashers move outwards with the size of what is shown [C99_flashers_refuted].
  add_pixel_text finds the values of a Series by label, the image takes them by position [C99_series_refuted].
  highlight_pixels on an image of integers rounds the default width 0.5 down to 0 and shows nothing
  [C99_highlight_refuted].
* **C100** convert_hd52root cannot convert a file with monitor data (`load_entire_table` does not exist on the monitor
  reader, and `mon` stays None) [C100_monitor_refuted]. A value of the metadata that ROOT cannot hold is noticed after the output
  was recreated, so that an earlier output is lost [C100_lost_refuted]. None becomes the string None [C100_none_refuted], strings of
  more than 256 characters are cut [C100_long_refuted], inputs that differ in the extension share their default output
  [C100_collision_refuted], a t_cpu column of doubles arrives as the integers with their bits [C100_cpu_refuted], a missing input exits with status 0 [C100_status_refuted].
* **C101** the results of Welford's algorithm depend on the order of the samples and on how the function was compiled
  [C101_reproducible_refuted]; C101_order bounds by how much.
* **C102** extract_reference_pulse.py moves the maximum of every event to sample 60 whatever the length of the waveforms, so
  with 30 samples or less nothing is left and the file holds nan [C102_short_refuted]; it divides by the signed area, so a
  pulse with a long undershoot is written upside down [C102_inverted_refuted]; and files of some lengths (97 samples) are
  refused by CrossCorrelation, of others (101) the last sample is lost [C102_load_refuted].
* **C103** The curvature y0 - 2 y1 + y2 can round to zero for a peak of two equal samples whose predecessor is one unit in the
  last place below: the pixel is then reported without pulse (all zero), while the mirrored pulse is timed
  [C103_flat_refuted].
* **C104** The cookbook compares its running statistics with pandas' in columns that are aligned on different indices (row
  number and module): with a module missing, rows show NaN or the mean of another module [C104_gap_refuted, C104_ex]; and
  the standard deviations differ by the Bessel correction [C104_std_refuted].
* **C105** In double precision the second difference of a cross correlation with two equal samples at the top can vanish;
  the time is then that of the first of them, half a sample from the vertex, at every scale [C105_flat_refuted].
* **C106** HDF5Appender stamps the file with the current version: appending to a file of an older version removes the warning
  about it although the old rows are still there [C106_append_refuted]. One table without metadata makes the whole file
  unreadable [C106_undescribed].
* **C107** With dark neighbours, or none, the position is sample 0: the pulse of a single pixel is not measured [C107_dark_refuted,
  C107_ex].
* **C108** A readout of up to 7 samples, or of 10 to 12 samples with the peak at sample 10 or later, gives charge 0 in every pixel
  (the window starts before sample 0 and Python counts it from the end); with 13 to 17 samples such a peak is outside the window
  [C108_zero_refuted, C108_late_refuted]. Timing reads the sample behind the waveform (the first one of the next pixel) when the
  interpolated time is in the last half sample; t_rise then depends on it [C108_junk_refuted].
* **C109** HDF5Appender records the size of the new rows only: afterwards read returns a table of any size without `force`, and the
  default chunk can be the whole table [C109_appended_refuted, C109_ex].
* **C110** The columns gain, opct and pde of the shipped data sheet have gaps, so that values above the sheet are not refused: NaN is
  returned for all columns. Only vover is checked on both sides [C110_above_refuted, C110_sheet_refuted, C110_ex].
* **C112** fold and unfold of the shipped profile are not exact inverses in double precision (pixel 16, image of 1); harmless: they
  differ by at most three units of rounding [C112_exact_refuted, C112_shipped].
* **C113** The standard deviation of a constant waveform need not be 0 (20 samples of 0.1); it is for digitiser counts
  [C113_constant_refuted, C113_constant].
* **C114** The samples that determine the baseline of an event include its own first 16 and, in the first 50 events, those of
  later, uncorrected, stale or incomplete waveforms; the theorems state what has to be quiet [C114_pulse, C114_first_events,
  C114_early_pulse_refuted].

Seen while modelling, and either part of a model or outside it:

* hdf5_appender: write(data=...) followed by finish() raises AttributeError. hdf5_reader: the default chunk size is 0
  for rows of more than 2 GB, so that the iteration never ends.
* extract_spe: the metadata `n_pixels` of the output is `charges[0].shape`, a pair, not the number of pixels.
* extract_dl1: with no kept event, `start_time` is None and the metadata cannot be computed (TypeError); for simulations
  a file without kept events cannot be read. dl1_reader: get_sn with a negative module raises KeyError; `tc_mapping`
  uses attribute access on a dict.
* waveform readers: a numpy integer as index raises TypeError; a negative max_events gives a negative number of events;
  files too short for the detection raise IndexError or struct.error.
* spectrum_fitter: a failed update leaves the earlier parameters changed; parameter names must stay distinct after
  numbering. SpectrumFitterFactory lists the subclasses at import time.
* amplitude_matcher: the final DACs are not reshaped to (32, 16); the other calls need 512 superpixels.
* utils/waveform.py: obtain_dead_pixel_list_r1 reads `source.index`, which no reader has. shift_waveform with a fill value
  at or above the peak moves the peak to the fill.
* utils/files.py: file names with superscript digits raise ValueError in the natural sort. Pixel mask file names have a
  two-digit year, so the default file is wrong across a century; glob characters in the installation path hide all
  files. HV values wrap at 16 bits.
* sipm_data_sheet: see C110.
* timing.py: the rise time can be negative; equal neighbouring samples at a level raise ZeroDivisionError; a pulse time
  of n - 1/2 or later rounds to index n, which is read outside the array.
* nnls: `_merge_pulses` is unused. A pixel without pulses enters the camera's average time as 0, so that a camera with
  many empty pixels has its 5 ns window away from the pulses (C61_ex_empty_pixel).
* resolutions: finish() before any add() raises KeyError.
* get_row_column: the index of the fullest column is used as a row index; camera grids that are not square raise
  ValueError; pixels at x = 0 are not counted; the bin edges lie 1/sqrt 2 of a pitch below each column.
* monitor: get_matched_monitor_column is indexed by the monitor entry, not by the row of the event; get_average("idevice")
  raises KeyError.
* plotting: annotate_tm_edge_label uses the removed `.ix`.
* plot_spe: without -p the last step raises KeyError, after the images were saved; without -o it raises TypeError.
  highlight_pixels of CameraImage takes the type of the image for line widths, so that for integer images 0.5 becomes 0. The
  module waveform page draws its horizontal lines at the x ticks.

## 6. Assumptions per theorem

Generated by `tools/gen_assumptions.py` from the output of `Print Assumptions` for every theorem of MANIFEST.json.

<!-- assumptions -->
* No assumptions (closed under the global context): C01_buffered_appends, C01_finish_succeeds, C02_metadata_round_trip, C03_byte_accounting, C04_interrupted_writing, C05_no_side_effect, C05_reserved_names, C06_every_file_opens_refuted, C06_opens_iff_complete, C07_C08_appender, C08_n_bytes_refuted, C09_append_then_write_refuted, C09_write_replaces, C100_collision_refuted, C100_converted, C100_cpu_refuted, C100_default_name, C100_keys, C100_long_refuted, C100_lookup, C100_lost_refuted, C100_monitor_refuted, C100_none_refuted, C100_only_output, C100_status_refuted, C101_equal, C101_reproducible_refuted, C102_written, C103_exact, C104_batches, C104_empty, C104_gap_refuted, C104_means_agree, C104_pandas, C104_rows, C104_std_refuted, C105_exact, C105_range, C106_append_refuted, C106_metadata, C106_no_version, C106_opens, C106_tables, C106_undescribed, C107_below_local, C107_dark_refuted, C107_gain, C107_linear, C107_own_waveform, C107_position, C107_pulse, C107_sliding_position, C107_times, C108_junk_refuted, C108_late_refuted, C108_no_junk, C108_peak_inside, C108_peak_timing, C108_timing_raises, C108_zero_refuted, C109_appended_refuted, C109_fresh, C109_limits, C10_chunked_iteration, C10_default_chunksize, C110_above_refuted, C110_between, C110_no_gaps, C110_refused, C110_row, C110_sheet_refuted, C112_beyond, C112_exact_refuted, C112_pedestal, C114_early_pulse_refuted, C114_file, C114_first_events, C114_pulse, C114_stable, C11_read_guard, C12_dl1_completes, C12_dl1_round_trip, C12_empty_mc_run_refuted, C12_empty_run_refuted, C13_any_block_file, C13_event_iteration, C14_module_metadata, C15_output_differs_iff, C15_output_path_refuted, C16_child_subclasses, C16_distinct_names, C16_name, C16_reachable, C17_factory_produce, C18_chain_output, C18_one_reducer_per_column, C18_second_definition_refused, C19_active_columns, C20_reducers_isolated, C21_default_chain, C21_refuted, C21_with_t_event_switch, C21_without_t_event, C22_equivalence_refuted, C22_equivalent_iff, C22_generated_lines, C23_integer_index, C23_iteration, C23_list_index, C24_slice, C25_byte_order, C25_first_compatible, C25_simtel_detection, C25_simtel_file, C25_tio_detection, C26_first_events, C26_max_events, C28_lookup_keys, C28_parameter_lookup, C29_before_fit, C29_construction_and_update, C29_load_and_initial_keep_kwargs, C29_load_config_refuted, C29_update_initial_refuted, C29_update_initial_stores, C29_update_repairs, C29_update_stores, C30_bad_file, C30_partial_file, C30_round_trip, C31_abscissae, C31_area_line, C31_area_split, C31_curve_area, C31_likelihood_area, C32_continue, C32_start, C32_welford, C36_dacs_in_range, C36_default_start, C37_histories_ok, C37_masked_at_255, C37_two_passes, C37_within_a_pass, C38_endless, C38_terminates, C38_termination_refuted, C39_best_dac, C40_mask_meaning, C40_per_pixel_mask_refuted, C41_baseline_first_events, C41_baseline_last_events, C41_baseline_same_source, C41_subtract, C42_shift_array, C42_shift_array_shape, C42_shift_waveform, C43_average, C43_average_is_pixel_mean, C43_average_per_pixel, C44_accepted, C44_all_mask, C44_file_rows, C44_merge_is_or, C44_merge_never_unmasks, C44_merge_order, C44_round_trip, C44_saved_files_hold, C44_saved_layout, C45_earlier_commits_not_newer, C45_last_commit_is_default, C46_agrees_with_repeat, C46_modules, C46_superpixels, C47_failure, C47_numbers_by_value, C47_plain_names, C47_sort, C48_configuration, C49_affine, C49_event, C49_interpolation, C49_pixels_independent, C50_event, C50_exact, C50_far, C50_refuted, C51_amplitude, C51_profile, C52_exactly_one, C52_inside, C52_outside, C52_row_order, C53_default, C53_explicit, C54_range, C54_vertex, C55_camera, C55_linear, C55_local, C56_common, C56_local, C57_superpixels, C58_full_camera, C58_refuted, C59_fwhm, C59_peak, C59_rise, C60_nan, C60_no_nan, C60_terminates, C61_average, C61_columns, C61_merge, C61_merge_gaps, C61_window, C62_empty, C62_independent, C62_tables, C63_independent, C63_tables, C64_cells, C64_module_cells, C64_modules, C64_superpixels, C65_order, C66_image, C66_outside, C66_wrong_size, C67_order_refuted, C67_results, C67_sequential, C69_array, C69_average, C69_load, C69_matched, C69_missing, C69_no_monitor, C70_chain_refuted, C70_default, C71_bounds, C71_shift, C71_windows, C72_optimal, C73_rectangle, C73_square, C73_tolerance_refuted, C75_mapping_round_trip, C76_other_tables, C77_step_sizes, C77_transition, C78_exact, C78_histograms, C78_one_bin, C78_refused, C80_configured_refuted, C80_names, C80_unconfigured, C81_file, C81_settled, C81_skipped_refuted, C81_time_correction, C81_values, C82_completes, C82_default_names, C82_errors, C82_every_input_refuted, C82_real_runs, C82_single_output, C82_usual_names, C83_charges, C83_histograms, C85_equal_steps, C85_short, C85_template, C86_bases, C86_columns, C86_covers, C86_density_refuted, C87_camera, C87_one_process, C87_order_refuted, C87_size, C87_spectrum, C88_automatic, C88_fixed, C88_imshow, C88_imshow_refuted, C88_log_frozen, C88_log_refuted, C88_size, C89_highlight, C89_mask_size, C89_outlines, C89_reset, C89_single_refuted, C90_axes, C90_errors, C90_missing_module, C90_page, C91_no_drift, C93_below, C93_conserved, C93_curve, C93_mean_curve, C93_mean_range, C93_pixel, C93_refused, C93_store_refuted, C94_braces, C94_braces_refuted, C94_distinct, C94_list, C94_path, C94_sorted, C95_between_refuted, C96_attributes, C96_calibrated_refuted, C96_containers, C96_defined, C96_kinds, C96_mark, C96_one_run, C96_run_refuted, C96_several, C96_slow_control, C96_tables, C96_tio, C96_view, C96_view_time, C97_resolution_rows, C97_result, C97_statistics_rows, C98_axes, C98_axes_refuted, C98_cropped, C98_cropped_refuted, C98_drawn, C98_extension_refuted, C98_hidden_refuted, C98_leak_refuted, C98_legend_refuted, C98_plot_spe, C98_ready, C98_refused, C98_saved, C98_sizes, C98_style, C98_style_refuted, C98_two_images, C99_arrow, C99_arrow_refuted, C99_beyond, C99_edge_labels, C99_flashers, C99_flashers_refuted, C99_highlight, C99_highlight_refused, C99_highlight_refuted, C99_highlight_same, C99_levels, C99_no_mapping, C99_one_pixel, C99_pandas_refuted, C99_series, C99_series_refuted, C99_values.
* `ClassicalDedekindReals.sig_forall_dec`, `FunctionalExtensionality.functional_extensionality_dep`: C102_form, C102_short_refuted, C74_integral, C74_trapz_split, C92_numbers, C95_raises.
* `ClassicalDedekindReals.sig_forall_dec`, `ClassicalDedekindReals.sig_not_dec`, `FunctionalExtensionality.functional_extensionality_dep`: C68_decreasing, C68_order, C68_range, C93_error.
* `ClassicalDedekindReals.sig_forall_dec`, `ClassicalDedekindReals.sig_not_dec`, `Classical_Prop.classic`, `FunctionalExtensionality.functional_extensionality_dep`: C101_grows, C101_mean_between, C101_mean_error, C101_order, C101_squares_error, C101_towards, C102_area, C102_file, C102_inverted_refuted, C102_load_refuted, C102_number, C102_order, C102_peak, C102_usual, C103_error, C103_flat_refuted, C103_fwhm, C103_peak, C103_range, C103_returns, C103_rise, C105_common, C105_error, C105_flat_refuted, C105_local, C105_peak, C109_chunk_size, C111_apart, C111_inside, C111_shipped, C112_calibrate_error, C112_fold_unfold, C112_monotone, C112_shipped, C112_single, C112_unfold_fold, C113_columns, C113_constant, C113_constant_refuted, C113_defined, C113_error, C113_numbers, C27_t_cpu_exact, C27_t_cpu_order, C33_binom, C33_logpmf, C33_logpmf_empty, C33_normal, C33_normal_integral, C33_normal_slope, C33_poisson, C33_poisson_sum, C34_integral, C34_mapm, C34_positive, C35_dropped, C35_gentile, C35_integral, C35_no_crosstalk, C35_positive, C74_illuminations, C74_minimum, C74_reached, C74_scale, C74_trapz_line, C78_edges, C78_faithful, C78_float32_counts, C78_floating_point, C78_rounding, C79_gentile, C79_independent, C79_likelihood, C79_mapm, C83_single, C84_count, C84_inside, C84_loads, C84_whole_numbers, C84_whole_refuted, C91_default, C91_error, C91_exact, C91_raw_exact, C91_subtract, C92_averagewf, C92_common, C92_local, C92_means, C92_noisy_pulse, C92_sliding_local, C95_between, C95_constant, C95_error, C95_refuted, C95_tiny, C97_batches_refuted, C97_negative_refuted, C97_resolution_batches, C97_resolution_error, C97_resolution_exact, C97_statistics_constant, C97_statistics_error, C97_statistics_exact, C97_std_refuted.
