{"id": "C01", "title": "Buffered appends lose, duplicate and reorder nothing", "statement": "After any sequence of HDF5Writer.append calls on any keys followed by finish(), HDF5Reader.read(key) returns exactly the rows of all dataframes appended under that key, concatenated in call order, wherever the 0.5 GB buffer happened to be flushed and in whatever order finish() visits the keys.", "quantifier": "every sequence of append calls, every key, every dataframe size (hence every flush pattern), every iteration order of the key set", "why_tests_cant": "flush points depend on accumulated byte counts up to 0.5 GB per key and on set iteration order; a test samples one pattern", "anchors": ["CHECLabPy/core/io/hdf5_writer.py:HDF5Writer.append", "CHECLabPy/core/io/hdf5_writer.py:HDF5Writer._append_to_store", "CHECLabPy/core/io/hdf5_writer.py:HDF5Writer.finish", "CHECLabPy/core/io/hdf5_reader.py:HDF5Reader.read"]}
{"id": "C02", "title": "Metadata round trip", "statement": "For any interleaving of add_metadata calls, HDF5Reader.get_metadata(key, name) returns for each field the value given by the last call that set it (fields reserved by the writer excepted), and a field, name or key never set is absent.", "quantifier": "every sequence of add_metadata calls over all keys, names and fields, interleaved with appends", "why_tests_cant": "needs all interleavings and all collisions of key/name/field", "anchors": ["CHECLabPy/core/io/hdf5_writer.py:HDF5Writer.add_metadata", "CHECLabPy/core/io/hdf5_writer.py:HDF5Writer._save_metadata", "CHECLabPy/core/io/hdf5_reader.py:HDF5Reader.get_metadata"]}
{"id": "C03", "title": "Byte accounting of a fresh file", "statement": "In a file written by HDF5Writer, metadata total_bytes is the sum of n_bytes over all tables written or appended, each n_bytes being the memory usage of the chunks stored for that table, and the version field is the library version.", "quantifier": "every sequence of writer operations, every flush pattern, every iteration order of the key set", "why_tests_cant": "sum over an arbitrary history of flushes and key orders", "anchors": ["CHECLabPy/core/io/hdf5_writer.py:HDF5Writer.finish", "CHECLabPy/core/io/hdf5_writer.py:HDF5Writer._append_to_store"]}
{"id": "C04", "title": "Interrupted writing keeps everything appended so far; buffer stays bounded", "statement": "If the with-body of an HDF5Writer stops (exception) after any prefix of its operations, the closed file contains every row appended by that prefix; and at every point rows already on disk followed by rows buffered are exactly the rows appended, with less than 0.5 GB accounted as buffered per key.", "quantifier": "every operation sequence and every crash point inside it", "why_tests_cant": "all crash points of all histories", "anchors": ["CHECLabPy/core/io/hdf5_writer.py:HDF5Writer.__exit__", "CHECLabPy/core/io/hdf5_writer.py:HDF5Writer.append"]}
{"id": "C05", "title": "Reserved metadata names are refused without side effects", "statement": "add_metadata with name 'info' or 'mapping' raises ValueError and leaves the final file exactly as if the call had not been made; every other name is accepted.", "quantifier": "every history, every name, key and field set", "why_tests_cant": "ranges over all histories around the rejected call", "anchors": ["CHECLabPy/core/io/hdf5_writer.py:HDF5Writer.add_metadata"]}
{"id": "C06", "title": "Every file HDF5Writer completes can be opened by HDF5Reader", "statement": "For every sequence of append/write/add_metadata/add_mapping calls after which finish() succeeds, HDF5Reader(path) opens the file.", "quantifier": "every sequence of writer operations that finishes without error", "why_tests_cant": "needs every combination of tables, metadata-only keys and mappings", "anchors": ["CHECLabPy/core/io/hdf5_writer.py:HDF5Writer._save_metadata", "CHECLabPy/core/io/hdf5_reader.py:HDF5Reader._generate_contents_list"]}
{"id": "C07", "title": "Appending to an existing file preserves it", "statement": "Opening a file with HDF5Appender, appending rows and metadata and finishing leaves each table equal to its old rows followed by the newly appended ones, keeps tables and metadata that were not touched, and merges metadata field by field with the new value winning.", "quantifier": "every existing file written by HDF5Writer and every sequence of appender operations", "why_tests_cant": "all pairs of prior content and new history", "anchors": ["CHECLabPy/core/io/hdf5_appender.py:HDF5Appender.finish", "CHECLabPy/core/io/hdf5_appender.py:HDF5Appender._save_metadata"]}
{"id": "C08", "title": "Byte accounting after appending to an existing file", "statement": "After HDF5Appender finishes, get_n_bytes(key) accounts for all rows of the table (old and new) and total_bytes is the sum of n_bytes over all tables.", "quantifier": "every existing file and every sequence of appender operations", "why_tests_cant": "all histories over several sessions", "anchors": ["CHECLabPy/core/io/hdf5_appender.py:HDF5Appender.finish"]}
{"id": "C09", "title": "write() replaces a table", "statement": "After HDF5Writer.write(key=df) and finish(), reading key returns exactly df, whatever was written or appended to key before.", "quantifier": "every prior history on that key and on others", "why_tests_cant": "depends on buffered, not yet flushed data of every possible history", "anchors": ["CHECLabPy/core/io/hdf5_writer.py:HDF5Writer.write", "CHECLabPy/core/io/hdf5_writer.py:HDF5Writer.finish"]}
{"id": "C10", "title": "Chunked iteration partitions the table", "statement": "iterate_over_chunks(key, chunksize) yields non-empty dataframes of at most chunksize rows whose concatenation is the whole table in order; all but the last have exactly chunksize rows; iterate_over_rows yields each row once.", "quantifier": "every table and every positive chunk size", "why_tests_cant": "all table sizes and chunk sizes, including non-dividing ones", "anchors": ["CHECLabPy/core/io/hdf5_reader.py:HDF5Reader.iterate_over_chunks", "CHECLabPy/core/io/dl1_reader.py:DL1Reader.iterate_over_rows"]}
{"id": "C11", "title": "The 8 GB read guard", "statement": "HDF5Reader.read(key) raises KeyError for a key that holds no dataframe, MemoryError exactly when the recorded n_bytes exceeds 8e9 and force is false, and otherwise returns the table; with force it always returns the table of a known key.", "quantifier": "every file, key, recorded size and force flag", "why_tests_cant": "sizes beyond 8 GB are not testable; boundary is exact", "anchors": ["CHECLabPy/core/io/hdf5_reader.py:HDF5Reader.read"]}
{"id": "C12", "title": "DL1 end to end: reader[iev] returns exactly that event", "statement": "For a DL1 file produced by write_dl1_file from any stream of events of which at least one is kept, with strictly increasing event numbers below 2^32, DL1Reader[iev] returns, for each event that was not stale and had no missing packets, exactly its n_pixels rows in pixel order with the values extracted for it, and raises IndexError for every other iev; n_events, n_skipped, start_time and end_time are the count of kept events, the count of dropped events, and the time of the first and last kept event.", "quantifier": "every event stream (any pattern of stale/missing events, any number of events and pixels), every flush pattern of the writer", "why_tests_cant": "files span many flush boundaries and arbitrary skip patterns", "anchors": ["CHECLabPy/scripts/extract_dl1.py:DL1Writer.write_dl1_file", "CHECLabPy/scripts/extract_dl1.py:DL1Writer._prepare_before_append", "CHECLabPy/core/io/dl1_reader.py:DL1Reader.__getitem__", "CHECLabPy/core/io/dl1_reader.py:DL1Reader.event_lookup"]}
{"id": "C13", "title": "DL1 event iteration", "statement": "iterate_over_events yields the kept events once each in file order and their concatenation is the whole table; iterate_over_selected_events(list) yields exactly the events whose iev is in the list, once each, in file order, whatever order or repetitions the list has.", "quantifier": "every DL1 file of the form n_events x n_pixels and every selection list", "why_tests_cant": "all selections over all files", "anchors": ["CHECLabPy/core/io/dl1_reader.py:DL1Reader.iterate_over_events", "CHECLabPy/core/io/dl1_reader.py:DL1Reader.iterate_over_selected_events"]}
{"id": "C14", "title": "Per-module metadata survive the DL1 round trip", "statement": "For every module tm < n_modules and superpixel sp < n_superpixels_per_module, DL1Reader.get_sn/get_sipm_temp/get_primary_temp/get_sp_dac/get_sp_hvon return what the waveform reader reported for that tm (and sp); indices at or beyond the number of modules or superpixels raise IndexError.", "quantifier": "every number of modules and superpixels (including three or more digits) and every reported value", "why_tests_cant": "requires injectivity of the zero-padded string keys for all pairs", "anchors": ["CHECLabPy/scripts/extract_dl1.py:DL1Extractor.__init__", "CHECLabPy/core/io/dl1_reader.py:DL1Reader.get_sn", "CHECLabPy/core/io/dl1_reader.py:DL1Reader.get_sp_dac"]}
{"id": "C15", "title": "extract_dl1 never writes over its input", "statement": "With no explicit output path, the DL1 output path chosen by write_dl1_file differs from the path of the waveform file being read.", "quantifier": "every input path", "why_tests_cant": "ranges over all path strings", "anchors": ["CHECLabPy/scripts/extract_dl1.py:DL1Writer.write_dl1_file"]}
{"id": "C16", "title": "child_subclasses is sound, complete and duplicate free", "statement": "child_subclasses(base) returns only non-abstract strict descendants of base, no two with the same class name, and a class for the name of every non-abstract descendant; a direct subclass is preferred over a deeper one of the same name.", "quantifier": "every class hierarchy", "why_tests_cant": "all hierarchy shapes, depths and name clashes", "anchors": ["CHECLabPy/core/__init__.py:child_subclasses"]}
{"id": "C17", "title": "Factory.produce selects by name", "statement": "Factory.produce(name) instantiates the unique non-abstract subclass with that name, and raises KeyError exactly when none has that name.", "quantifier": "every hierarchy and every requested name", "why_tests_cant": "all hierarchies and names", "anchors": ["CHECLabPy/core/factory.py:Factory.produce"]}
{"id": "C18", "title": "A DL1 column is produced by exactly one reducer", "statement": "However reducers are defined (any sequence of class definitions, including rejected ones), a column name defined by two differently named classes is refused with AttributeError, so the dict returned by WaveformReducerChain.process never has one reducer's value overwritten by another's and contains exactly the active columns of the reducers in the chain.", "quantifier": "every sequence of class definitions, every configuration", "why_tests_cant": "all definition orders and configurations", "anchors": ["CHECLabPy/core/reducer.py:column", "CHECLabPy/core/reducer.py:WaveformReducerMeta", "CHECLabPy/core/chain.py:WaveformReducerChain.process"]}
{"id": "C19", "title": "Which columns a chain extracts", "statement": "A column is extracted by WaveformReducerChain iff its value in the effective configuration is truthy, where keyword arguments win over the YAML file, the YAML file replaces the built-in default columns altogether, and columns mentioned nowhere are off; a reducer is instantiated iff at least one of its columns is on.", "quantifier": "every set of reducers, YAML configuration and keyword arguments", "why_tests_cant": "all configurations", "anchors": ["CHECLabPy/core/chain.py:WaveformReducerChain.__init__", "CHECLabPy/core/chain.py:WaveformReducerChain._build_chain", "CHECLabPy/core/reducer.py:WaveformReducer.get_active_columns"]}
{"id": "C20", "title": "Reducers are isolated from each other", "statement": "Even if reducers modify their own waveform array in place, WaveformReducerChain.process leaves the caller's waveforms unchanged and the value of each column is the one its reducer computes when run alone on the original waveforms.", "quantifier": "every set and order of reducers, every in-place mutation they perform, every event history", "why_tests_cant": "requires all reducer combinations and mutations", "anchors": ["CHECLabPy/core/reducer.py:WaveformReducer._prepare", "CHECLabPy/core/reducer.py:WaveformReducer.process", "CHECLabPy/core/chain.py:WaveformReducerChain.process"]}
{"id": "C21", "title": "saturation_sum depends only on the waveforms", "statement": "The column saturation_sum is the sum of each waveform from window_shift samples before the (clamped) maximum of the average waveform to the end, whichever other columns are switched on or off in the configuration.", "quantifier": "every event and every column configuration", "why_tests_cant": "interaction between an option name and a column name over all configurations", "anchors": ["CHECLabPy/waveform_reducers/saturation.py:Saturation.saturation_sum", "CHECLabPy/core/chain.py:WaveformReducerChain.default_columns"]}
{"id": "C22", "title": "The generated configuration file is well formed and equivalent to the defaults", "statement": "For any set of reducers whose docstrings start and end on a new line, the file written by generate_dl1_config contains, apart from comment and blank lines, exactly one 'column: True/False' line per column; using it selects the same columns as using no configuration file.", "quantifier": "every set of reducers, columns and docstrings; with and without --bare", "why_tests_cant": "all docstring texts", "anchors": ["CHECLabPy/scripts/generate_dl1_config.py:main", "CHECLabPy/core/chain.py:WaveformReducerChain.default_columns"]}
{"id": "C23", "title": "Indexing a waveform reader", "statement": "For a reader with n events, reader[i] is event i for 0 <= i < n, event n+i for -n <= i < 0, and raises IndexError otherwise; iterating yields events 0..n-1 in order, which are reader[0..n-1]; len(reader) is n; a list index returns the events of its elements in order or raises IndexError.", "quantifier": "every number of events and every integer or list of integers", "why_tests_cant": "all n and i including both boundaries", "anchors": ["CHECLabPy/core/io/waveform.py:WaveformReader.__getitem__", "CHECLabPy/core/io/waveform.py:WaveformReader.__iter__"]}
{"id": "C24", "title": "Slicing a waveform reader", "statement": "reader[a:b:c] equals list(reader)[a:b:c] for every slice with any combination of omitted, negative and out-of-range bounds and any non-zero step; it never raises IndexError; step 0 raises ValueError.", "quantifier": "every number of events and every slice", "why_tests_cant": "all slices and sizes", "anchors": ["CHECLabPy/core/io/waveform.py:WaveformReader.__getitem__"]}
{"id": "C25", "title": "File type detection", "statement": "SimtelReader.is_compatible accepts a file iff its (gunzipped if gzip-marked) first four bytes are one of the two simtel markers, with the same answer on little- and big-endian hosts; WaveformReader.from_path returns the first class in declaration order that accepts the file, and a simtel file is never given to TIOReader unless its header also contains FITS.", "quantifier": "every file content", "why_tests_cant": "all byte strings and both host byte orders", "anchors": ["CHECLabPy/core/io/simtel.py:SimtelReader.is_compatible", "CHECLabPy/core/io/tio.py:TIOReader.is_compatible", "CHECLabPy/core/io/waveform.py:WaveformReader.from_path"]}
{"id": "C26", "title": "max_events truncates", "statement": "TIOReader with max_events=m >= 1 exposes exactly the first min(m, n) of the n events in the file; with None or 0 it exposes all of them.", "quantifier": "every n and every m", "why_tests_cant": "all pairs", "anchors": ["CHECLabPy/core/io/tio.py:TIOReader.__init__"]}
{"id": "C27", "title": "Event time stamps are exact to the nanosecond", "statement": "Waveform.t_cpu is exactly s*10^9+ns nanoseconds for every 32-bit unsigned second count s and nanosecond count ns, although it is computed through a double precision multiplication; hence time stamps are ordered and distinct whenever the (s, ns) pairs are.", "quantifier": "all 2^32 seconds and all nanoseconds", "why_tests_cant": "2^32 x 10^9 inputs; rounding of a product above 2^53", "anchors": ["CHECLabPy/core/io/waveform.py:Waveform.t_cpu"]}
{"id": "C28", "title": "Spectrum parameter lookup is correct for every illumination", "statement": "For every parameter list with distinct names and distinct expanded names and every number of illuminations, the value vector passed to the fit function, indexed by lookup[i][name], is the value of parameter name for illumination i: shared parameters resolve to one position for all illuminations, multi parameters to name+str(i); positions are a bijection onto the parameter names.", "quantifier": "every parameter list and every number of illuminations", "why_tests_cant": "all lists, multiplicities and counts above one digit", "anchors": ["CHECLabPy/core/spectrum_fitter.py:SpectrumParameterCollection._prepare_parameters"]}
{"id": "C29", "title": "Fit settings reflect the parameters", "statement": "After constructing a SpectrumParameterCollection, after update(), and after SpectrumFitter.load_config() or update_initial(), the start values, limits and fixed flags handed to the minimiser by apply() are those currently held by the parameters.", "quantifier": "every sequence of update / load_config / update_initial calls", "why_tests_cant": "all histories of reconfiguration", "anchors": ["CHECLabPy/core/spectrum_fitter.py:SpectrumParameterCollection.update", "CHECLabPy/core/spectrum_fitter.py:SpectrumFitter.load_config", "CHECLabPy/core/spectrum_fitter.py:SpectrumFitter.apply"]}
{"id": "C30", "title": "Fitter configuration round trip", "statement": "load_config of a file written by save_config gives any fitter with the same parameter names the same n_bins, range, initial values, limits and fixed flags as the saved one and reports no unused entries; loading a partial configuration changes only the settings it mentions, and every entry it does not recognise is reported.", "quantifier": "every fitter configuration and every (partial) configuration dict", "why_tests_cant": "all configurations and key subsets", "anchors": ["CHECLabPy/core/spectrum_fitter.py:SpectrumFitter.save_config", "CHECLabPy/core/spectrum_fitter.py:SpectrumFitter.load_config"]}
{"id": "C31", "title": "The fitted curve has the area of the histogram", "statement": "For each illumination fit_result_curve returns a curve whose trapezoidal integral over fit_x equals the trapezoidal integral of the charge histogram, provided the unnormalised spectrum has non-zero integral; the normalisation inside the likelihood does the same on the histogram grid.", "quantifier": "every histogram, grid and spectrum function", "why_tests_cant": "all real inputs", "anchors": ["CHECLabPy/core/spectrum_fitter.py:SpectrumFitter.fit_result_curve", "CHECLabPy/spectrum_fitters/gentile.py:SiPMGentileFitter._get_likelihood"]}
{"id": "C32", "title": "Welford's update computes mean and sum of squared deviations", "statement": "Folding welfords_online_algorithm over any sample list from (0, 0, 0) yields the arithmetic mean, the number of samples and the sum of squared deviations from that mean (exact arithmetic), and continuing from a state equals processing the concatenation.", "quantifier": "every finite list of samples", "why_tests_cant": "all lengths and values", "anchors": ["CHECLabPy/stats/welfords.py:welfords_online_algorithm"]}
{"id": "C33", "title": "Probability functions equal their textbook definitions", "statement": "binom(n,k) is the binomial coefficient for 0<=k<=n; poisson(k,mu) is mu^k e^-mu/k! for mu>0, is positive and sums to 1 over k; poisson_logpmf is its logarithm (with value 0 log 0 = 0); normal_pdf is positive, symmetric about the mean and maximal there, has logarithmic slope -(x-mean)/sigma^2 and integrates to 1.", "quantifier": "all integers n,k and all real parameters in the domain", "why_tests_cant": "infinite domains and an infinite series", "anchors": ["CHECLabPy/stats/pdf.py"]}
{"id": "C34", "title": "MAPM spectrum truncation is harmless", "statement": "mapm_spe evaluates a non-negative combination of normal densities whose weights sum to at most 1; every p.e. peak k<100 it omits has Poisson weight below 1e-4; peaks before the most probable one are never omitted. The area below the spectrum is the sum of the weights.", "quantifier": "all parameter values lambda>0 and all x", "why_tests_cant": "all real parameters, data-dependent loop exit", "anchors": ["CHECLabPy/spectrum_fitters/mapm.py:mapm_spe"]}
{"id": "C35", "title": "Gentile spectrum is a sub-probability mixture", "statement": "sipm_gentile_spe evaluates a non-negative combination of normal densities whose weights sum to at most 1 for every 0<=opct<=1 and lambda>0, and with opct=0 the weight of peak k is the Poisson weight (when above the 1e-4 cut). The area below the spectrum is at most 1.", "quantifier": "all parameter values in the fit limits and all x", "why_tests_cant": "all real parameters, nested data-dependent loops", "anchors": ["CHECLabPy/spectrum_fitters/gentile.py:sipm_gentile_spe"]}
{"id": "C36", "title": "AmplitudeMatcher only commands DACs in range", "statement": "Starting from DACs in [10,255], every DAC value AmplitudeMatcher.process ever returns is in [10,255], whatever amplitudes are measured.", "quantifier": "every measurement history, every number of superpixels", "why_tests_cant": "all closed-loop histories", "anchors": ["CHECLabPy/calib/amplitude_matcher.py:AmplitudeMatcher._get_next_dac_nb", "CHECLabPy/calib/amplitude_matcher.py:AmplitudeMatcher.process"]}
{"id": "C37", "title": "AmplitudeMatcher protocol", "statement": "A masked (bad HV) superpixel is commanded to 255 from the first step on; within a pass a finished superpixel's DAC does not change and stages never go back; process reports completion only after two full passes, and from then on returns the same DACs for ever.", "quantifier": "every measurement history", "why_tests_cant": "all histories", "anchors": ["CHECLabPy/calib/amplitude_matcher.py:AmplitudeMatcher.process"]}
{"id": "C38", "title": "AmplitudeMatcher terminates", "statement": "For every camera response the matching loop reports completion after a bounded number of iterations.", "quantifier": "every camera response (function from DAC to measured amplitude) and starting point", "why_tests_cant": "termination over all responses", "anchors": ["CHECLabPy/calib/amplitude_matcher.py:AmplitudeMatcher._get_next_dac_nb"]}
{"id": "C39", "title": "AmplitudeMatcher keeps the best DAC it tried", "statement": "For a time-independent response, when a superpixel finishes a pass without hitting the DAC limits its DAC is one whose relative squared distance to the aim is minimal among all DACs tried in that pass.", "quantifier": "every response and starting point", "why_tests_cant": "all responses", "anchors": ["CHECLabPy/calib/amplitude_matcher.py:AmplitudeMatcher._get_next_dac_nb"]}
{"id": "C40", "title": "AmplitudeMatcher accepts a per-pixel bad HV mask", "statement": "When bad_hv is given per pixel, a superpixel is masked iff all four of its pixels are.", "quantifier": "every per-pixel mask", "why_tests_cant": "all masks", "anchors": ["CHECLabPy/calib/amplitude_matcher.py:AmplitudeMatcher.__init__"]}
{"id": "C41", "title": "Rolling baseline", "statement": "After at least n_base calls of BaselineSubtractor.subtract the baseline of a pixel is the mean of the first n_base_samples samples of its last n_base waveforms (including the current one); before that, the not yet replaced entries are those of the first n_base events of the source (zero if the source is shorter); subtract returns waveforms minus that baseline.", "quantifier": "every event history, n_base, n_base_samples, number of pixels", "why_tests_cant": "all histories and ring-buffer phases", "anchors": ["CHECLabPy/utils/waveform.py:BaselineSubtractor"]}
{"id": "C42", "title": "shift_array and shift_waveform", "statement": "shift_array(arr, k, fill)[p][j] is arr[p][j-k] when 0<=j-k<n_samples and fill otherwise, for every integer k of any size or sign; shift_waveform moves the maximum of the average waveform to t_shift whenever 0<=t_shift<n_samples and the fill value is below that maximum.", "quantifier": "every array, shift and fill value", "why_tests_cant": "all shifts incl. |k| >= n_samples", "anchors": ["CHECLabPy/utils/waveform.py:shift_array", "CHECLabPy/utils/waveform.py:shift_waveform"]}
{"id": "C43", "title": "Average waveform of a file", "statement": "get_average_wf(source, t) is the mean over events and pixels of the baseline-subtracted, shifted waveforms and equals the pixel mean of get_average_wf_per_pixel(source, t).", "quantifier": "every source with at least one event", "why_tests_cant": "all event streams", "anchors": ["CHECLabPy/utils/waveform.py:get_average_wf", "CHECLabPy/utils/waveform.py:get_average_wf_per_pixel"]}
{"id": "C44", "title": "Pixel masks round trip and merge", "statement": "Saving pixel masks and loading them (merge=False) restores dead, low and bad_hv exactly; loading with merge=True yields the element-wise OR, so no masked pixel is ever unmasked by any sequence of merges and their order does not matter; all_mask is true for a pixel iff it is dead, low or in a bad-HV superpixel.", "quantifier": "every mask content and every sequence of merges", "why_tests_cant": "2^2048 masks and all merge histories", "anchors": ["CHECLabPy/calib/pixel_masks.py:PixelMasks"]}
{"id": "C45", "title": "The default pixel mask is the last committed one", "statement": "After any sequence of PixelMasks.commit() calls at non-decreasing clock times (within a century) over files not newer than the first of them, PixelMasks() loads the masks of the last commit.", "quantifier": "every history of commits, every directory listing order and every installation path (free of glob characters and superscript digits)", "why_tests_cant": "all histories; depends on string sorting of paths", "anchors": ["CHECLabPy/calib/pixel_masks.py:PixelMasks._load_file", "CHECLabPy/calib/pixel_masks.py:PixelMasks.commit", "CHECLabPy/utils/files.py:sort_file_list"]}
{"id": "C46", "title": "Superpixel and module expansion", "statement": "convert_superpixels_to_pixels lists, for each given superpixel in order, its four pixels 4s..4s+3, and convert_module_to_pixels the 64 pixels 64m..64m+63; masking those pixels agrees with repeating the per-superpixel mask.", "quantifier": "every list of superpixels/modules", "why_tests_cant": "all lists", "anchors": ["CHECLabPy/calib/pixel_masks.py:PixelMasks.convert_superpixels_to_pixels", "CHECLabPy/calib/pixel_masks.py:PixelMasks.convert_module_to_pixels"]}
{"id": "C47", "title": "Natural sorting of file lists", "statement": "sort_file_list returns a permutation of its input ordered so that embedded decimal numbers compare by value, is stable, never compares a number with a text, and orders Run<n> names numerically; it fails, with ValueError, exactly when some name contains a run of superscript digits not adjacent to other non-digits.", "quantifier": "every list of file names over Latin-1", "why_tests_cant": "all lists of strings", "anchors": ["CHECLabPy/utils/files.py:natural_keys", "CHECLabPy/utils/files.py:sort_file_list"]}
{"id": "C48", "title": "HV configuration files are read back exactly", "statement": "extract_hv_cfg applied to a file that contains, in any order and mixed with unrelated lines, M:tm/F/S:sp|HV=v and ...|HVOn=v lines for distinct superpixels returns v at [tm, sp] of dac and hvon and 0 for superpixels without a line; later lines win over earlier ones.", "quantifier": "every configuration of 32x16 superpixels and every line order", "why_tests_cant": "all line orders and values", "anchors": ["CHECLabPy/utils/files.py:extract_hv_cfg"]}
{"id": "C49", "title": "Time correction is exact linear interpolation", "statement": "For a pixel with a non-integer time correction c, apply_t_cor returns at sample i the linear interpolation of its waveform at i-c, extrapolated linearly from the two outermost samples beyond the ends; on affine waveforms it is exactly the shifted waveform; other pixels do not influence it.", "quantifier": "every waveform with at least two samples and every non-integer correction", "why_tests_cant": "all reals and all boundary positions", "anchors": ["CHECLabPy/calib/time_calibrator.py:apply_t_cor"]}
{"id": "C50", "title": "A zero or integer time correction shifts by whole samples", "statement": "A pixel whose time correction is 0 keeps its waveform, and an integer correction shifts it by whole samples.", "quantifier": "every waveform and integer correction", "why_tests_cant": "boundary case of a floating comparison for all waveforms", "anchors": ["CHECLabPy/calib/time_calibrator.py:apply_t_cor"]}
{"id": "C51", "title": "Amplitude calibration and illumination profile are invertible", "statement": "AmplitudeCalibrator maps the pedestal to 0 and pedestal+conversion to ff, is affine per pixel and order preserving for positive ff/conversion; IlluminationProfile.fold and unfold are inverse to each other where the profile is non-zero.", "quantifier": "all real values and coefficients", "why_tests_cant": "all reals", "anchors": ["CHECLabPy/calib/amplitude_calibrator.py:AmplitudeCalibrator.__call__", "CHECLabPy/calib/illumination_profile.py:IlluminationProfile"]}
{"id": "C52", "title": "SiPM data sheet conversion", "statement": "SiPMDataSheetConverter requires exactly one named value (ValueError otherwise); on a table without gaps the returned value of the given quantity is the value itself, at a tabulated point the other quantities are the tabulated ones, in between they lie between the neighbouring tabulated values; outside the table ValueError is raised.", "quantifier": "every argument combination, every table with increasing key column, every value", "why_tests_cant": "all reals and tables", "anchors": ["CHECLabPy/calib/sipm_data_sheet.py:SiPMDataSheetConverter.__call__"]}
{"id": "C53", "title": "AverageWF integrates a window inside the readout", "statement": "For waveforms of at least 20 samples the extraction time is the argmax of the average waveform clamped to [10, n-10] and charge_averagewf is, per pixel, the sum of the window_size samples from t-window_shift (defaults 6 and 3), which all lie inside the readout; an explicit t_extract behaves likewise when its window lies inside.", "quantifier": "every event with n_samples >= 20, every window with shift <= 10 and size-shift <= 10", "why_tests_cant": "all waveforms, boundary positions", "anchors": ["CHECLabPy/waveform_reducers/average_wf.py:AverageWF"]}
{"id": "C54", "title": "Pulse times stay inside the readout window", "statement": "extract_pulse_time returns a time in [0, n_samples) for every waveform and every peak index in range (whatever value an out-of-bounds neighbour read yields), equals the vertex of the parabola through the three samples around the peak, and is within half a sample of the peak when the peak is a strict local maximum.", "quantifier": "every waveform and peak index", "why_tests_cant": "all reals and boundary peaks", "anchors": ["CHECLabPy/waveform_reducers/cross_correlation.py:extract_pulse_time"]}
{"id": "C55", "title": "Cross-correlation charge is calibrated", "statement": "For a waveform that is A>0 times the unit-area reference pulse placed fully inside the readout with its maximum at sample t, charge_cc_local is exactly A, the peak is found at a sample where the correlation equals A (t attains it), and height_cc_local is A times the maximum of the 1 p.e. pulse; the cross correlation is linear in the waveform.", "quantifier": "every reference pulse, amplitude, position and readout length", "why_tests_cant": "Cauchy-Schwarz argument over all pulse shapes", "anchors": ["CHECLabPy/waveform_reducers/cross_correlation.py:CrossCorrelation._load_reference_pulse", "CHECLabPy/waveform_reducers/cross_correlation.py:CrossCorrelationLocal._prepare"]}
{"id": "C56", "title": "Sliding window finds the best window", "statement": "charge_sliding_local is, per pixel, the maximum over all start samples of the sum of window_size consecutive samples (zero beyond the end), attained at the window whose start is used for the pulse time; for SlidingWindow the common window start maximises that sum for the average waveform.", "quantifier": "every waveform and window size", "why_tests_cant": "all waveforms and window sizes, even and odd", "anchors": ["CHECLabPy/waveform_reducers/sliding_window.py"]}
{"id": "C57", "title": "Superpixel columns", "statement": "sp_max and sp_argmax have one entry per pixel, equal for the four pixels of a superpixel, namely the maximum and first maximising sample of the sum of their four waveforms.", "quantifier": "every event with 4*k pixels", "why_tests_cant": "all events", "anchors": ["CHECLabPy/waveform_reducers/superpixel.py:SPAmplitude"]}
{"id": "C58", "title": "Flasher flag", "statement": "flasher_unit is -1 iff for some flasher module the average pulse height is below 30 mV, and otherwise the index (0..3) of the module with the largest average; a camera without these modules is never flagged as a flasher event.", "quantifier": "every event", "why_tests_cant": "all events and camera sizes", "anchors": ["CHECLabPy/waveform_reducers/flag_flasher.py:FlagFlashers"]}
{"id": "C59", "title": "Pulse timing columns", "statement": "When the peak sample in the search window is a strict local maximum, t_pulse is within half a sample of it and the interpolated amplitude is at least the sampled one; whenever both are found, the left half-maximum crossing does not come after the right one, so fwhm >= 0, and t_rise >= 0 when the pulse height is not negative and the sample nearest the pulse is above 90% of it.", "quantifier": "every waveform", "why_tests_cant": "all waveforms; data-dependent crossing searches", "anchors": ["CHECLabPy/waveform_reducers/timing.py:obtain_pulse_timing"]}
{"id": "C60", "title": "NNLS terminates with a non-negative solution", "statement": "For every model matrix and waveform the active set solver nnls stops after at most maxit outer iterations (each with finitely many inner ones), the passive and active sets stay a partition of the columns, and the returned coefficients are all non-negative, whatever least-squares solutions are returned to it (short of the degenerate 0/0 step).", "quantifier": "every matrix, waveform, tolerance and least-squares oracle", "why_tests_cant": "data-dependent nested loops over all inputs", "anchors": ["CHECLabPy/waveform_reducers/nnls_pulse_extraction.py:nnls"]}
{"id": "C61", "title": "NNLS charges add up", "statement": "charge_nnls = nnls_tcharge + nnls_tccharge for every pixel, nnls_tmcharge <= nnls_tcharge, nnls_npulses counts the positive pulses; merging pulses conserves total charge and keeps merged times within the merged range.", "quantifier": "every set of extracted pulses", "why_tests_cant": "all pulse sets", "anchors": ["CHECLabPy/waveform_reducers/nnls_pulse_extraction.py:NNLSPulseExtraction._prepare", "CHECLabPy/waveform_reducers/nnls_pulse_extraction.py:NNLSPulseExtraction._merge_pulses"]}
{"id": "C62", "title": "Charge resolution is independent of batching and order", "statement": "However the entries are split into add() calls, ordered, and amalgamated (memory threshold), ChargeResolution.finish() returns one row per distinct (pixel, true!=0) with the sum of squared residuals and the number of its entries, and one row per distinct true for the camera; calling finish() again, or adding more and finishing, is consistent with adding everything first.", "quantifier": "every sequence of add/finish calls and every memory threshold", "why_tests_cant": "all batchings, orders and thresholds", "anchors": ["CHECLabPy/utils/resolutions.py:ChargeResolution"]}
{"id": "C63", "title": "Charge statistics", "statement": "ChargeStatistics.finish() returns per (pixel, amplitude) and per amplitude the mean and the population variance of all contributed charges, independent of batching and order; the variance under the square root is never negative in exact arithmetic.", "quantifier": "every sequence of add calls and every memory threshold", "why_tests_cant": "all batchings and values", "anchors": ["CHECLabPy/utils/resolutions.py:ChargeStatistics"]}
{"id": "C64", "title": "Superpixel and module mappings", "statement": "get_superpixel_mapping (get_tm_mapping) returns one row per superpixel (module) in increasing order with the mean position of its pixels and the block row/column of its first pixel, n_rows/n_columns large enough to hold every row and column, doubled (x8) size, and leaves the pixel mapping and its metadata unchanged; on a mapping made of aligned 2x2 (8x8) blocks distinct superpixels get distinct cells.", "quantifier": "every pixel mapping", "why_tests_cant": "all mappings", "anchors": ["CHECLabPy/utils/mapping.py:get_superpixel_mapping", "CHECLabPy/utils/mapping.py:get_tm_mapping"]}
{"id": "C65", "title": "Simtel pixels are reordered by camera position", "statement": "If the simtel geometry and the CHECLabPy mapping occupy the same grid cells with one pixel per cell, SimtelReader.pixel_order is a permutation and the waveform returned for pixel p is that of the simtel pixel located in the cell of p.", "quantifier": "every pair of geometries", "why_tests_cant": "all permutations of pixels", "anchors": ["CHECLabPy/core/io/simtel.py:SimtelReader.__init__", "CHECLabPy/core/io/simtel.py:SimtelReader._build_waveform"]}
{"id": "C66", "title": "Camera image placement", "statement": "CameraImageImshow shows each pixel's value in its own (row, col) cell, leaves cells without a pixel at zero or masked, masks exactly the four empty corners for the three known camera granularities, and never hides a pixel value.", "quantifier": "every mapping with one pixel per cell and every image", "why_tests_cant": "all images and mappings", "anchors": ["CHECLabPy/plotting/camera.py:CameraImageImshow.image", "CHECLabPy/plotting/camera.py:CameraImageImshow.mask"]}
{"id": "C67", "title": "SPE extraction does not depend on the process schedule", "statement": "extract_spe stores for each pixel the fit result of that pixel's charges, whatever the number of worker processes and the order in which they handle and complete pixels; the stored tables list pixels in the same order for every schedule.", "quantifier": "every number of workers and every interleaving of pixel completions", "why_tests_cant": "all schedules", "anchors": ["CHECLabPy/scripts/extract_spe.py:PixelFitApplier", "CHECLabPy/scripts/extract_spe.py:main"]}
{"id": "C68", "title": "Charge resolution curves are ordered", "statement": "For every charge in the range where both are defined, Poisson limit < goal < requirement; each curve is undefined exactly above its defined range.", "quantifier": "all real charges > 0", "why_tests_cant": "continuum of charges", "anchors": ["CHECLabPy/plotting/resolutions.py:ChargeResolutionPlotter"]}
{"id": "C69", "title": "Monitor columns are matched to events", "statement": "get_matched_monitor_column returns for each DL1 row the monitor value of the entry its index column points to, from the first monitor table (camera, module, pixel) that has the column, and raises KeyError when none has it; get_average is the per-device mean; a whole table is loaded unless it is above 8 GB and loading is not forced, which raises MemoryError.", "quantifier": "every monitor content and column", "why_tests_cant": "all tables", "anchors": ["CHECLabPy/core/io/dl1_reader.py:DL1Reader.get_matched_monitor_column", "CHECLabPy/core/io/dl1_reader.py:DeprecatedMonitorReader"]}
{"id": "C70", "title": "Saturation sum window", "statement": "saturation_sum is, per pixel, the sum of the samples from window_shift before the peak of the average waveform (clamped to [10, n-10]) to the end of the readout, also when the reducer runs inside a WaveformReducerChain.", "quantifier": "every event with n_samples >= 20, every shift <= 10, every chain configuration", "why_tests_cant": "every event and the interplay of reducer arguments with column switches", "anchors": ["CHECLabPy/waveform_reducers/saturation.py:Saturation.saturation_sum", "CHECLabPy/core/chain.py:WaveformReducerChain"]}
{"id": "C71", "title": "Baseline and waveform columns", "statement": "Adding a constant to a pixel's waveform adds it to the mean and maximum columns and leaves the rms columns unchanged; variances are never negative, the mean lies between the smallest sample and the maximum; the baseline columns use exactly the first and the last 20 samples.", "quantifier": "every waveform and constant", "why_tests_cant": "all waveforms", "anchors": ["CHECLabPy/waveform_reducers/common.py:Common"]}
{"id": "C72", "title": "NNLS optimality", "statement": "When the least-squares answers satisfy the normal equations and nnls ends by itself before maxit, the returned non-negative coefficients minimise the squared residual |A x - b|^2 among all non-negative vectors z, up to the tolerance: |A x - b|^2 <= |A z - b|^2 - 2 * tolerance * sum(z).", "quantifier": "every matrix, waveform, tolerance <= 0 and competitor z", "why_tests_cant": "optimality is a statement about all competing vectors", "anchors": ["CHECLabPy/waveform_reducers/nnls_pulse_extraction.py:nnls"]}
{"id": "C73", "title": "Pixel rows and columns from positions", "statement": "For pixels on a regular n x n grid, in any order and not necessarily filling it, where the first pixel has a direct neighbour, some column is complete, complete columns have the numbers of complete rows and no coordinate is zero, get_row_column returns the row and column of every pixel. (Without the last conditions it does not: a filled grid with different numbers of rows and columns always raises ValueError, and a pixel 0.3 of the pitch off its column is put in the next one.)", "quantifier": "every grid origin, pitch, size, set of occupied cells and pixel order", "why_tests_cant": "all geometries; the tests and the real camera only have square symmetric grids", "anchors": ["CHECLabPy/utils/mapping.py:get_row_column"]}
{"id": "C74", "title": "The likelihood depends on the shape of a spectrum only and is least for the histogram itself", "statement": "In _get_likelihood the spectrum is rescaled to the trapezoidal integral of the histogram, so multiplying a spectrum by any non-zero constant does not change the value; no positive spectrum reaches a smaller value than the sum over bins of -2 poisson_logpmf(n, n), and only a spectrum proportional to the histogram reaches it.", "quantifier": "every histogram, every binning, every positive spectrum", "why_tests_cant": "all real spectra of all lengths; tests compare one value against a stored number", "anchors": ["CHECLabPy/spectrum_fitters/gentile.py:_get_likelihood", "CHECLabPy/spectrum_fitters/mapm.py:_get_likelihood", "CHECLabPy/stats/pdf.py:poisson_logpmf"]}
{"id": "C75", "title": "Camera mapping survives the file", "statement": "For every sequence of writer calls in which no table is written under the reserved key 'mapping', the reader's get_mapping() returns the table given to the last add_mapping() call, together with the metadata attached to that mapping (or, if add_metadata(key='mapping') was also used, with the dict of the last values given there); if neither add_mapping nor metadata for that key occurred, get_mapping() raises KeyError.", "quantifier": "all call sequences on HDF5Writer (any interleaving with append, write and add_metadata), all tables and dicts, any order of the key set at finish()", "why_tests_cant": "A test stores one mapping in one file; interleavings with buffered appends, repeated add_mapping calls and metadata on the same key are unbounded.", "anchors": ["CHECLabPy/core/io/hdf5_writer.py:131-140", "CHECLabPy/core/io/hdf5_writer.py:180-205", "CHECLabPy/core/io/hdf5_reader.py:116-130"]}
{"id": "C76", "title": "A DL1 file keeps everything but the events: mapping, configuration, metadata and simulation tables", "statement": "After DL1Writer.write_dl1_file over a reader and reopening the file with DL1Reader: the mapping read back is the reader's mapping with its metadata; the 'config' metadata has exactly the entries of the reducer chain's configuration; the 'metadata' entries not set by the writer are those of the extractor, and n_modules, n_pixels and n_superpixels_per_module are the reader's. For a simulation the tables 'mc' and 'pointing' have exactly one row per processed (not skipped) event, in event order, with that event's number and values, and the 'mcheader' metadata equals the reader's header; otherwise the file has no such tables (reading them is a KeyError).", "quantifier": "all waveform runs with at least one kept event and increasing 32-bit event numbers, all extractors, all flush patterns of the writer's buffers and key orders", "why_tests_cant": "The three tables are flushed independently depending on memory sizes; tests use files too small to trigger a flush and never read mc/pointing back.", "anchors": ["CHECLabPy/scripts/extract_dl1.py:36-91", "CHECLabPy/core/io/hdf5_writer.py:63-130", "CHECLabPy/core/io/hdf5_reader.py:60-130"]}
{"id": "C77", "title": "AmplitudeMatcher moves in steps of 10, 5 and 1 DAC towards the aim", "statement": "For a superpixel that is neither masked nor finished, one call of process commands: if the mean amplitude of its four pixels over all events has a larger relative squared distance to the aim than at the previous call of the same pass, the DAC before the present one, and the step size goes down one stage (10, 5, 1, finished); otherwise the present DAC plus the step if the mean is above the aim, minus the step if it is below, unchanged if equal, or 255 (and finished) when that leaves [10,255]. Consequently, along every history an unmasked DAC changes between successive calls by 0, 1, 5 or 10 or becomes 255, and in the second pass by at most 1.", "quantifier": "every reachable matcher state, every amplitude array, every measurement history", "why_tests_cant": "The DAC trajectory depends on the whole history of measured amplitudes; a test follows one.", "anchors": ["CHECLabPy/calib/amplitude_matcher.py:AmplitudeMatcher._calculate_average", "CHECLabPy/calib/amplitude_matcher.py:AmplitudeMatcher._get_next_dac_nb", "CHECLabPy/calib/amplitude_matcher.py:AmplitudeMatcher.process"]}
{"id": "C78", "title": "The fitted histogram counts every charge in its own bin", "statement": "SpectrumFitter.apply(*charges) with as many charge arrays as illuminations, n_bins >= 1 and range lo <= hi leaves, for every illumination, a histogram of n_bins entries whose k-th entry is the number of charges of that array with edge[k] <= charge < edge[k+1] (<= for the last bin), also when the index computed in floating point is one off; charges outside the range and NaN are in no bin, every other charge in exactly one; the abscissae are the centres of the same edges for all illuminations; lo = hi is widened by 1/2 on both sides. A different number of arrays is an AssertionError that changes nothing; n_bins < 1 or lo > hi is a ValueError.", "quantifier": "all charge arrays (with NaN), all ranges and bin numbers, all roundings of the bin index by at most one, every number of illuminations", "why_tests_cant": "Charges on or next to a bin edge, for which the floating point index can be off, are not hit by tests; all arrays and ranges.", "anchors": ["CHECLabPy/core/spectrum_fitter.py:256-280"]}
{"id": "C79", "title": "Each illumination is compared with its own spectrum", "statement": "For the parameter values chosen by the minimiser, the i-th spectrum of _get_spectra is the spectrum function evaluated with the shared parameters and lambda_<i> (so the illumination of one file does not enter the spectrum of another), and the likelihood is the sum over i of the likelihood of histogram i under spectrum i, for both fitters, whatever settings their parameters have.", "quantifier": "every number of illuminations, all parameter values and settings, all abscissae and histograms", "why_tests_cant": "Tests fit two or three illuminations; the positions of the parameters depend on their number.", "anchors": ["CHECLabPy/spectrum_fitters/gentile.py:27-58", "CHECLabPy/spectrum_fitters/mapm.py:26-56", "CHECLabPy/core/spectrum_fitter.py:74-99"]}
{"id": "C80", "title": "The initial values stored with the SPE fits are those the fits started from", "statement": "The dictionary 'initial' that extract_spe stores in the metadata has exactly one entry for each name of the fit result, and it is the value from which the fit of that parameter started.", "quantifier": "every number of illuminations, both fitters, every configuration file", "why_tests_cant": "The stored values look plausible in every single file; the disagreement only shows when they are compared with what the minimiser was given.", "anchors": ["CHECLabPy/scripts/extract_spe.py:118-131", "CHECLabPy/scripts/extract_spe.py:184-190", "CHECLabPy/core/spectrum_fitter.py:143-172"]}
{"id": "C81", "title": "Skipped events leave no trace in the DL1 data", "statement": "What extract_dl1 stores for a kept event is the chain applied to its time-corrected waveforms minus the mean of the first 16 samples over the last 50 kept events, so two runs with the same kept events give the same DL1 rows whatever their stale or incomplete events contain.", "quantifier": "all runs: every sequence of kept, stale and incomplete events, every number of pixels and samples, every chain, with and without time correction", "why_tests_cant": "The influence of a skipped event is a small shift of the baseline that no reference file shows; it depends on the position of the event in the run.", "anchors": ["CHECLabPy/scripts/extract_dl1.py:48-57", "CHECLabPy/scripts/extract_dl1.py:99-112", "CHECLabPy/scripts/extract_dl1.py:146-174", "CHECLabPy/utils/waveform.py"]}
{"id": "C82", "title": "Every input of extract_dl1 ends up in a DL1 file", "statement": "After extract_dl1 has processed a list of input files without an error, the reduced data of every one of them are in some DL1 file, the inputs are unchanged and no other file has been touched.", "quantifier": "every list of input paths, every state of the disk, with and without -o", "why_tests_cant": "Tests reduce one file; the loss needs several inputs and looks like success.", "anchors": ["CHECLabPy/scripts/extract_dl1.py:33-42", "CHECLabPy/scripts/extract_dl1.py:200-210"]}
{"id": "C83", "title": "The SPE fit of a pixel uses exactly that pixel's charges", "statement": "The charges that extract_spe takes for pixel p from a DL1 file are, for every event of the file in order, the charge stored for pixel p; the histogram of illumination i for the fit of pixel p counts in each bin the events of file i whose charge of pixel p lies in that bin.", "quantifier": "all DL1 files written by extract_dl1, every number of files, pixels and events, every number of bins and range", "why_tests_cant": "A wrong reshape mixes pixels in a way that leaves the total histogram unchanged.", "anchors": ["CHECLabPy/scripts/extract_spe.py:20-40", "CHECLabPy/scripts/extract_spe.py:105-120", "CHECLabPy/core/spectrum_fitter.py"]}
{"id": "C84", "title": "A reference pulse tabulated in nanoseconds is loaded with all its samples", "statement": "The cross-correlation reducer loads a reference pulse file with at least four rows, abscissae in seconds from 0 (or before) up to N ns, without an error, and samples the pulse at the N + 1 times 0, 1, ..., N ns (up to a relative error of 2^-50), none outside the table.", "quantifier": "every table of finite doubles and every length below 2^32 ns, in binary64 arithmetic with all roundings", "why_tests_cant": "Whether the last sample survives depends on the rounding of one division and one product for that very length; a test with the shipped file says nothing about another.", "anchors": ["CHECLabPy/waveform_reducers/cross_correlation.py:68-80"]}
{"id": "C85", "title": "The NNLS template starts on a line through the origin and fades linearly to zero", "statement": "After loading, the template of the NNLS reducer is the straight line from the origin to its fifth point, unchanged up to the tenth last point, and from there on the straight line that reaches zero after another x[10]; for a table in equal steps from 0 the tail reaches zero one step after the last point.", "quantifier": "every table of at least 15 points with nonzero 5th and 11th abscissa; an error for 10 points or fewer", "why_tests_cant": "The two adjustments use negative indices from different ends; an index off by one is hidden by the smoothness of real pulses.", "anchors": ["CHECLabPy/waveform_reducers/nnls_pulse_extraction.py:55-73"]}
{"id": "C86", "title": "The NNLS candidate pulses cover the readout at bases_bin per nanosecond", "statement": "The candidate pulse times of the NNLS reducer are equally spaced from minus the length of the template to 126 ns, with at least bases_bin of them per nanosecond, so that every pulse time of the range is within half of 1 ns / bases_bin of a candidate; each column of the model matrix is the template shifted to its time; a template without a positive value is refused.", "quantifier": "every template function and every bases_bin >= 1", "why_tests_cant": "A coarser grid of candidates still fits pulses, only with a larger time error.", "anchors": ["CHECLabPy/waveform_reducers/nnls_pulse_extraction.py:29-40"]}
{"id": "C87", "title": "plot_spe shows each pixel its own fit results", "statement": "Plotting an SPE file with plot_spe paints on each pixel of the camera images the fitted value and error of that pixel, and draws the spectrum of the requested pixel from that pixel's own fit, whatever number of processes extract_spe used and however they were scheduled; a pixel that is not in the file is refused.", "quantifier": "every fit function, number of pixels, distribution over processes and interleaving of their steps", "why_tests_cant": "The order of the rows depends on the scheduling of the processes; a scrambled camera image looks like any other.", "anchors": ["CHECLabPy/scripts/plot_spe.py:28-30", "CHECLabPy/scripts/plot_spe.py:60-86", "CHECLabPy/plotting/camera.py:72-82", "CHECLabPy/scripts/extract_spe.py:27-63"]}
{"id": "C88", "title": "Colour limits of a camera image follow the image or the user", "statement": "After set_limits_minmax the limits of a camera image stay as given through every later image and change of scale until reset_limits; otherwise they are the smallest and the largest finite value of the image on display (of its positive values on a logarithmic scale). An image of the wrong size is refused. This holds for CameraImage and CameraImageImshow.", "quantifier": "every sequence of calls and every image, with values that are not finite", "why_tests_cant": "The limits depend on the history of the calls; a wrong range only makes colours misleading.", "anchors": ["CHECLabPy/plotting/camera.py:39-42", "CHECLabPy/plotting/camera.py:72-82", "CHECLabPy/plotting/camera.py:118-134", "CHECLabPy/plotting/camera.py:389-414"]}
{"id": "C89", "title": "The pixel waveform page outlines the modules, and highlighting can be undone", "statement": "On the page of pixel waveforms a side of a pixel is drawn exactly if the neighbour on that side is in another module; highlight_pixels marks exactly the pixels of the mask; after any highlighting reset_pixel_highlight restores the page as it was made.", "quantifier": "every camera, every mapping and every sequence of masks and colours", "why_tests_cant": "Only the one camera type is ever plotted; the lines are read by people.", "anchors": ["CHECLabPy/plotting/waveform.py:193-243", "CHECLabPy/plotting/waveform.py:267-297"]}
{"id": "C90", "title": "The module waveform page lists the weak pixels of each module", "statement": "Each module is placed at its row and column, with rows upwards; under its number the page lists exactly those of its pixels whose largest sample is below the given fraction of the largest sample of the waveform averaged over the camera; in each row of modules exactly one y axis is drawn and in each column exactly one x axis. Waveforms that do not fill whole modules, or lack a module of the mapping, are refused.", "quantifier": "every mapping, every set of waveforms and every fraction", "why_tests_cant": "A dead pixel missing from the list is not noticed by looking at the page.", "anchors": ["CHECLabPy/plotting/waveform.py:54-58", "CHECLabPy/plotting/waveform.py:91-189"]}
{"id": "C91", "title": "The rolling baseline does not drift in double precision", "statement": "With its additions and division rounded to double precision, in whatever order numpy adds, the baseline of BaselineSubtractor differs from the exact mean of the averaged samples by at most ((1+2^-53)^N - 1)(B + 2^-1022), N the number of averaged samples and B a bound of them, however many events were processed; the possible values depend on the last n_base events only. For raw (integer) samples, or any samples on a common grid within the precision, it is the exact mean rounded once and so independent of the order.", "quantifier": "every source, every number of events, every order of the additions", "why_tests_cant": "Rounding errors that add up over a run of millions of events do not show in a test of ten events.", "anchors": ["CHECLabPy/utils/waveform.py:8-36"]}
{"id": "C92", "title": "The extracted charges are exact up to rounding", "statement": "In double precision, in whatever order the products are added: the locally extracted charges (cross correlation, sliding window) differ from the exact maximum by at most the rounding error of one correlation; a pulse of amplitude A with a disturbance of each sample and an inexact reference pulse yields A within the sum of their effects; the common peak found in the rounded average is a maximum of the exact average up to twice the error, and is the exact one if that stands out; likewise for the window of the average waveform and the means of the samples.", "quantifier": "every waveform, every reference pulse, every order of the additions", "why_tests_cant": "Which order is used depends on the array layout and the processor the test runs on.", "anchors": ["CHECLabPy/waveform_reducers/cross_correlation.py:92-99", "CHECLabPy/waveform_reducers/cross_correlation.py:132-140", "CHECLabPy/waveform_reducers/sliding_window.py:63-84", "CHECLabPy/waveform_reducers/average_wf.py:15-47", "CHECLabPy/waveform_reducers/common.py:9-42"]}
{"id": "C93", "title": "The binned resolution curves are averages of all values of their bins", "statement": "In the curves of charge resolution and mean charge every kept value enters exactly one plotted point; each point is the mean of x and of y of the values of one bin that is not empty, its error the errors added in quadrature over their number; x lies in its bin and increases along the curve; plot_pixel uses the rows of that pixel only. In the curves of the mean charge, charges that are between a and b times the true charge give ratios between a and b, and the line at 1 spans exactly the x of all curves drawn.", "quantifier": "every store and every strictly increasing edges from 0.1 to the largest charge", "why_tests_cant": "A value that falls out of the bins leaves a smooth curve that only differs slightly.", "anchors": ["CHECLabPy/plotting/resolutions.py:7-21", "CHECLabPy/plotting/resolutions.py:30-64", "CHECLabPy/plotting/resolutions.py:197-240"]}
{"id": "C94", "title": "A run list opens the files of its own runs", "statement": "open_runlist_r1 and open_runlist_dl1 give each row the file Run with the run number in at least five digits next to the run list itself; different runs and different kinds never share a file; natural sorting of the files orders them by run; the k-th reader is that of the k-th run, and the first file that cannot be opened is the error.", "quantifier": "every path of the run list and every list of runs", "why_tests_cant": "A template built from a directory name behaves differently only for directories nobody tests.", "anchors": ["CHECLabPy/utils/files.py:31-50", "CHECLabPy/utils/files.py:53-68"]}
{"id": "C95", "title": "The time correction interpolates in floating point", "statement": "In double and in single precision, a correction that is not a whole number of samples yields every sample within a waveform as the point of the line through its two neighbours, up to 6 units of rounding of the largest sample plus the rounding of the position, and not outside the range of the two neighbours; constant waveforms stay as they are.", "quantifier": "every waveform, every correction, both precisions", "why_tests_cant": "Rounding makes the difference only for corrections smaller than any a test uses, and for samples of very different size.", "anchors": ["CHECLabPy/calib/time_calibrator.py:7-29"]}
{"id": "C96", "title": "An event keeps what it knows of itself", "statement": "Through any calculation on events and plain arrays the result has the event number, flags, first cell, times and true charges of the first event in it; a calculation without an event has none. A calibrated raw event is marked as calibrated. After any sequence of accesses the containers of a simulation (mc, pointing) and each row of the tables written from them belong to the event read last, the header is that of the run, and events read before keep their own values. Slow control values are given exactly for modules and superpixels that exist.", "quantifier": "every calculation, every file, every sequence of accesses", "why_tests_cant": "Attributes lost in one of many numpy operations show up only where they are read, often as None.", "anchors": ["CHECLabPy/core/io/waveform.py:8-41", "CHECLabPy/core/io/waveform.py:68-84", "CHECLabPy/calib/waveform.py:15-27", "CHECLabPy/core/io/tio.py:79-93", "CHECLabPy/core/io/tio.py:128-188", "CHECLabPy/core/io/simtel.py:84-103", "CHECLabPy/core/io/simtel.py:120-186"]}
{"id": "C97", "title": "Charge resolution and statistics in double precision", "statement": "Whatever the order of calls of add and finish, the batches, the moments of amalgamation and the order of additions: every row of the tables is a rounded sum over exactly the entries of its pixel and true charge (of its true charge for the camera), with their number; charge_resolution, charge_resolution_abs, mean and the argument of the root of std are those of exact arithmetic up to an explicit number of roundings; two ways to add the same entries give the same rows and numbers and sums that differ by rounding only, and not at all for charges on a common binary grid. The tables do not depend on the batches, and std is a number, zero for equal charges.", "quantifier": "all sequences of calls, all doubles (no overflow), all orders of additions", "why_tests_cant": "Tests compare with a tolerance and a few entries; the cancellation in std and the dependence on batches need particular values.", "anchors": ["CHECLabPy/utils/resolutions.py:43-132", "CHECLabPy/utils/resolutions.py:160-227"]}
{"id": "C98", "title": "Figures end where they were sent, and leave nothing behind", "statement": "Saving a plot at a path with a known extension writes exactly what was drawn on it to that path, makes the directories it lies in, touches no other file and closes this figure and no other; it raises when a file or directory is in the way or the format is unknown. A camera image saved as pdf has a cropped copy next to it; images saved at different paths keep both. plot_spe leaves for every column its camera image and its histogram, and the spectrum of the pixel. A plot given axes draws on them. After making and saving a plot the open figures are those of before, and the style of a plot depends on its own options only.", "quantifier": "every disk, every path, every sequence of plots and marks", "why_tests_cant": "Figures are looked at, not tested; a leaked figure or a setting left behind by another plot shows only in long sessions.", "anchors": ["CHECLabPy/plotting/setup.py:9-125", "CHECLabPy/plotting/camera.py:28-34", "CHECLabPy/plotting/camera.py:84-109", "CHECLabPy/plotting/spe.py:5-12", "CHECLabPy/plotting/waveform.py:54-61", "CHECLabPy/plotting/waveform.py:192-205", "CHECLabPy/scripts/plot_spe.py:14-103", "CHECLabPy/utils/files.py:7-11"]}
{"id": "C99", "title": "Annotations of a camera image point at what they name", "statement": "Module labels appear exactly for the modules that reach the upper or lower edge of the camera in some column, once each, centred on the module and beyond every pixel of such a column; images of pixels, superpixels and modules carry the same labels, the same arrow and the same flashers. The arrow joins the two marks of the mapping, the flashers are mirror images. Values written on pixels stand on the pixel whose colour shows them; sizes that do not match are refused. highlight_pixels outlines exactly the pixels of the list or mask with the width asked for and refuses pixels outside the camera. Without a mapping nothing is drawn.", "quantifier": "every mapping, every image, every list or mask of pixels", "why_tests_cant": "Annotations are looked at on the one camera and level for which they were written.", "anchors": ["CHECLabPy/plotting/camera.py:139-264", "CHECLabPy/plotting/camera.py:433-509", "CHECLabPy/utils/mapping.py:20-41", "CHECLabPy/utils/mapping.py:78-132"]}
{"id": "C100", "title": "Conversion of DL1 files to ROOT keeps the file", "statement": "convert_hd52root writes, to the path asked for or to the input with .root for its extension, one branch for every entry of the metadata with its value (times in nanoseconds), every column of the table and the mapping; it changes no other file, in particular not the input, and if it fails an earlier output stays. Every DL1 file can be converted, and different files give different outputs.", "quantifier": "every disk, every DL1 file, every pair of paths", "why_tests_cant": "The script needs ROOT and has no tests; what goes wrong depends on the metadata of old files.", "anchors": ["CHECLabPy/scripts/convert_hd52root.py:29-119", "CHECLabPy/core/io/dl1_reader.py:96-111", "CHECLabPy/core/io/hdf5_reader.py:80-114"]}
{"id": "C101", "title": "Welford's algorithm in double precision", "statement": "Samples are added one by one to the running mean, count and sum of squared deviations of welfords_online_algorithm in double precision, starting from zeros. Whatever rounding loses, and whichever rearrangement the compiler makes of the function under fastmath (reciprocal for the division, fused products, the second difference from the first): the count is the number of samples; the mean lies between the smallest and the largest sample and every sample moves it towards itself and never past itself; the sum of squared deviations is never negative and never decreases, so its root is never NaN; equal samples give exactly that value and no deviation. The mean differs from the exact one by at most 4 eps (hi - lo) + (n + 1) / 2 (eps B + 2 tau), the sum of squares by a bound proportional to the width hi - lo of the samples. Hence another order or another compilation changes the mean by at most twice that bound (though it does change it).", "quantifier": "for all non-empty lists of doubles, each added by any of the compilations, up to 2^53 (mean) or 2^52 (squares) samples for the bounds", "why_tests_cant": "rounding differs for every list of samples, and the compiler may choose differently on every machine; a test sees one of them", "anchors": ["CHECLabPy/stats/welfords.py:4-35"]}
{"id": "C102", "title": "Extraction, storage and loading of the reference pulse", "statement": "The reference pulse that extract_reference_pulse.py takes from an R1 file is the average waveform with its maximum at sample 60, divided by its area. Every number of the file is written with six significant digits, correctly rounded, and is read back by np.loadtxt without an error; the file has one row per sample, the times read from it are the doubles next to 0, 1, 2, ... ns, the values are those of the pulse to six millionths, their order is kept, the area of the pulse in the file is 1 to the same precision and its maximum is at sample 60, so that CrossCorrelation, which takes its origin from the maximum, samples the whole pulse from the file.", "quantifier": "for all sources of events of equal shape with any values and lengths, and for every rational number that is formatted", "why_tests_cant": "the rounding to decimal digits and back depends on every digit of every value; tests use one or two recorded pulses of 128 samples, positive area and no undershoot", "anchors": ["examples/extract_reference_pulse.py:28-40", "CHECLabPy/utils/waveform.py:74-109", "CHECLabPy/waveform_reducers/cross_correlation.py:69-80"]}
{"id": "C103", "title": "Pulse timing in double precision", "statement": "The timing of a pulse, computed in double precision with every operation rounded: the width at half maximum is never negative, for any waveform; all positions lie in the readout; the rise time is not negative when the pulse is above the baseline and the sample at its time reaches the 90 per cent level as computed. A peak sample that is larger than its successor and not smaller than its predecessor always yields a time within half a sample of it, on the side of the larger neighbour, not lower than the sample, and within a few units in the last place over the curvature of the true vertex of the parabola. Every local maximum is timed.", "quantifier": "All waveforms of any length (samples doubles, zero or at least 2^-900 in magnitude for the statements on the peak), all windows inside the readout, all scales.", "why_tests_cant": "Cancellation in the second difference only strikes at samples within an ulp of each other; fixed fixtures use smooth pulses and tolerances.", "anchors": ["CHECLabPy/waveform_reducers/timing.py"]}
{"id": "C104", "title": "Running statistics of the pandas cookbook", "statement": "The statistics of the charge per module accumulated event by event are those of all charges of the module at once: one row per module that occurs, in increasing order, with number, sum, mean and variance of exactly its charges, however the readings are cut into events, ordered, or merged because of memory. The columns of pandas printed beside them for comparison belong to the module of the row, and agree with them.", "quantifier": "All sequences of events with any pixels and charges (exact numbers), any memory thresholds.", "why_tests_cant": "The merge only happens beyond half a gigabyte; the misalignment only shows for cameras whose modules are not numbered from 0 without gap.", "anchors": ["examples/pandas_cookbook.py"]}
{"id": "C105", "title": "Times of the cross correlation in double precision", "statement": "extract_pulse_time, with every operation rounded to double precision, returns a time in the readout for every cross correlation and every index in range, whatever is read past its end. At a sample larger than its successor and not smaller than its predecessor the time is within half a sample, on the side of the larger neighbour, and within a few units in the last place over the curvature of the vertex of the parabola; this holds in particular for the maximum of every pixel with CrossCorrelationLocal. Two equal samples at the top are timed between them.", "quantifier": "All cross correlations of any length (doubles, zero or at least 2^-900 in magnitude), all indices from 4 on, all scales, anything read past the end.", "why_tests_cant": "The second difference cancels only for samples within an ulp of each other, and indices at the border read memory outside the array.", "anchors": ["CHECLabPy/waveform_reducers/cross_correlation.py"]}
{"id": "C106", "title": "Versions and contents of any HDF5 file", "statement": "HDF5Reader opens every file whose tables carry the attribute metadata, whoever wrote it: a file of version M.x.y gives the warning about an older version exactly when M is less than the library's major version and the one about a newer version exactly when it is greater, a file without a version counts as 1.0.0; listed are the tables whose n_bytes is present and not zero (never the mapping), and readable are the metadata of every name except info and names with a leading underscore. A single table without that attribute makes opening fail. A file that opens without a warning holds only rows of this version.", "quantifier": "All stores (any keys, tables, attributes, versions), any sequence of appends to an older file.", "why_tests_cant": "Fixtures are written by the library itself, so always have its version and complete metadata.", "anchors": ["CHECLabPy/core/io/hdf5_reader.py", "CHECLabPy/core/io/hdf5_appender.py"]}
{"id": "C107", "title": "Charges taken where the neighbouring pixels peak", "statement": "CrossCorrelationNeighbour and SlidingWindowNeighbour take the charge of a pixel where the mean over its neighbours (of the cross correlation, or of the window sums) is maximal: the position is a sample of the waveform, the first maximum, and does not depend on the pixel's own waveform, so the charge is linear in that waveform (noise averages out, no bias); it never exceeds the charge at the pixel's own maximum (the _local columns), nor does charge_sliding; a pulse that arrives at the same time in the pixel and its neighbours, with non-negative amplitudes in the neighbours that are not all zero, gives exactly the pixel's amplitude, also when that is zero or negative; a common positive gain multiplies all charges; times lie within the waveform. Claimed also: the pulse of a pixel is measured whatever its neighbours see. This fails: with dark neighbours or without neighbours the position is sample 0.", "quantifier": "all pulses, waveforms, neighbour lists, window sizes, amplitudes and gains", "why_tests_cant": "Absence of bias is a statement over all noise waveforms; the cases of dark or missing neighbours occur only in special camera layouts and illuminations, and the tests do not run these reducers without ctapipe.", "anchors": ["CHECLabPy/waveform_reducers/cross_correlation.py", "CHECLabPy/waveform_reducers/sliding_window.py"]}
{"id": "C108", "title": "Pulses seen by AverageWF and Timing, for every length of the readout", "statement": "With the default windows and 20 samples or more, the peak of the average waveform lies in AverageWF's window if and only if it is not among the first or last seven samples, and in Timing's if and only if it is not among the first or last six; Timing raises ValueError exactly for up to 6 samples, or 10 to 13 samples with the peak at sample 10 or later, and never anything but this and ZeroDivisionError; with a search window inside the readout and a time before the middle of the last sample its result does not depend on memory outside the waveform. Claimed also: charges and times are right for every length of readout. This fails: AverageWF returns 0 for all pixels for up to 7 samples or 10 to 12 samples with a late peak, misses a late peak for 13 to 17 samples, and Timing reads behind the waveform when the interpolated time is in the last half sample.", "quantifier": "all events, waveform lengths, peak positions and contents of the memory behind a waveform", "why_tests_cant": "Compiled code does not report reads outside an array; which lengths and positions fail follows from Python's treatment of negative slice bounds, and tests use readouts of 128 samples.", "anchors": ["CHECLabPy/waveform_reducers/average_wf.py:AverageWF", "CHECLabPy/waveform_reducers/timing.py:obtain_pulse_timing", "CHECLabPy/waveform_reducers/timing.py:Timing._prepare"]}
{"id": "C109", "title": "Memory limits when tables are read", "statement": "For a table whose rows all take the same memory and whose recorded n_bytes is right, HDF5Reader.read without force returns at most 8 GB (else MemoryError), and the chunks of iterate_over_chunks with the default chunk size are at most 2 GB each and together the table, row by row; the chunk size computed in double precision never exceeds 2 GB and is at most one row smaller than possible. HDF5Writer records the right n_bytes for every appended table. After HDF5Appender the limits must still hold; they do not: n_bytes is then the size of the new rows only.", "quantifier": "all tables, row sizes up to 2^60 bytes, files written by any sequence of operations and appended to by any other", "why_tests_cant": "Needs tables of gigabytes; tests only use small ones, where neither limit matters and a wrong n_bytes goes unnoticed.", "anchors": ["CHECLabPy/core/io/hdf5_reader.py:81-118", "CHECLabPy/core/io/hdf5_reader.py:269-293", "CHECLabPy/core/io/hdf5_writer.py", "CHECLabPy/core/io/hdf5_appender.py"]}
{"id": "C110", "title": "Gaps in the SiPM data sheet", "statement": "The data sheet may lack values (the shipped one does in gain, opct and pde). SiPMDataSheetConverter given a value of a row returns that row with its gaps; given a value between two neighbouring known values of its column it interpolates every other column between those two rows, NaN exactly if one of the two lacks the column; rows without the given column play no role. Values outside of the known ones raise ValueError, on either side. The last does not hold above a column with gaps: then NaN is returned; so for gain, opct and pde of the shipped sheet. Without gaps the converter is that of C52.", "quantifier": "all data sheets (any number of rows and columns, any gaps, any order of rows with distinct values), all four arguments and all values", "why_tests_cant": "Tests use a few values inside of the sheet; NaN sorts last and compares false, so which values are refused depends on gaps far away from the value.", "anchors": ["CHECLabPy/calib/sipm_data_sheet.py:7-31", "CHECLabPy/calib/data/sipm_data_sheet.csv"]}
{"id": "C111", "title": "The shipped time corrections never stop the calibration", "statement": "apply_t_cor divides by zero when a corrected position falls on a whole sample (C95). Corrections that are at least 1/2500 of a sample away from every integer never do, in single or double precision, for readouts of 2 to 2^40 samples. The 2048 corrections of calib/data/time_correction.dat are such, whichever way their decimals are converted to double (to within 10^-6): TimeCalibrator succeeds on every event of 2048 waveforms. With them, every sample but the first three and the last two is interpolated linearly between two neighbouring samples of the readout, at most three samples before and two after it, up to the rounding error of C95.", "quantifier": "all waveforms of all lengths from 2 to 2^40, both precisions, all conversions of the file's decimals", "why_tests_cant": "Whether a rounded difference of sample number and correction is an integer depends on the length of the readout and the rounding of the corrections; tests use one length and the corrections as converted by one version of pandas.", "anchors": ["CHECLabPy/calib/time_calibrator.py:11-40", "CHECLabPy/calib/data/time_correction.dat"]}
{"id": "C112", "title": "Amplitude calibration and illumination profile in double precision", "statement": "In double precision AmplitudeCalibrator gives exactly 0 for the pedestal, never a smaller amplitude for a larger value of the same pixel (positive conversion, flat-field not negative), and is within four units of rounding of the exact amplitude. IlluminationProfile.fold(unfold(image)) and unfold(fold(image)) differ from the image by at most three units of rounding per pixel, are not always equal to it, but are exactly so once stored in single precision again, if the image was in single precision and the profile is between 1/2 and 2. All this holds for the shipped profile mpik_190414.dat, which has one entry per pixel and changes no pixel by more than 9 percent.", "quantifier": "all values, coefficients, images and profiles without zeros (no overflow)", "why_tests_cant": "Rounding differs for every pair of numbers: a test of the round trip with approx passes also for larger errors, one with equality fails for some images only.", "anchors": ["CHECLabPy/calib/amplitude_calibrator.py:22-40", "CHECLabPy/calib/illumination_profile.py:17-47", "CHECLabPy/calib/data/illumination_profile/mpik_190414.dat"]}
{"id": "C113", "title": "Standard deviations of the baseline and waveform in double precision", "statement": "The columns baseline_start_rms, baseline_end_rms and waveform_rms in double precision, whatever the order of the additions: never NaN and never negative; within E + (g(n+6) - 1)(sigma + E) + 2^-510 of the exact standard deviation sigma of the n samples, where E is the error bound of the mean and g(k) = (1 + 2^-53)^k, so no large squares cancel; below 10^-9 mV for 128 samples up to 4000 mV. A waveform constant at a number of few bits, as a digitiser count, has standard deviation exactly 0, one constant at 0.1 mV has not.", "quantifier": "all waveforms of up to 2^40 samples (no overflow), all orders of summation", "why_tests_cant": "Rounding depends on the values and on the order numpy takes on the processor at hand; a test compares with approx on one waveform.", "anchors": ["CHECLabPy/waveform_reducers/common.py:16-49"]}
{"id": "C114", "title": "From the pulse in the waveform to the charge in the file", "statement": "With the reducer CrossCorrelationLocal: let the first 16 samples of a pixel be its pedestal b up to d0 in an event and the 49 kept events before it (for the first 50 events: in the kept events up to it and the waveforms of the file that stand in for the missing ones), and let the event contain a pulse of A > 0 photoelectrons of the reference shape, completely inside the readout, on that pedestal up to d in every sample. Then the stored baseline is b up to d0, and the stored charge is A up to (d + d0) times the sum of the absolute values of the weights of the correlation; both are exact if d = d0 = 0. These are the numbers that DL1Reader returns for the number of the event, in the row of the pixel, after the conversion to the type of the column. The charge of any waveform moves by at most d times that sum if every sample moves by at most d. A pulse that reaches into the first 16 samples raises its own baseline and is stored with another charge.", "quantifier": "all reference pulses of positive area, runs with any number of stale or incomplete events, time corrections, pedestals, amplitudes, pulse times, pixels, disturbances", "why_tests_cant": "It combines the time calibration, the running baseline, the cross correlation, the writer and the reader; tests of one stage cannot see an inconsistency between two of them, and the claim is about all waveforms within a distance of the ideal ones.", "anchors": ["CHECLabPy/scripts/extract_dl1.py:DL1Extractor.__call__", "CHECLabPy/scripts/extract_dl1.py:DL1Writer.write_dl1_file", "CHECLabPy/utils/waveform.py:BaselineSubtractor.subtract", "CHECLabPy/waveform_reducers/cross_correlation.py:CrossCorrelationLocal", "CHECLabPy/core/io/dl1_reader.py:DL1Reader.__getitem__"]}
