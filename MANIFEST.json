{
 "claims": [
  {
   "property": "C01",
   "status": "proved",
   "theorems": [
    "C01_buffered_appends",
    "C01_finish_succeeds"
   ],
   "note": "Keys not mixed with write(); the key 'mapping' is never listed by the reader; a table needs at least one row."
  },
  {
   "property": "C02",
   "status": "proved",
   "theorems": [
    "C02_metadata_round_trip"
   ],
   "note": "Names starting with '_' are written but not listed by the reader, hence excluded from the existence clause."
  },
  {
   "property": "C03",
   "status": "proved",
   "theorems": [
    "C03_byte_accounting"
   ],
   "note": ""
  },
  {
   "property": "C04",
   "status": "proved",
   "theorems": [
    "C04_interrupted_writing"
   ],
   "note": "The only exception the writer itself can raise is the reserved name; any other exception stops the body between two calls."
  },
  {
   "property": "C05",
   "status": "proved",
   "theorems": [
    "C05_reserved_names",
    "C05_no_side_effect"
   ],
   "note": ""
  },
  {
   "property": "C06",
   "status": "partial",
   "theorems": [
    "C06_every_file_opens_refuted",
    "C06_opens_iff_complete"
   ],
   "note": "The code violates the property (metadata-only key without a 'metadata' dict); exact characterisation proved."
  },
  {
   "property": "C07",
   "status": "proved",
   "theorems": [
    "C07_C08_appender"
   ],
   "note": "Stated for tables pandas accepts appending to; write('data') is excluded because it makes finish() fail."
  },
  {
   "property": "C08",
   "status": "partial",
   "theorems": [
    "C08_n_bytes_refuted",
    "C07_C08_appender"
   ],
   "note": "The code violates the property: n_bytes only counts the new rows. What it does record is proved."
  },
  {
   "property": "C09",
   "status": "partial",
   "theorems": [
    "C09_write_replaces",
    "C09_append_then_write_refuted"
   ],
   "note": "Holds when the key is only written; append followed by write on one key makes finish() raise."
  },
  {
   "property": "C10",
   "status": "proved",
   "theorems": [
    "C10_chunked_iteration",
    "C10_default_chunksize"
   ],
   "note": ""
  },
  {
   "property": "C11",
   "status": "proved",
   "theorems": [
    "C11_read_guard"
   ],
   "note": ""
  },
  {
   "property": "C12",
   "status": "proved",
   "theorems": [
    "C12_dl1_completes",
    "C12_dl1_round_trip",
    "C12_empty_run_refuted",
    "C12_empty_mc_run_refuted"
   ],
   "note": "If no event at all is kept the file has no readable table (TypeError), or for Monte Carlo input cannot be opened: the two _refuted theorems."
  },
  {
   "property": "C13",
   "status": "proved",
   "theorems": [
    "C13_event_iteration",
    "C13_any_block_file"
   ],
   "note": ""
  },
  {
   "property": "C14",
   "status": "proved",
   "theorems": [
    "C14_module_metadata"
   ],
   "note": "A negative module number gives KeyError, not IndexError (last clause)."
  },
  {
   "property": "C15",
   "status": "partial",
   "theorems": [
    "C15_output_path_refuted",
    "C15_output_differs_iff"
   ],
   "note": "The code violates the property for paths without the expected pattern; exact characterisation proved."
  },
  {
   "property": "C16",
   "status": "proved",
   "theorems": [
    "C16_child_subclasses",
    "C16_distinct_names",
    "C16_name",
    "C16_reachable"
   ],
   "note": "Hierarchies are those in which bases are defined before the classes deriving from them; every sequence of class statements gives one."
  },
  {
   "property": "C17",
   "status": "proved",
   "theorems": [
    "C17_factory_produce"
   ],
   "note": "If several descendants share the requested name, one of them is produced."
  },
  {
   "property": "C18",
   "status": "proved",
   "theorems": [
    "C18_second_definition_refused",
    "C18_one_reducer_per_column",
    "C18_chain_output"
   ],
   "note": "Class names are compared by __qualname__, as the code does."
  },
  {
   "property": "C19",
   "status": "proved",
   "theorems": [
    "C19_active_columns"
   ],
   "note": "Also shows that construction succeeds unless a setting is named like a positional parameter."
  },
  {
   "property": "C20",
   "status": "proved",
   "theorems": [
    "C20_reducers_isolated"
   ],
   "note": "Subclass _prepare methods are modelled as arbitrary code after the call of the base class method, which all reducers of the repository make."
  },
  {
   "property": "C21",
   "status": "partial",
   "theorems": [
    "C21_refuted",
    "C21_without_t_event",
    "C21_with_t_event_switch",
    "C21_default_chain"
   ],
   "note": "Refuted: the column switch t_event is taken for a time; in the default chain the last 4 samples are summed. Holds when t_event is not in the configuration."
  },
  {
   "property": "C22",
   "status": "partial",
   "theorems": [
    "C22_generated_lines",
    "C22_equivalent_iff",
    "C22_equivalence_refuted"
   ],
   "note": "The file format half is proved; equivalence with the defaults is refuted (columns without a default are switched on) and characterised exactly."
  },
  {
   "property": "C23",
   "status": "proved",
   "theorems": [
    "C23_integer_index",
    "C23_iteration",
    "C23_list_index"
   ],
   "note": "Python ints; a numpy integer is not an int for isinstance and gives TypeError."
  },
  {
   "property": "C24",
   "status": "proved",
   "theorems": [
    "C24_slice"
   ],
   "note": ""
  },
  {
   "property": "C25",
   "status": "proved",
   "theorems": [
    "C25_simtel_detection",
    "C25_byte_order",
    "C25_tio_detection",
    "C25_first_compatible",
    "C25_simtel_file"
   ],
   "note": "Files too short for a marker raise instead of being refused (C25_example)."
  },
  {
   "property": "C26",
   "status": "proved",
   "theorems": [
    "C26_max_events",
    "C26_first_events"
   ],
   "note": ""
  },
  {
   "property": "C27",
   "status": "proved",
   "theorems": [
    "C27_t_cpu_exact",
    "C27_t_cpu_order"
   ],
   "note": "Uses the real number axioms of the standard library through Flocq."
  },
  {
   "property": "C28",
   "status": "proved",
   "theorems": [
    "C28_parameter_lookup",
    "C28_lookup_keys"
   ],
   "note": "Names must stay distinct after numbering (a shared parameter called a0 beside a multi parameter a clashes)."
  },
  {
   "property": "C29",
   "status": "partial",
   "theorems": [
    "C29_construction_and_update",
    "C29_update_stores",
    "C29_update_initial_stores",
    "C29_load_and_initial_keep_kwargs",
    "C29_load_config_refuted",
    "C29_update_initial_refuted",
    "C29_update_repairs",
    "C29_before_fit"
   ],
   "note": "The code violates the property: load_config and update_initial never refresh the minimiser settings. Construction and update are correct, and any later update repairs the settings."
  },
  {
   "property": "C30",
   "status": "proved",
   "theorems": [
    "C30_round_trip",
    "C30_partial_file",
    "C30_bad_file"
   ],
   "note": "Files with values of the wrong kind (a sequence where a scalar is expected, or the reverse) are excluded."
  },
  {
   "property": "C31",
   "status": "proved",
   "theorems": [
    "C31_curve_area",
    "C31_likelihood_area",
    "C31_abscissae",
    "C31_area_line",
    "C31_area_split"
   ],
   "note": "Exact arithmetic."
  },
  {
   "property": "C36",
   "status": "proved",
   "theorems": [
    "C36_dacs_in_range",
    "C36_default_start"
   ],
   "note": "Finite amplitudes (a NaN cannot be stored in the integer DAC array)."
  },
  {
   "property": "C37",
   "status": "proved",
   "theorems": [
    "C37_masked_at_255",
    "C37_within_a_pass",
    "C37_histories_ok",
    "C37_two_passes"
   ],
   "note": ""
  },
  {
   "property": "C38",
   "status": "partial",
   "theorems": [
    "C38_termination_refuted",
    "C38_endless",
    "C38_terminates"
   ],
   "note": "The code violates the property when a DAC gives exactly the aim, or two DACs one step apart are exactly symmetric about it. In every other case completion within 993 calls is proved, for an arbitrary response."
  },
  {
   "property": "C39",
   "status": "proved",
   "theorems": [
    "C39_best_dac"
   ],
   "note": "Leaving the DAC range is the second alternative of the conclusion."
  },
  {
   "property": "C40",
   "status": "partial",
   "theorems": [
    "C40_per_pixel_mask_refuted",
    "C40_mask_meaning"
   ],
   "note": "The code violates the property: the reduction over the four pixels is computed and thrown away."
  },
  {
   "property": "C41",
   "status": "proved",
   "theorems": [
    "C41_baseline_last_events",
    "C41_baseline_first_events",
    "C41_baseline_same_source",
    "C41_subtract"
   ],
   "note": "Exact arithmetic; n_base >= 1."
  },
  {
   "property": "C42",
   "status": "proved",
   "theorems": [
    "C42_shift_array",
    "C42_shift_array_shape",
    "C42_shift_waveform"
   ],
   "note": ""
  },
  {
   "property": "C43",
   "status": "proved",
   "theorems": [
    "C43_average",
    "C43_average_per_pixel",
    "C43_average_is_pixel_mean"
   ],
   "note": "Exact arithmetic."
  },
  {
   "property": "C44",
   "status": "proved",
   "theorems": [
    "C44_round_trip",
    "C44_merge_is_or",
    "C44_merge_never_unmasks",
    "C44_merge_order",
    "C44_saved_files_hold",
    "C44_file_rows",
    "C44_accepted",
    "C44_saved_layout",
    "C44_all_mask"
   ],
   "note": "Tokenising the text file is pandas' part."
  },
  {
   "property": "C45",
   "status": "proved",
   "theorems": [
    "C45_last_commit_is_default",
    "C45_earlier_commits_not_newer"
   ],
   "note": ""
  },
  {
   "property": "C46",
   "status": "proved",
   "theorems": [
    "C46_superpixels",
    "C46_modules",
    "C46_agrees_with_repeat"
   ],
   "note": ""
  },
  {
   "property": "C47",
   "status": "proved",
   "theorems": [
    "C47_sort",
    "C47_failure",
    "C47_plain_names",
    "C47_numbers_by_value"
   ],
   "note": ""
  },
  {
   "property": "C48",
   "status": "proved",
   "theorems": [
    "C48_configuration"
   ],
   "note": "Module and superpixel numbers in range and values below 32768."
  },
  {
   "property": "C49",
   "status": "proved",
   "theorems": [
    "C49_interpolation",
    "C49_affine",
    "C49_pixels_independent",
    "C49_event"
   ],
   "note": "Exact arithmetic."
  },
  {
   "property": "C50",
   "status": "partial",
   "theorems": [
    "C50_refuted",
    "C50_exact",
    "C50_event",
    "C50_far"
   ],
   "note": "The code violates the property: the correction 0, and every integer correction smaller than the waveform, raises ZeroDivisionError for the whole event. The raising corrections are characterised exactly."
  },
  {
   "property": "C51",
   "status": "proved",
   "theorems": [
    "C51_amplitude",
    "C51_profile"
   ],
   "note": "Exact arithmetic."
  },
  {
   "property": "C52",
   "status": "proved",
   "theorems": [
    "C52_exactly_one",
    "C52_outside",
    "C52_inside",
    "C52_row_order"
   ],
   "note": "Tables without gaps, as the property says; exact arithmetic."
  },
  {
   "property": "C53",
   "status": "proved",
   "theorems": [
    "C53_default",
    "C53_explicit"
   ],
   "note": "Exact arithmetic."
  },
  {
   "property": "C54",
   "status": "proved",
   "theorems": [
    "C54_range",
    "C54_vertex"
   ],
   "note": "Exact arithmetic; a read past the end yields any number or a non-finite value."
  },
  {
   "property": "C55",
   "status": "proved",
   "theorems": [
    "C55_local",
    "C55_camera",
    "C55_linear"
   ],
   "note": "Exact arithmetic; the reference pulse has positive area; the resampling of the pulse file is not modelled. C55_camera covers the camera-wide variant as well."
  },
  {
   "property": "C56",
   "status": "proved",
   "theorems": [
    "C56_local",
    "C56_common"
   ],
   "note": "Exact arithmetic."
  },
  {
   "property": "C57",
   "status": "proved",
   "theorems": [
    "C57_superpixels"
   ],
   "note": ""
  },
  {
   "property": "C58",
   "status": "partial",
   "theorems": [
    "C58_refuted",
    "C58_full_camera"
   ],
   "note": "The code violates the last clause: with fewer than six modules the averages are NaN and every event is attributed to unit 0. The rest is proved for cameras that have the four modules."
  },
  {
   "property": "C59",
   "status": "proved",
   "theorems": [
    "C59_peak",
    "C59_fwhm",
    "C59_rise"
   ],
   "note": "Exact arithmetic. The code can raise ZeroDivisionError on flat stretches (example C59_ex_raises); C59_peak proves it does not when the peak sample is above the 90% level."
  },
  {
   "property": "C70",
   "status": "partial",
   "theorems": [
    "C70_default",
    "C70_chain_refuted"
   ],
   "note": "Proved for the reducer on its own; inside a chain the code violates the property because the on/off switch of the column t_event is taken as the time."
  },
  {
   "property": "C71",
   "status": "proved",
   "theorems": [
    "C71_shift",
    "C71_bounds",
    "C71_windows"
   ],
   "note": "Exact arithmetic; the standard deviation is modelled by its square."
  },
  {
   "property": "C60",
   "status": "proved",
   "theorems": [
    "C60_terminates",
    "C60_no_nan",
    "C60_nan"
   ],
   "note": "Exact arithmetic; least squares is an oracle. C60_nan exhibits the degenerate 0/0 step with exact least squares answers: coefficients become NaN (later dropped by the charge > 0 mask)."
  },
  {
   "property": "C61",
   "status": "proved",
   "theorems": [
    "C61_columns",
    "C61_window",
    "C61_average",
    "C61_merge",
    "C61_merge_gaps"
   ],
   "note": "Exact arithmetic."
  },
  {
   "property": "C72",
   "status": "proved",
   "theorems": [
    "C72_optimal"
   ],
   "note": "Exact arithmetic; least squares answers are characterised by the normal equations; no NaN in the result."
  },
  {
   "property": "C62",
   "status": "proved",
   "theorems": [
    "C62_tables",
    "C62_independent",
    "C62_empty"
   ],
   "note": "exact rationals; the resolution columns are kept squared (square roots are taken of r_abs2 and r_rel2 by the code)"
  },
  {
   "property": "C63",
   "status": "proved",
   "theorems": [
    "C63_tables",
    "C63_independent"
   ],
   "note": "exact rationals; variance is kept squared (the code takes the square root)"
  },
  {
   "property": "C64",
   "status": "proved",
   "theorems": [
    "C64_superpixels",
    "C64_modules",
    "C64_cells",
    "C64_module_cells"
   ],
   "note": "exact rationals; metadata dictionaries live in a store so that aliasing is visible"
  },
  {
   "property": "C65",
   "status": "proved",
   "theorems": [
    "C65_order"
   ],
   "note": "row and column of the simtel pixels are an input (see C73 for get_row_column)"
  },
  {
   "property": "C66",
   "status": "proved",
   "theorems": [
    "C66_image",
    "C66_wrong_size",
    "C66_outside"
   ],
   "note": "CameraImageImshow only"
  },
  {
   "property": "C68",
   "status": "proved",
   "theorems": [
    "C68_order",
    "C68_range",
    "C68_decreasing"
   ],
   "note": "real arithmetic"
  },
  {
   "property": "C69",
   "status": "proved",
   "theorems": [
    "C69_matched",
    "C69_missing",
    "C69_no_monitor",
    "C69_average",
    "C69_array",
    "C69_load"
   ],
   "note": "values without NaN"
  },
  {
   "property": "C73",
   "status": "proved",
   "theorems": [
    "C73_square",
    "C73_rectangle",
    "C73_tolerance_refuted"
   ],
   "note": "C73_square is the property under its stated conditions; C73_rectangle and C73_tolerance_refuted show that the function fails on non-square grids and on pixels displaced by 0.3 of the pitch"
  },
  {
   "property": "C67",
   "status": "partial",
   "theorems": [
    "C67_results",
    "C67_sequential",
    "C67_order_refuted"
   ],
   "note": "Every pixel gets exactly one row with its own fit under every distribution and interleaving; a single process gives pixel order. The part of the claim about row order with several processes is refuted: rows are in completion order."
  },
  {
   "property": "C32",
   "status": "proved",
   "theorems": [
    "C32_welford",
    "C32_start",
    "C32_continue"
   ],
   "note": "Exact rationals."
  },
  {
   "property": "C33",
   "status": "proved",
   "theorems": [
    "C33_binom",
    "C33_poisson",
    "C33_poisson_sum",
    "C33_logpmf",
    "C33_logpmf_empty",
    "C33_normal",
    "C33_normal_integral",
    "C33_normal_slope"
   ],
   "note": "Real numbers; lgamma at positive integers."
  },
  {
   "property": "C34",
   "status": "proved",
   "theorems": [
    "C34_mapm",
    "C34_positive",
    "C34_integral"
   ],
   "note": "Real numbers. The number of peaks depends on lambda_ only."
  },
  {
   "property": "C35",
   "status": "proved",
   "theorems": [
    "C35_gentile",
    "C35_positive",
    "C35_integral",
    "C35_no_crosstalk",
    "C35_dropped"
   ],
   "note": "Real numbers. The opct=0 claim holds within the fit limit lambda_<=6; C35_dropped shows that outside (lambda_ so large that the single p.e. probability is below 1e-4) all peaks are lost."
  },
  {
   "property": "C74",
   "status": "proved",
   "theorems": [
    "C74_integral",
    "C74_scale",
    "C74_minimum",
    "C74_reached",
    "C74_illuminations",
    "C74_trapz_line",
    "C74_trapz_split"
   ],
   "note": "Real numbers; bin contents are counts."
  },
  {
   "property": "C75",
   "status": "proved",
   "theorems": [
    "C75_mapping_round_trip"
   ],
   "note": "Over every call history without tables written under 'mapping'; any preparation hook and key order."
  },
  {
   "property": "C76",
   "status": "proved",
   "theorems": [
    "C76_other_tables"
   ],
   "note": "needs memory sizes of non-empty frames to be positive (otherwise pandas' own sizes are wrong)"
  },
  {
   "property": "C77",
   "status": "proved",
   "theorems": [
    "C77_transition",
    "C77_step_sizes"
   ],
   "note": "amplitudes are exact numbers and the aim is not 0"
  },
  {
   "property": "C78",
   "status": "proved",
   "theorems": [
    "C78_histograms",
    "C78_one_bin",
    "C78_exact",
    "C78_refused",
    "C78_float32_counts",
    "C78_rounding",
    "C78_faithful",
    "C78_edges",
    "C78_floating_point"
   ],
   "note": "For every rounding of the edges and of the bin index such that the edges increase and the index is at most one off; proved to hold for float64 and for float32 charges, with all roundings of np.histogram, when the bins are not narrower than 2^-45 (2^-16) of the larger end of the range. The minimisation that follows is not modelled."
  },
  {
   "property": "C79",
   "status": "proved",
   "theorems": [
    "C79_gentile",
    "C79_mapm",
    "C79_independent",
    "C79_likelihood"
   ],
   "note": "Real arithmetic."
  },
  {
   "property": "C80",
   "status": "partial",
   "theorems": [
    "C80_names",
    "C80_unconfigured",
    "C80_configured_refuted"
   ],
   "note": "The code violates it with a configuration file: the file's values are stored although the fit starts from the built-in ones. The names, and the equality without a configuration file, are proved."
  },
  {
   "property": "C81",
   "status": "partial",
   "theorems": [
    "C81_settled",
    "C81_values",
    "C81_time_correction",
    "C81_file",
    "C81_skipped_refuted"
   ],
   "note": "The code violates it for the first 49 kept events of a run: the baseline starts from the raw samples of the first 50 events of any kind. From the 50th kept event on it is proved, and so is what is stored before."
  },
  {
   "property": "C82",
   "status": "partial",
   "theorems": [
    "C82_default_names",
    "C82_usual_names",
    "C82_real_runs",
    "C82_single_output",
    "C82_completes",
    "C82_errors",
    "C82_every_input_refuted"
   ],
   "note": "The code violates it with -o and several inputs: only the last one is kept. With default names that do not collide it is proved, in particular for every list of distinct _r1.tio files."
  },
  {
   "property": "C83",
   "status": "proved",
   "theorems": [
    "C83_charges",
    "C83_histograms",
    "C83_single"
   ],
   "note": "From the DL1 file to the histograms of the SPE fit, for any arithmetic that satisfies the hypothesis of C78, in particular for single precision."
  },
  {
   "property": "C84",
   "status": "partial",
   "theorems": [
    "C84_loads",
    "C84_inside",
    "C84_count",
    "C84_whole_numbers",
    "C84_whole_refuted"
   ],
   "note": "The code violates it for tables in whole nanoseconds of certain lengths: one that ends at 96 ns is refused (ValueError), of one that ends at 100 ns the last sample is lost. Proved for every table whose end is a relative 2^-50 or more away from a whole number of nanoseconds."
  },
  {
   "property": "C85",
   "status": "proved",
   "theorems": [
    "C85_template",
    "C85_equal_steps",
    "C85_short"
   ],
   "note": "Exact arithmetic; the spline through the points is not part of it."
  },
  {
   "property": "C86",
   "status": "partial",
   "theorems": [
    "C86_bases",
    "C86_covers",
    "C86_columns",
    "C86_density_refuted"
   ],
   "note": "The code violates the density for every template of 1 ns or more: the length enters the number of candidates in seconds and is truncated away. The number of candidates, their spacing, the coverage with that spacing and the columns are proved."
  },
  {
   "property": "C87",
   "status": "partial",
   "theorems": [
    "C87_spectrum",
    "C87_one_process",
    "C87_size",
    "C87_camera",
    "C87_order_refuted"
   ],
   "note": "The code violates it for the camera images of files made by several processes: rows are painted in the order they were stored. The spectrum of one pixel is proved for every schedule, the images for one process, and for any schedule that they are right exactly when the rows are in pixel order."
  },
  {
   "property": "C88",
   "status": "partial",
   "theorems": [
    "C88_fixed",
    "C88_automatic",
    "C88_size",
    "C88_log_frozen",
    "C88_log_refuted",
    "C88_imshow",
    "C88_imshow_refuted"
   ],
   "note": "The code violates it in two places: set_z_log discards limits set by hand, and CameraImageImshow counts cells without a pixel as zeros. The rest is proved, including what the limits are after such a set_z_log."
  },
  {
   "property": "C89",
   "status": "partial",
   "theorems": [
    "C89_outlines",
    "C89_highlight",
    "C89_mask_size",
    "C89_reset",
    "C89_single_refuted"
   ],
   "note": "The code violates the outlines for cameras that are not six by six modules, e.g. a single module, where every side of every pixel is drawn. Proved for six by six modules of any size; highlighting and its reset are proved for every camera."
  },
  {
   "property": "C90",
   "status": "proved",
   "theorems": [
    "C90_page",
    "C90_axes",
    "C90_errors",
    "C90_missing_module"
   ],
   "note": "Exact arithmetic for the average waveform."
  },
  {
   "property": "C91",
   "status": "proved",
   "theorems": [
    "C91_error",
    "C91_default",
    "C91_no_drift",
    "C91_exact",
    "C91_raw_exact",
    "C91_subtract"
   ],
   "note": "Rounding by Flocq's round-to-nearest-even of double precision; overflow and NaN left out. Sums are arbitrary trees of additions over the elements in any order."
  },
  {
   "property": "C92",
   "status": "proved",
   "theorems": [
    "C92_local",
    "C92_noisy_pulse",
    "C92_sliding_local",
    "C92_common",
    "C92_averagewf",
    "C92_means",
    "C92_numbers"
   ],
   "note": "Doubles, as extract_dl1 passes after the baseline subtraction. scipy's short cut for symmetric kernels is left out."
  },
  {
   "property": "C93",
   "status": "partial",
   "theorems": [
    "C93_curve",
    "C93_conserved",
    "C93_below",
    "C93_refused",
    "C93_store_refuted",
    "C93_pixel",
    "C93_error",
    "C93_mean_range",
    "C93_mean_curve"
   ],
   "note": "Refuted for values between 0.001 and 0.1: set_store keeps them, but the bins start at 0.1 and they are never plotted; proved for all values from 0.1 on. A pixel without values above 0.1 raises ValueError. np.geomspace is a parameter; only that its edges increase from 0.1 to the largest value is used."
  },
  {
   "property": "C94",
   "status": "partial",
   "theorems": [
    "C94_path",
    "C94_distinct",
    "C94_sorted",
    "C94_list",
    "C94_braces_refuted",
    "C94_braces"
   ],
   "note": "Refuted for a run list in a directory whose name contains curly brackets: the directory is part of the template of str.format, so the call fails or another directory is read. C94_braces: right if and only if the directory has no curly bracket; the other theorems hold for all such directories."
  },
  {
   "property": "C95",
   "status": "partial",
   "theorems": [
    "C95_raises",
    "C95_tiny",
    "C95_refuted",
    "C95_error",
    "C95_between",
    "C95_between_refuted",
    "C95_constant"
   ],
   "note": "refuted: corrections up to 2^-54 of a sample are rounded away and raise ZeroDivisionError although they are not whole numbers (C95_refuted; C95_raises is the exact condition), and in single precision a corrected sample can exceed both neighbours by rounding (C95_between_refuted); proved for every waveform and correction: the error bound, and that the value lies between the neighbours if their difference is exact"
  },
  {
   "property": "C96",
   "status": "partial",
   "theorems": [
    "C96_attributes",
    "C96_view",
    "C96_view_time",
    "C96_defined",
    "C96_tio",
    "C96_several",
    "C96_calibrated_refuted",
    "C96_mark",
    "C96_slow_control",
    "C96_kinds",
    "C96_containers",
    "C96_tables",
    "C96_one_run",
    "C96_run_refuted"
   ],
   "note": "refuted: a calibrated raw event keeps is_r1 False (C96_calibrated_refuted; C96_mark says where its mark r1 exists), and for a simulation with several runs the run number of the reader differs from that of the header (C96_run_refuted; equal for one run, C96_one_run); negative module numbers are accepted (C96_slow_control is the exact condition); proved for every calculation and every sequence of accesses: the rest"
  },
  {
   "property": "C97",
   "status": "partial",
   "theorems": [
    "C97_resolution_rows",
    "C97_statistics_rows",
    "C97_result",
    "C97_resolution_batches",
    "C97_resolution_error",
    "C97_statistics_error",
    "C97_resolution_exact",
    "C97_statistics_exact",
    "C97_statistics_constant",
    "C97_std_refuted",
    "C97_batches_refuted",
    "C97_negative_refuted"
   ],
   "note": "Proved: rows, numbers, error bounds for any order of additions, exactness on a grid. The last sentence fails: C97_batches_refuted (the batches matter in the last bits) and C97_std_refuted (std of three equal charges of 0.1 is NaN in every order); C97_negative_refuted: NaN for a negative true charge with mc_true. Sums by plain additions; overflow is not modelled."
  },
  {
   "property": "C98",
   "status": "partial",
   "theorems": [
    "C98_saved",
    "C98_refused",
    "C98_cropped",
    "C98_two_images",
    "C98_drawn",
    "C98_axes",
    "C98_plot_spe",
    "C98_style",
    "C98_sizes",
    "C98_ready",
    "C98_cropped_refuted",
    "C98_extension_refuted",
    "C98_hidden_refuted",
    "C98_axes_refuted",
    "C98_legend_refuted",
    "C98_leak_refuted",
    "C98_style_refuted"
   ],
   "note": "The code violates parts of it: SPECamera and the two waveform pages leave a figure open on which self.ax and add_legend draw, so that plot_spe leaves one figure per column (C98_leak_refuted, C98_legend_refuted); the typeface of a talk stays (C98_style_refuted); SpectrumFitPlotter closes the figure of the axes it is given (C98_axes_refuted); a path without extension is announced but not written (C98_extension_refuted); the cropped copy replaces a picture of that name (C98_cropped_refuted); the base name .pdf raises (C98_hidden_refuted). The rest is proved."
  },
  {
   "property": "C99",
   "status": "partial",
   "theorems": [
    "C99_edge_labels",
    "C99_beyond",
    "C99_levels",
    "C99_no_mapping",
    "C99_arrow",
    "C99_flashers",
    "C99_values",
    "C99_series",
    "C99_one_pixel",
    "C99_highlight",
    "C99_highlight_same",
    "C99_highlight_refused",
    "C99_pandas_refuted",
    "C99_arrow_refuted",
    "C99_flashers_refuted",
    "C99_series_refuted",
    "C99_highlight_refuted"
   ],
   "note": "The code violates parts of it: the labels need DataFrame.ix (C99_pandas_refuted); the arrow in rows and columns and the flashers depend on the level shown (C99_arrow_refuted, C99_flashers_refuted); values of a Series are written by label and coloured by position (C99_series_refuted); on images of integers the default width outlines nothing (C99_highlight_refuted). The rest is proved."
  },
  {
   "property": "C100",
   "status": "partial",
   "theorems": [
    "C100_converted",
    "C100_lookup",
    "C100_default_name",
    "C100_only_output",
    "C100_keys",
    "C100_monitor_refuted",
    "C100_lost_refuted",
    "C100_none_refuted",
    "C100_long_refuted",
    "C100_collision_refuted",
    "C100_cpu_refuted",
    "C100_status_refuted"
   ],
   "note": "The code violates parts of it: files with monitor data cannot be converted (C100_monitor_refuted); a failed conversion destroys an earlier output (C100_lost_refuted); None and the string None, strings longer than the holder and inputs with the same stem are not told apart (C100_none_refuted, C100_long_refuted, C100_collision_refuted); a missing input is a success for the shell (C100_status_refuted). The rest is proved; reading back a char[256] is a parameter."
  },
  {
   "property": "C101",
   "status": "proved",
   "theorems": [
    "C101_mean_between",
    "C101_towards",
    "C101_grows",
    "C101_equal",
    "C101_mean_error",
    "C101_squares_error",
    "C101_order",
    "C101_reproducible_refuted"
   ],
   "note": "Overflow and NaN are outside the model (undefined under fastmath). C101_reproducible_refuted shows that results do depend on order and compilation, as the property says."
  },
  {
   "property": "C102",
   "status": "partial",
   "theorems": [
    "C102_number",
    "C102_form",
    "C102_written",
    "C102_file",
    "C102_order",
    "C102_area",
    "C102_peak",
    "C102_usual",
    "C102_short_refuted",
    "C102_inverted_refuted",
    "C102_load_refuted"
   ],
   "note": "The claims about numbers, times, values, order and area hold as stated (averages exact, one rounding of the quotient). Maximum at sample 60: proved for waveforms of more than 60 samples with positive area whose events reach their baseline; refuted for short waveforms (C102_short_refuted) and for negative area (C102_inverted_refuted). Loading: proved for 128 samples (C102_usual), refuted for 97 and 101 (C102_load_refuted)."
  },
  {
   "property": "C103",
   "status": "partial",
   "theorems": [
    "C103_exact",
    "C103_fwhm",
    "C103_range",
    "C103_rise",
    "C103_peak",
    "C103_returns",
    "C103_error",
    "C103_flat_refuted"
   ],
   "note": "All proved except that every local maximum is timed: refuted at every scale for two equal top samples (C103_flat_refuted)."
  },
  {
   "property": "C104",
   "status": "partial",
   "theorems": [
    "C104_rows",
    "C104_batches",
    "C104_empty",
    "C104_pandas",
    "C104_means_agree",
    "C104_gap_refuted",
    "C104_std_refuted"
   ],
   "note": "The accumulated table is proved right and independent of batches; that the columns of pandas belong to the row and agree is refuted with missing modules (C104_gap_refuted) and for the standard deviation (C104_std_refuted), and proved for the mean when the modules are numbered without gap."
  },
  {
   "property": "C105",
   "status": "partial",
   "theorems": [
    "C105_exact",
    "C105_range",
    "C105_peak",
    "C105_error",
    "C105_common",
    "C105_local",
    "C105_flat_refuted"
   ],
   "note": "The last sentence is refuted: with the sample before the two equal ones an ulp below, the second difference rounds to zero and the time is that of the first sample, half a sample from the vertex (every scale). The rest is proved for the function with every operation rounded. Rounding of the cross correlation itself: C92."
  },
  {
   "property": "C106",
   "status": "partial",
   "theorems": [
    "C106_opens",
    "C106_no_version",
    "C106_undescribed",
    "C106_metadata",
    "C106_tables",
    "C106_append_refuted"
   ],
   "note": "The last sentence is refuted: appending to a file of an older version stamps it with the current one (every file and session of C07). The rest is proved for all stores."
  },
  {
   "property": "C107",
   "status": "partial",
   "theorems": [
    "C107_position",
    "C107_sliding_position",
    "C107_own_waveform",
    "C107_linear",
    "C107_below_local",
    "C107_pulse",
    "C107_gain",
    "C107_times",
    "C107_dark_refuted"
   ],
   "note": "All claims are proved except that a pulse is measured whatever the neighbours see: the code takes sample 0 for dark or missing neighbours (C107_dark_refuted). ctapipe's functions are modelled by their documentation."
  },
  {
   "property": "C108",
   "status": "partial",
   "theorems": [
    "C108_peak_inside",
    "C108_peak_timing",
    "C108_timing_raises",
    "C108_no_junk",
    "C108_zero_refuted",
    "C108_late_refuted",
    "C108_junk_refuted"
   ],
   "note": "The exact conditions are proved. The claim for every length fails: zero charges (C108_zero_refuted), missed peaks (C108_late_refuted), reads outside the waveform (C108_junk_refuted)."
  },
  {
   "property": "C109",
   "status": "partial",
   "theorems": [
    "C109_limits",
    "C109_fresh",
    "C109_chunk_size",
    "C109_appended_refuted"
   ],
   "note": "Limits hold for fresh files, refuted after HDF5Appender: n_bytes counts only the new rows, so read() and the default chunks can exceed them. Rows of equal size; pandas' index overhead ignored."
  },
  {
   "property": "C110",
   "status": "partial",
   "theorems": [
    "C110_row",
    "C110_between",
    "C110_refused",
    "C110_no_gaps",
    "C110_above_refuted",
    "C110_sheet_refuted"
   ],
   "note": "Everything but the upper bound of columns with gaps is proved; that is refuted, in general and for the shipped sheet (gain, opct, pde). NaN handling of scipy/numpy is modelled from their sources."
  },
  {
   "property": "C111",
   "status": "proved",
   "theorems": [
    "C111_apart",
    "C111_shipped",
    "C111_inside"
   ],
   "note": "Numbers of the file embedded in Calib/ModelShipped.v; floating point model of C95. Samples at the edges are extrapolated (C50, C95)."
  },
  {
   "property": "C112",
   "status": "proved",
   "theorems": [
    "C112_pedestal",
    "C112_monotone",
    "C112_calibrate_error",
    "C112_fold_unfold",
    "C112_unfold_fold",
    "C112_single",
    "C112_shipped",
    "C112_beyond",
    "C112_exact_refuted"
   ],
   "note": "No overflow, no NaN; C112_exact_refuted shows that the bounds cannot be replaced by equality."
  },
  {
   "property": "C113",
   "status": "proved",
   "theorems": [
    "C113_defined",
    "C113_error",
    "C113_columns",
    "C113_numbers",
    "C113_constant",
    "C113_constant_refuted"
   ],
   "note": "np.std from its source (two passes); sums in any order. C113_constant_refuted: equality to 0 fails for a constant 0.1."
  },
  {
   "property": "C114",
   "status": "proved",
   "theorems": [
    "C114_stable",
    "C114_pulse",
    "C114_first_events",
    "C114_file",
    "C114_early_pulse_refuted"
   ],
   "note": "Exact arithmetic; the conversion to the stored type is the parameter down of C12 and C81. Composition of C41, C50, C55, C81 and C12. C114_early_pulse_refuted: without quiet first samples the charge differs."
  }
 ]
}
