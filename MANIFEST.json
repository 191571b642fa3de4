{
 "claims": [
  {
   "property": "C01",
   "status": "proved",
   "theorems": [
    "C01_parse_exact",
    "C01_later_is_lexicographic",
    "C01_later_error_iff",
    "C01_later_strict_total_order"
   ],
   "note": "Accepted language characterised exactly (iff) and Later shown to be the lexicographic strict total order on parsed versions."
  },
  {
   "property": "C02",
   "status": "partial",
   "theorems": [
    "C02_version_check_characterised",
    "C02_not_from_the_future_partial",
    "C02_future_major_accepted_refuted",
    "C02_older_rejected_refuted"
   ],
   "note": "False of the code: a config with major >= 2 is accepted and, for a source with minor > 0, older patch-level configs are rejected (two _refuted theorems). Proved: exact characterisation of the check for every source version and the property for the compiled-in 1.0.4 with config major <= 1."
  },
  {
   "property": "C03",
   "status": "proved",
   "theorems": [
    "C03_read_config_sets_exactly_what_is_assigned"
   ],
   "note": "iff theorem, for every ToLower/ParseFloat; assumes the registered pointers are distinct and registered names differ ignoring case."
  },
  {
   "property": "C04",
   "status": "proved",
   "theorems": [
    "C04_errors_diagnosed_and_nothing_set"
   ],
   "note": "Diagnosis theorem covers every outcome incl. line numbers; converse direction by C03's iff."
  },
  {
   "property": "C05",
   "status": "proved",
   "theorems": [
    "C05_layout_is_irrelevant"
   ],
   "note": "Invariance under the equivalence generated by layout edits; outcome compared up to line numbers and message text."
  },
  {
   "property": "C06",
   "status": "proved",
   "theorems": [
    "C06_flags_equal_config_lines",
    "C06_flags_set_exactly_what_they_name",
    "C06_flags_override_file_overrides_default"
   ],
   "note": "Equivalence with a config file, exact effect of flags, and override order default < file < flag; for well-formed flag groups (no '=', '#' or newline in arguments, non-blank names and values)."
  },
  {
   "property": "C07",
   "status": "partial",
   "theorems": [
    "C07_bad_value_panics_refuted",
    "C07_wrong_value_shown_refuted",
    "C07_flag_panics_refuted",
    "C07_read_config_panic_only_partial",
    "C07_read_flags_panic_only_partial",
    "C07_failed_read_leaves_partial_state_refuted"
   ],
   "note": "False of the code: error path uses vals[j] with j an index into the registered variables; also '--' alone panics. Refutations plus the exact source of every panic are proved; line number and variable name in the message are proved right in C04."
  },
  {
   "property": "C08",
   "status": "proved",
   "theorems": [
    "C08_columns_are_exact",
    "C08_success_is_always_exact",
    "C08_layout_is_irrelevant",
    "C08_every_text_has_rows"
   ],
   "note": "Parse succeeds iff the rows are a rectangular table of the requested columns (first row without control white space), and depends only on the data rows."
  },
  {
   "property": "C09",
   "status": "proved",
   "theorems": [
    "C09_output_reads_back",
    "C09_integer_tables"
   ],
   "note": "Any order/selection, int and float columns, with or without CommentString header; floats are returned as parseFloat(Sprintf(%.6g))."
  },
  {
   "property": "C10",
   "status": "partial",
   "theorems": [
    "C10_extra_field_panics_refuted",
    "C10_every_long_row_panics_refuted",
    "C10_negative_column_panics_refuted",
    "C10_malformed_is_an_error_partial"
   ],
   "note": "Refuted as stated: rows longer than the first and negative column indices panic. Partial: otherwise never panics, error iff not a table."
  },
  {
   "property": "C11",
   "status": "proved",
   "theorems": [
    "C11_shell_sorts",
    "C11_quick_sorts",
    "C11_reverse_reverses"
   ],
   "note": "Quick and Shell return a sorted permutation for every slice, buffer and length."
  },
  {
   "property": "C12",
   "status": "proved",
   "theorems": [
    "C12_nth_largest",
    "C12_buffer_is_irrelevant"
   ],
   "note": "NthLargest selects the n-th largest entry for every slice and rank."
  },
  {
   "property": "C13",
   "status": "partial",
   "theorems": [
    "C13_median_even_partial",
    "C13_median_is_rank_half_partial",
    "C13_median_of_three_is_max_refuted",
    "C13_median_odd_refuted",
    "C13_percentile_reversed_refuted"
   ],
   "note": "Proved: Median of an even number of values (and of one value) is a median. Refuted: for every odd number (>=3) of distinct values Median returns the value one rank too high, and Percentile's order is reversed with respect to its documentation. Percentile's exact rank: C110."
  },
  {
   "property": "C14",
   "status": "proved",
   "theorems": [
    "C14_search_any_guess",
    "C14_search_brackets",
    "C14_uniform_search_brackets",
    "C14_spline_search_any_guess"
   ],
   "note": ""
  },
  {
   "property": "C15",
   "status": "proved",
   "theorems": [
    "C15_linear",
    "C15_uniform_linear",
    "C15_bilinear",
    "C15_uniform_bilinear"
   ],
   "note": ""
  },
  {
   "property": "C16",
   "status": "proved",
   "theorems": [
    "C16_spline"
   ],
   "note": ""
  },
  {
   "property": "C17",
   "status": "proved",
   "theorems": [
    "C17_solves",
    "C17_panics_iff_zero_minor",
    "C17_bad_lengths_panic",
    "C17_dominant_never_panics"
   ],
   "note": "All n equations hold whenever it returns; it panics iff a leading principal minor is zero (or lengths disagree / are zero); never for dominant systems."
  },
  {
   "property": "C18",
   "status": "proved",
   "theorems": [
    "C18_multVec",
    "C18_vecMult",
    "C18_vector_shape_mismatch_panics",
    "C18_transpose"
   ],
   "note": ""
  },
  {
   "property": "C19",
   "status": "proved",
   "theorems": [
    "C19_determinant",
    "C19_factorisation",
    "C19_zero_row_panics"
   ],
   "note": ""
  },
  {
   "property": "C20",
   "status": "proved",
   "theorems": [
    "C20_xorshift_next",
    "C20_xorshift_sequence",
    "C20_tausworthe_next",
    "C20_tausworthe_sequence",
    "C20_golang_sequence",
    "C20_uniform_range",
    "C20_uniformInt_range",
    "C20_uniformAt"
   ],
   "note": "Xorshift (including termination of its retry loop for every seed and history), Tausworthe, and the Golang wrapper over an abstract source; over the reals (float rounding of Tausworthe's -eps+1 is not modelled)."
  },
  {
   "property": "C21",
   "status": "proved",
   "theorems": [
    "C21_in_unit_cube",
    "C21_points_distinct",
    "C21_exhaustion_panics",
    "C21_too_many_dimensions_panic",
    "C21_reinit_does_not_restart"
   ],
   "note": ""
  },
  {
   "property": "C22",
   "status": "proved",
   "theorems": [
    "C22_round_trip",
    "C22_portable",
    "C22_panics",
    "C22_layout"
   ],
   "note": ""
  },
  {
   "property": "C23",
   "status": "proved",
   "theorems": [
    "C23_grid_partition",
    "C23_second_insert_refuted"
   ],
   "note": "Partition, containment, Length/ReadIndexes/MaxLength for every new grid and every list of points with coordinates in [-W, 2W). Floats are reals. C23_second_insert_refuted shows that a second Insert into the same grid (outside the property) can make a cell list cyclic."
  },
  {
   "property": "C24",
   "status": "proved",
   "theorems": [
    "C24_find_subhalos",
    "C24_symmetric",
    "C24_split_finder",
    "C24_spheres_overlap_refuted",
    "C24_empty_panics_refuted"
   ],
   "note": "CSR tables, counting sort and sort are modelled step by step; floats are reals and sort.Sort is modelled by its specification. The reading that compares both spheres is refuted (C24_spheres_overlap_refuted: the radius of the later halo is ignored) and an empty catalogue panics (C24_empty_panics_refuted)."
  },
  {
   "property": "C25",
   "status": "proved",
   "theorems": [
    "C25_particle_catalog",
    "C25_built_iff_legal",
    "C25_interleave",
    "C25_rows"
   ],
   "note": "Whole pipeline GetColumn -> interleave -> names -> ParticleCatalog for the six file-backed snapshot types; fmt.Sprintf is an arbitrary function; 64-bit overflow of SnapMax-SnapMin is not modelled."
  },
  {
   "property": "C26",
   "status": "proved",
   "theorems": [
    "C26_none",
    "C26_overlap",
    "C26_neighbor",
    "C26_unknown_id"
   ],
   "note": ""
  },
  {
   "property": "C27",
   "status": "proved",
   "theorems": [
    "C27_histories",
    "C27_missing",
    "C27_one_per_snapshot"
   ],
   "note": "The library consistent_trees is a contract (TreeModel.v, tree_ok): lists from the latest on, pointers to later/earlier lists."
  },
  {
   "property": "C28",
   "status": "proved",
   "theorems": [
    "C28_partition",
    "C28_mass",
    "C28_ids",
    "C28_shell"
   ],
   "note": "every interleaving of the worker group model (goroutines + buffered channel), any number of workers; the mass sum in exact (associative, commutative) arithmetic - float64 addition is not associative, so the last bits may depend on the schedule; the inside/shell test is abstract"
  },
  {
   "property": "C29",
   "status": "proved",
   "theorems": [
    "C29_synchronize",
    "C29_always_returns"
   ],
   "note": "safety, progress, and termination of every interleaving; the programs of the workers are arbitrary"
  },
  {
   "property": "C30",
   "status": "proved",
   "theorems": [
    "C30_insert_retrieve",
    "C30_split_join",
    "C30_reused_width_refuted"
   ],
   "note": "Insert/Retrieve of any insertion history, and split/join over any workers of a matching kind; the condition on workers is shown necessary (_refuted theorem: a reused worker keeps its old bin width)."
  },
  {
   "property": "C31",
   "status": "proved",
   "theorems": [
    "C31_wrap_dist",
    "C31_transform"
   ],
   "note": "wrapDist for coordinates in the box; Transform for any sequence of in-place applications with centres in the box."
  },
  {
   "property": "C32",
   "status": "proved",
   "theorems": [
    "C32_transparent"
   ],
   "note": ""
  },
  {
   "property": "C33",
   "status": "proved",
   "theorems": [
    "C33_lookup",
    "C33_transparent",
    "C33_missing",
    "C33_sorted"
   ],
   "note": ""
  },
  {
   "property": "C34",
   "status": "proved",
   "theorems": [
    "C34_dark_matter_only",
    "C34_coordinates",
    "C34_selection",
    "C34_header_count"
   ],
   "note": "Byte-level model of reading; float conversions abstract (interface F), exactness of coordinates for exact conversions."
  },
  {
   "property": "C35",
   "status": "proved",
   "theorems": [
    "C35_float32",
    "C35_vectors",
    "C35_int32",
    "C35_int64",
    "C35_bolshoi",
    "C35_wrong_order"
   ],
   "note": "Every machine order, file order, block content and stale buffer."
  },
  {
   "property": "C36",
   "status": "proved",
   "theorems": [
    "C36_find_order",
    "C36_same_basis"
   ],
   "note": "findOrder for every length; fit matrix and PennaFunc agree for points off the polar axis (on the axis penna.go:29-30 divides by zero)"
  },
  {
   "property": "C37",
   "status": "proved",
   "theorems": [
    "C37_exactly_the_valid_points",
    "C37_splashback",
    "C37_clear"
   ],
   "note": "RingBuffer Init/Clear/Splashback/OkPlaneCoords/OkPolarCoords and the gathering loops of FilterPoints, for every sequence of calls; Smooth and SplashbackRadius are abstract"
  },
  {
   "property": "C38",
   "status": "proved",
   "theorems": [
    "C38_groups",
    "C38_coefficient_groups",
    "C38_each_snapshot_once",
    "C38_shell_writes_back",
    "C38_stats_writes_back",
    "C38_map_order_is_irrelevant",
    "C38_bookkeeping_never_crashes"
   ],
   "note": "binBySnap, binCoeffsBySnap, the snapshot loops of shell and stats and their write-back, for every map enumeration order; the per-snapshot analysis is an arbitrary row-wise procedure"
  },
  {
   "property": "C39",
   "status": "proved",
   "theorems": [
    "C39_convolution",
    "C39_right_part",
    "C39_constant",
    "C39_kernels",
    "C39_weights",
    "C39_long_kernel"
   ],
   "note": "All boundary conditions away from the left end; Extension and ZeroPad everywhere (the code only uses Extension). The left end of the other two is C69."
  },
  {
   "property": "C40",
   "status": "proved",
   "theorems": [
    "C40_second_order",
    "C40_spec_derivative",
    "C40_refused"
   ],
   "note": "pderiv is shown to be the derivative of calculus (C40_spec_derivative). Order 4 is C70."
  },
  {
   "property": "C41",
   "status": "proved",
   "theorems": [
    "C41_bicubic_history_independent",
    "C41_tricubic_history_independent",
    "C41_bicubic_table",
    "C41_tricubic_table",
    "C41_after_panic_refuted"
   ],
   "note": "For all non-panicking histories. Also shown: a recovered panic poisons the cache (C41_after_panic_refuted)."
  },
  {
   "property": "C42",
   "status": "partial",
   "theorems": [
    "C42_bad_flag_partial",
    "C42_truncation_refuted"
   ],
   "note": "Wrong flags are proved to be reported. Truncation is refuted in full generality: every prefix of every written file reads without error."
  },
  {
   "property": "C43",
   "status": "proved",
   "theorems": [
    "C43_halo_catalog",
    "C43_too_few_files"
   ],
   "note": "ReadDir's listing is an arbitrary list."
  },
  {
   "property": "C44",
   "status": "partial",
   "theorems": [
    "C44_nil_partial",
    "C44_nil_from_zero",
    "C44_nil_refuted"
   ],
   "note": "Refuted when SnapMin > 0 (InitNil leaves snapMin at 0, ParticleCatalog panics); exact behaviour proved, and the property for SnapMin = 0."
  },
  {
   "property": "C45",
   "status": "partial",
   "theorems": [
    "C45_validated_starts_partial",
    "C45_after_block_refuted",
    "C45_block_without_range_refuted",
    "C45_validate_formats_refuted"
   ],
   "note": "Refuted for numbered blocks (early return skips later meanings and Logging), for Block without ranges and for ValidateFormats = true; proved for the remaining configurations."
  },
  {
   "property": "C46",
   "status": "proved",
   "theorems": [
    "C46_named_values"
   ],
   "note": ""
  },
  {
   "property": "C47",
   "status": "partial",
   "theorems": [
    "C47_too_large_partial",
    "C47_boundary_refuted"
   ],
   "note": "Error for maxID > N (C47_too_large_partial); for maxID = N the code panics (C47_boundary_refuted)."
  },
  {
   "property": "C48",
   "status": "proved",
   "theorems": [
    "C48_never_wrong",
    "C48_short_harmless",
    "C48_sorted_never_wrong"
   ],
   "note": "Crash points are arbitrary prefixes of either cache file."
  },
  {
   "property": "C49",
   "status": "partial",
   "theorems": [
    "C49_end_dropped_refuted",
    "C49_single_refuted",
    "C49_inside_partial"
   ],
   "note": "The range without its end is printed, in order (C49_inside_partial, C49_end_dropped_refuted); a range of one ID prints nothing (C49_single_refuted): contrary to the documentation."
  },
  {
   "property": "C50",
   "status": "partial",
   "theorems": [
    "C50_ranks_partial",
    "C50_lightest_dropped_refuted",
    "C50_all_lighter_refuted",
    "C50_all_heavier_refuted"
   ],
   "note": "The computed ranks are exactly those of the halos in the range (C50_ranks_partial) but the last is dropped (C50_lightest_dropped_refuted), a range above all halos crashes (C50_all_lighter_refuted) and a range below all halos is ignored (C50_all_heavier_refuted)."
  },
  {
   "property": "C51",
   "status": "proved",
   "theorems": [
    "C51_potential",
    "C51_prof"
   ],
   "note": "per worker group (one file / one halo); the update functions are arbitrary, so the result is bit for bit"
  },
  {
   "property": "C52",
   "status": "proved",
   "theorems": [
    "C52_contains",
    "C52_penna_contains"
   ],
   "note": ""
  },
  {
   "property": "C53",
   "status": "proved",
   "theorems": [
    "C53_monte_carlo",
    "C53_sphere",
    "C53_max_diff"
   ],
   "note": ""
  },
  {
   "property": "C54",
   "status": "partial",
   "theorems": [
    "C54_trisort_partial",
    "C54_trisort_refuted"
   ],
   "note": "proved unless the first two arguments are equal; refuted for a tie"
  },
  {
   "property": "C55",
   "status": "proved",
   "theorems": [
    "C55_angular_fraction"
   ],
   "note": ""
  },
  {
   "property": "C56",
   "status": "proved",
   "theorems": [
    "C56_unit_factors",
    "C56_unknown_units_panic",
    "C56_coord_cells",
    "C56_single_snapshot"
   ],
   "note": "Reals for floats."
  },
  {
   "property": "C57",
   "status": "partial",
   "theorems": [
    "C57_integers_first_partial",
    "C57_column_order_refuted"
   ],
   "note": "holds when integer columns are requested first; refuted in general (X, Y, N prints Y, N, X)"
  },
  {
   "property": "C58",
   "status": "partial",
   "theorems": [
    "C58_accepted_values_partial",
    "C58_R2500c_refuted"
   ],
   "note": "holds when values are configured columns or R200m/R200c/R500c; refuted for R2500c derived from M2500c"
  },
  {
   "property": "C59",
   "status": "partial",
   "theorems": [
    "C59_stats_placeholders_partial",
    "C59_stats_first_row_refuted",
    "C59_shell_refuted"
   ],
   "note": "stats passes them through unless the first row is one (then it crashes); shell crashes on every input containing one (refuted)"
  },
  {
   "property": "C60",
   "status": "proved",
   "theorems": [
    "C60_tree_output",
    "C60_repeated_selection"
   ],
   "note": "tree.go:95-124"
  },
  {
   "property": "C61",
   "status": "proved",
   "theorems": [
    "C61_radius_mass_inverse",
    "C61_mean_density",
    "C61_radii_ordered",
    "C61_names"
   ],
   "note": ""
  },
  {
   "property": "C62",
   "status": "proved",
   "theorems": [
    "C62_transpose"
   ],
   "note": "cmd/shell.go:272-286"
  },
  {
   "property": "C63",
   "status": "partial",
   "theorems": [
    "C63_sheet_intersect_partial",
    "C63_half_box_refuted",
    "C63_kernel_refuted"
   ],
   "note": "False of the code: a file that covers half of the box can be skipped although it holds a particle of the halo, and the kernel radius is ignored (two _refuted theorems). Proved for particle centres within rMax and files not wider than half the box less the radius (or as wide as the box)."
  },
  {
   "property": "C64",
   "status": "partial",
   "theorems": [
    "C64_bin_centres",
    "C64_shell_densities_partial",
    "C64_ghost_refuted"
   ],
   "note": "Proved end to end (createHalos, sphereLoop with any number of workers and files, GetRhos), except for balls centred exactly on the halo and for balls for which a ray pointing away may be hit too; there it is false (_refuted theorem)."
  },
  {
   "property": "C65",
   "status": "proved",
   "theorems": [
    "C65_rotation"
   ],
   "note": "exact arithmetic"
  },
  {
   "property": "C66",
   "status": "partial",
   "theorems": [
    "C66_wrap_refuted"
   ],
   "note": "False of the code for every displacement that has to be wrapped: the theorem says that wrap returns the nearest image iff |x| <= L/2."
  },
  {
   "property": "C67",
   "status": "proved",
   "theorems": [
    "C67_each_particle_once",
    "C67_threads"
   ],
   "note": "exact arithmetic; workers are new or were used for halos of the same shape (as createHalos makes them)."
  },
  {
   "property": "C68",
   "status": "proved",
   "theorems": [
    "C68_intersect"
   ],
   "note": ""
  },
  {
   "property": "C69",
   "status": "partial",
   "theorems": [
    "C69_left_end_partial",
    "C69_periodic_refuted",
    "C69_reflection_refuted",
    "C69_get_partial",
    "C69_get_refuted"
   ],
   "note": "False of the code: what is read instead is characterised exactly (C69_left_end_partial) and refuted for whole families; Get panics just after the end of a mirrored signal."
  },
  {
   "property": "C70",
   "status": "partial",
   "theorems": [
    "C70_fourth_order_partial",
    "C70_interior_refuted",
    "C70_other_orders",
    "C70_nonuniform_refuted"
   ],
   "note": "False of the code: the inner samples are 4/3 of the derivative on every uniform grid; the two samples at each end are exact (C70_fourth_order_partial)."
  },
  {
   "property": "C71",
   "status": "proved",
   "theorems": [
    "C71_savgol",
    "C71_refused",
    "C71_refused_derivative"
   ],
   "note": ""
  },
  {
   "property": "C72",
   "status": "proved",
   "theorems": [
    "C72_smooth",
    "C72_smooth_values",
    "C72_refused"
   ],
   "note": ""
  },
  {
   "property": "C73",
   "status": "proved",
   "theorems": [
    "C73_splashback_radius",
    "C73_lengths"
   ],
   "note": ""
  },
  {
   "property": "C74",
   "status": "proved",
   "theorems": [
    "C74_ring",
    "C74_clear",
    "C74_narrow",
    "C74_ok_coords",
    "C74_reachable"
   ],
   "note": "line_result states the contents of one line; C74_reachable discharges the hypotheses for every halo that was initialised and given any spheres."
  },
  {
   "property": "C75",
   "status": "partial",
   "theorems": [
    "C75_snapshots_partial",
    "C75_short_file_refuted"
   ],
   "note": "Right for files that cover as many snapshots as there are halo catalogues; refuted for files that cover fewer (their halos' snapshots are too small)."
  },
  {
   "property": "C76",
   "status": "proved",
   "theorems": [
    "C76_gaussian_kde"
   ],
   "note": ""
  },
  {
   "property": "C77",
   "status": "proved",
   "theorems": [
    "C77_panics",
    "C77_root",
    "C77_levels"
   ],
   "note": ""
  },
  {
   "property": "C78",
   "status": "proved",
   "theorems": [
    "C78_filter_nearby",
    "C78_filter_points",
    "C78_panics"
   ],
   "note": ""
  },
  {
   "property": "C79",
   "status": "proved",
   "theorems": [
    "C79_least_squares",
    "C79_exact",
    "C79_points",
    "C79_no_points",
    "C79_volume_fit"
   ],
   "note": "gonum's Inverse enters through the contract inverts_posdef (met by the concrete pd_inverse), Mul as the matrix product."
  },
  {
   "property": "C80",
   "status": "proved",
   "theorems": [
    "C80_rows",
    "C80_threads",
    "C80_order"
   ],
   "note": "shell_rows on a catalogue = the rows of its singletons; corollaries for threads and line order. Hypotheses: usable_config, usable_catalogue (Props_ShellRun.v). Percentile mode is not covered here."
  },
  {
   "property": "C81",
   "status": "proved",
   "theorems": [
    "C81_accepts",
    "C81_names",
    "C81_usable",
    "C81_window_fatal",
    "C81_check_refuted"
   ],
   "note": "Accepted set characterised exactly; usable and fatal windows both proved for all data (C81_window_fatal). C81_check_refuted is the concrete even window."
  },
  {
   "property": "C82",
   "status": "partial",
   "theorems": [
    "C82_snapshot_refuted",
    "C82_radius_refuted"
   ],
   "note": "Refuted: both kinds of lines make the whole run fail (C82_snapshot_refuted, C82_radius_refuted), for all other lines, configurations and data. For snapshot -1 it is assumed that the simulation has no snapshot -1."
  },
  {
   "property": "C83",
   "status": "proved",
   "theorems": [
    "C83_percentile",
    "C83_from_the_top"
   ],
   "note": "The product Percentile/100*N is computed exactly in the model (a rational), not in float64."
  },
  {
   "property": "C84",
   "status": "proved",
   "theorems": [
    "C84_disk_pixel",
    "C84_cells_disjoint",
    "C84_numbers",
    "C84_disk_areas",
    "C84_disk_edge_refuted",
    "C84_sphere_pixel",
    "C84_equator_refuted",
    "C84_solid_angles"
   ],
   "note": "Reals for floats; the two exceptions are the theorems C84_disk_edge_refuted and C84_equator_refuted."
  },
  {
   "property": "C85",
   "status": "proved",
   "theorems": [
    "C85_insert_points",
    "C85_bins",
    "C85_densities",
    "C85_inner_edge",
    "C85_boundary_refuted"
   ],
   "note": "Reals for floats; files' particles are read in one piece; C85_boundary_refuted is the exception in the statement. The shell of contained-density is an arbitrary predicate (C21 describes it)."
  },
  {
   "property": "C86",
   "status": "proved",
   "theorems": [
    "C86_insert",
    "C86_percentiles"
   ],
   "note": "Reals for floats; percentile/100 is a fraction num/den (C13); the level-1 exception is a hypothesis (C84_equator_refuted). Rank counts from the largest (C13)."
  },
  {
   "property": "C87",
   "status": "partial",
   "theorems": [
    "C87_rows_refuted",
    "C87_silent_refuted"
   ],
   "note": "Refuted: Run returns nil, nil inside the loop over files after the first file that meets a halo, so no profile is ever printed (C87_silent_refuted); rows are printed only when no file meets any halo, with all densities zero (C87_rows_refuted). median-error and angular-fraction are not in this model."
  },
  {
   "property": "C88",
   "status": "partial",
   "theorems": [
    "C88_accepts",
    "C88_names",
    "C88_rmax_name_refuted",
    "C88_required_refuted",
    "C88_ranges_refuted",
    "C88_percentile_refuted"
   ],
   "note": "C88_accepts characterises what is accepted, C88_names the names in errors; refuted: a bad RMaxMult is reported as RMinMult, ProfileType is not required without file and flags, Bins = 0, RMinMult >= RMaxMult and Percentile > 100 are accepted."
  },
  {
   "property": "C89",
   "status": "partial",
   "theorems": [
    "C89_decreasing_table_refuted"
   ],
   "note": "False of the code: every query on a decreasing table panics."
  },
  {
   "property": "C90",
   "status": "partial",
   "theorems": [
    "C90_trilinear_partial",
    "C90_uniform_trilinear_partial",
    "C90_trilinear_refuted"
   ],
   "note": "TriLinear looks z up in the y table: proved when the two tables coincide, refuted otherwise."
  },
  {
   "property": "C91",
   "status": "partial",
   "theorems": [
    "C91_decreasing_spline_partial",
    "C91_decreasing_deriv_refuted",
    "C91_two_points_refuted",
    "C91_integrate_refuted"
   ],
   "note": "Decreasing tables: Eval and inner derivatives proved (C91_decreasing_spline_partial), derivatives at the ends refuted; two-point tables and integrals from inside a cell refuted."
  },
  {
   "property": "C92",
   "status": "partial",
   "theorems": [
    "C92_mult_partial",
    "C92_multAt_partial",
    "C92_mult_narrow_refuted",
    "C92_mult_wide_refuted",
    "C92_mult_shape_mismatch_panics"
   ],
   "note": "Proved for one-row first factors or square second factors; all other shapes refuted (panic, or the bottom-right entry is always 0)."
  },
  {
   "property": "C93",
   "status": "partial",
   "theorems": [
    "C93_solveVector_partial",
    "C93_luSolveVector_partial",
    "C93_solveVector_refuted",
    "C93_triangular_systems_partial",
    "C93_invert_partial",
    "C93_luSolveMatrix_in_place_partial",
    "C93_solveMatrix_ignores_b_refuted",
    "C93_solveMatrix_refuted",
    "C93_zero_corner_refuted"
   ],
   "note": "SolveVector, Invert and in-place SolveMatrix proved exactly when no rows were interchanged and refuted otherwise; Matrix.SolveMatrix refuted (ignores b)."
  },
  {
   "property": "C94",
   "status": "partial",
   "theorems": [
    "C94_mixed_dimensions_refuted"
   ],
   "note": "Refuted: a concrete interleaving repeats values."
  },
  {
   "property": "C95",
   "status": "partial",
   "theorems": [
    "C95_start_byte_partial",
    "C95_start_byte_refuted"
   ],
   "note": "StartByte is right exactly for halos preceded only by empty ones (C95_start_byte_partial), refuted in general (totLen is never incremented)."
  },
  {
   "property": "C96",
   "status": "partial",
   "theorems": [
    "C96_crash_refuted"
   ],
   "note": "Refuted: a crash in the middle of writing the cache file leaves a file that makes later calls fail."
  },
  {
   "property": "C97",
   "status": "partial",
   "theorems": [
    "C97_header_partial",
    "C97_duplicate_types_refuted",
    "C97_big_endian_header_refuted",
    "C97_empty_file_refuted",
    "C97_no_mass_block_refuted",
    "C97_large_id_block_refuted"
   ],
   "note": "Little endian headers are proved to be read; refuted: big endian headers, duplicate type indices in the count, empty files, files without a mass block, id blocks of 2 GiB and more."
  },
  {
   "property": "C98",
   "status": "partial",
   "theorems": [
    "C98_short_read_refuted"
   ],
   "note": "Refuted: short reads are silent, with stale words."
  },
  {
   "property": "C99",
   "status": "partial",
   "theorems": [
    "C99_unknown_refuted"
   ],
   "note": "Refuted: a name without a meaning is answered with the first column."
  },
  {
   "property": "C100",
   "status": "partial",
   "theorems": [
    "C100_torn_full_refuted"
   ],
   "note": "Refuted: a torn full file is never rebuilt and halos of the catalogue stay unavailable."
  },
  {
   "property": "C101",
   "status": "partial",
   "theorems": [
    "C101_mass_test_partial",
    "C101_mass_test_refuted",
    "C101_shell_particles_partial",
    "C101_shell_particles_refuted"
   ],
   "note": "The fast tests are proved for valid bounds with 0 <= rLow (and width*R <= rLow); refuted for sampled bounds and for wide bands."
  },
  {
   "property": "C102",
   "status": "partial",
   "theorems": [
    "C102_radius_partial",
    "C102_radius_refuted",
    "C102_diff_volume_refuted"
   ],
   "note": "Refuted: R_sp uses exponent 0.33333 (C102_radius_partial: equal up to that), DiffVolume is wrong."
  },
  {
   "property": "C103",
   "status": "partial",
   "theorems": [
    "C103_angular_fraction_refuted"
   ],
   "note": "Refuted when the shell leaves the profile's range."
  },
  {
   "property": "C104",
   "status": "partial",
   "theorems": [
    "C104_mixed_snapshots_refuted",
    "C104_shell_background_refuted"
   ],
   "note": "Refuted: coord uses the cosmology of the first row's snapshot, shell the background density of the smallest snapshot's header."
  },
  {
   "property": "C105",
   "status": "partial",
   "theorems": [
    "C105_mass_name_refuted"
   ],
   "note": "Refuted: MassString(R500c) is R500c."
  },
  {
   "property": "C106",
   "status": "partial",
   "theorems": [
    "C106_centre_refuted"
   ],
   "note": "Refuted: such balls are rejected although they cover inner bins."
  },
  {
   "property": "C107",
   "status": "partial",
   "theorems": [
    "C107_second_derivative_refuted"
   ],
   "note": "Refuted for second derivatives of order 4 at every width (the code forgets the row interchanges of LU). Missing: other derivative orders."
  },
  {
   "property": "C108",
   "status": "partial",
   "theorems": [
    "C108_stale_spacing_refuted"
   ],
   "note": "Refuted when bin widths differ between calls (kernels are cached by window only)."
  },
  {
   "property": "C109",
   "status": "partial",
   "theorems": [
    "C109_empty_ring_reported_refuted"
   ],
   "note": "Refuted: a ring without valid points panics."
  },
  {
   "property": "C110",
   "status": "proved",
   "theorems": [
    "C110_percentile_rank"
   ],
   "note": "p n is computed exactly (the code rounds it to float64 first)."
  },
  {
   "property": "C111",
   "status": "proved",
   "theorems": [
    "C111_runs_agree",
    "C111_check"
   ],
   "note": "For sequential runs (simultaneous runs: C115). Assumes the config file does not change during a run and Stat only fails for missing files."
  },
  {
   "property": "C112",
   "status": "partial",
   "theorems": [
    "C112_killed_blocks",
    "C112_killed_refuted",
    "C112_cut_number_refuted"
   ],
   "note": "False of the code: the copy is not atomic. Refuted by two concrete crashes (invalid prefix; valid prefix with a cut number) and in general (C112_killed_blocks: any crash that leaves an invalid prefix locks the directory until it is cleared)."
  },
  {
   "property": "C113",
   "status": "proved",
   "theorems": [
    "C113_headers_current"
   ],
   "note": "Combines the memo directory check with header memoisation; headers that depend on other variables: C114; torn header files: C96."
  },
  {
   "property": "C114",
   "status": "partial",
   "theorems": [
    "C114_stale_refuted",
    "C114_nil_cosmology_refuted",
    "C114_uncompared_refuted"
   ],
   "note": "False of the code: NilSnap*, Gadget* and LGadgetNpartNum, ScaleFactorFile are not compared. Refuted: end-to-end with nil snapshots, and in general the second run gets the first run's headers (C114_stale_refuted)."
  },
  {
   "property": "C115",
   "status": "partial",
   "theorems": [
    "C115_race_refuted",
    "C115_conflict_refuted"
   ],
   "note": "False of the code: check and copy are not atomic. Refuted by a schedule of two conflicting valid configurations."
  },
  {
   "property": "C116",
   "status": "proved",
   "theorems": [
    "C116_accepts"
   ],
   "note": "iff theorem over all texts; validateDir and the float/lower-case library functions are parameters; assumes the 34 variable names differ after lower-casing (shown for ASCII lower-casing)."
  },
  {
   "property": "C117",
   "status": "partial",
   "theorems": [
    "C117_all_set_partial",
    "C117_missing_refuted"
   ],
   "note": "False of the code: an unset NilSnapOmegaL skips the other checks. Proved if NilSnapOmegaL is set."
  },
  {
   "property": "C118",
   "status": "proved",
   "theorems": [
    "C118_failure_reaches_end",
    "C118_no_false_alarm"
   ],
   "note": "For pipes of any length; the excluded cases are C119."
  },
  {
   "property": "C119",
   "status": "partial",
   "theorems": [
    "C119_silence_spreads",
    "C119_panic_refuted",
    "C119_logging_refuted",
    "C119_blank_line_refuted"
   ],
   "note": "False of the code: panics, an unknown Logging value and the empty line printed by validate all hide the failure from later stages. Three refutations and the general theorem C119_silence_spreads."
  },
  {
   "property": "C120",
   "status": "partial",
   "theorems": [
    "C120_tree_refuted"
   ],
   "note": "False of the code: the TreeType check is unreachable. Refuted for a valid config, any tree run and any input."
  },
  {
   "property": "C121",
   "status": "proved",
   "theorems": [
    "C121_arguments"
   ],
   "note": "All argument lists."
  },
  {
   "property": "C122",
   "status": "proved",
   "theorems": [
    "C122_nil_refused"
   ],
   "note": "Any mode behaviour, configuration and input."
  },
  {
   "property": "C123",
   "status": "proved",
   "theorems": [
    "C123_total_cells",
    "C123_cells_partition"
   ],
   "note": "C123_total_cells: cell gains exactly the mass of the particles in it; C123_cells_partition: cells are disjoint and cover everything inside RMax and below VMax. Exact real arithmetic; particles within half a box of the centre."
  },
  {
   "property": "C124",
   "status": "partial",
   "theorems": [
    "C124_radial_cells_partial",
    "C124_fast_infall_refuted"
   ],
   "note": "Proved provided no particle sits exactly at the centre and none falls in with a radial velocity between -VMax-dv and -VMax; C124_fast_infall_refuted shows that such a particle is wrongly counted in the first velocity bin (int() truncates toward zero, phase.go)."
  },
  {
   "property": "C125",
   "status": "proved",
   "theorems": [
    "C125_axes_densities"
   ],
   "note": "Exact real arithmetic."
  },
  {
   "property": "C126",
   "status": "proved",
   "theorems": [
    "C126_rows"
   ],
   "note": "For every map order; particles near a halo need not wrap; radial profiles under the provisos of C124."
  },
  {
   "property": "C127",
   "status": "partial",
   "theorems": [
    "C127_layout",
    "C127_header_refuted"
   ],
   "note": "C127_layout fixes where the values are written; C127_header_refuted: the header swaps the numbers of R and V columns, so with RBins <> VBins it names wrong columns."
  },
  {
   "property": "C128",
   "status": "partial",
   "theorems": [
    "C128_nil_header_partial",
    "C128_late_snapshots_refuted",
    "C128_shifted_refuted"
   ],
   "note": "Proved for SnapMin = 0. For SnapMin > 0 false: InitNil leaves snapMin at 0, so the last SnapMin snapshots panic (C128_late_snapshots_refuted) and the others get the scale factor of a later snapshot (C128_shifted_refuted)."
  },
  {
   "property": "C129",
   "status": "partial",
   "theorems": [
    "C129_cells_partial",
    "C129_printed_refuted"
   ],
   "note": "C129_cells_partial: each cell holds the potential at the point with minus the grid's coordinates, the grid being n equal steps from -G to G. The claim itself is false (C129_printed_refuted, for every grid size and every single particle off the plane a + b = 0): the maps are mirrored through the centre, and the printed radii have another spacing (ncells instead of ncells - 1)."
  },
  {
   "property": "C130",
   "status": "proved",
   "theorems": [
    "C130_rows",
    "C130_all_used"
   ],
   "note": "C130_rows for any ParticleFraction, C130_all_used for ParticleFraction = 1. No particle at exactly RMaxMult radii; exact real arithmetic; maps mirrored as in C129."
  },
  {
   "property": "C131",
   "status": "proved",
   "theorems": [
    "C131_layout",
    "C131_header"
   ],
   "note": "C131_layout and C131_header agree column by column; at least two cells per side."
  },
  {
   "property": "C132",
   "status": "partial",
   "theorems": [
    "C132_periodic_refuted"
   ],
   "note": "False: C132_periodic_refuted: particles whose unwrapped distance exceeds RMaxMult radii are left out, although their files are read. Without particles across a face the maps are right in the sense of C129/C130."
  },
  {
   "property": "C133",
   "status": "proved",
   "theorems": [
    "C133_verdict"
   ],
   "note": "Real arithmetic; masses different from -1 (the code's 'no failure' marker), no particle exactly on the sphere of the example halo, halo not across the box edge. Exact set of failures in both directions."
  },
  {
   "property": "C134",
   "status": "partial",
   "theorems": [
    "C134_other_files_refuted"
   ],
   "note": "Refuted: only the first file of the last snapshot is examined; the verdict is independent of all other files."
  },
  {
   "property": "C135",
   "status": "partial",
   "theorems": [
    "C135_zero_refuted"
   ],
   "note": "Refuted: a field set to 0 is not compared; the verdict is independent of the header's value."
  },
  {
   "property": "C136",
   "status": "partial",
   "theorems": [
    "C136_uncounted_refuted"
   ],
   "note": "Refuted for gotetra and ARTIO (every positive ParticleCount is reported wrong) and for Bolshoi (constant 2048^3)."
  },
  {
   "property": "C137",
   "status": "partial",
   "theorems": [
    "C137_wanted_header_accepted",
    "C137_documented_accepted_partial",
    "C137_documented_header_refuted",
    "C137_ncells_refuted"
   ],
   "note": "Proved for id, tree, stats, prof, shell and check; refuted for phase, potential and coord (the example header differs from the registered one, every such file is rejected) and for NCells of potential mode. ToLower is assumed to lower ASCII text; ParseFloat is arbitrary."
  },
  {
   "property": "C138",
   "status": "proved",
   "theorems": [
    "C138_id",
    "C138_stats",
    "C138_phase",
    "C138_potential",
    "C138_nothing_given"
   ],
   "note": "Equivalence, file without flags or flags without file; without either the defaults are returned unchecked."
  },
  {
   "property": "C139",
   "status": "partial",
   "theorems": [
    "C139_empty_range_refuted"
   ],
   "note": "Refuted: the error is built but not returned; every inverted range is accepted."
  },
  {
   "property": "C140",
   "status": "partial",
   "theorems": [
    "C140_documented_defaults_partial",
    "C140_exclusion_mult_refuted"
   ],
   "note": "Proved for all stated defaults of id, stats, shell and coord except ExclusionRadiusMult (documented 0.8, real 1), for which it is refuted."
  },
  {
   "property": "C141",
   "status": "partial",
   "theorems": [
    "C141_tree_output_partial",
    "C141_repeated_selection_refuted",
    "C141_missing_halo"
   ],
   "note": "Proved for SnapMin >= 0 and SelectSnaps without repetitions, from the bytes of the input to the words of the output lines; refuted for repeated entries of SelectSnaps (each row is printed once per repetition). tree_ok is the contract of the consistent_trees library."
  },
  {
   "property": "C142",
   "status": "partial",
   "theorems": [
    "C142_separators_refuted"
   ],
   "note": "Refuted: with SnapMin >= 0 the sentinel rows are filtered out, so no output ever has them."
  },
  {
   "property": "C143",
   "status": "proved",
   "theorems": [
    "C143_tree_files"
   ],
   "note": "Names only; reading the directory is the operating system's."
  },
  {
   "property": "C144",
   "status": "partial",
   "theorems": [
    "C144_region",
    "C144_empty_refuted"
   ],
   "note": "Proved for every non-empty list of particles in the box; a file without particles makes the code panic (C144_empty_refuted). Floats are reals."
  },
  {
   "property": "C145",
   "status": "partial",
   "theorems": [
    "C145_not_skipped_partial",
    "C145_skipped_refuted"
   ],
   "note": "Proved when, along every axis, the region is the whole box or at most half of it less the radius; refuted otherwise (a two-particle file 49 wide in a box of 100)."
  },
  {
   "property": "C146",
   "status": "partial",
   "theorems": [
    "C146_particles_partial",
    "C146_header_partial",
    "C146_big_endian_header_refuted",
    "C146_big_endian_refuted"
   ],
   "note": "Proved for little endian files. Refuted for big endian files: the header is always read little endian, so the particle number of every file with 1 to 255 particles is wrong (C146_big_endian_header_refuted), and no such file is ever read correctly (C146_big_endian_refuted)."
  },
  {
   "property": "C147",
   "status": "partial",
   "theorems": [
    "C147_in_box_partial",
    "C147_outside_refuted",
    "C147_corrupt"
   ],
   "note": "Proved for coordinates less than one width outside of the box; between one and two widths below or two and three above the box, positions are accepted and returned outside of the box (C147_outside_refuted); beyond that the corruption error (C147_corrupt). Exact arithmetic."
  },
  {
   "property": "C148",
   "status": "partial",
   "theorems": [
    "C148_total_partial",
    "C148_species_refuted"
   ],
   "note": "The counters are read right in little endian files; a wrong LGadgetNpartNum = 2 with 1 to 100000 particles of the first species is not noticed and gives a multiple of 2^32 (C148_species_refuted)."
  },
  {
   "property": "C149",
   "status": "partial",
   "theorems": [
    "C149_segment",
    "C149_new",
    "C149_documented_flag_refuted"
   ],
   "note": "Proved for both byte orders with the flags that the code uses (0 little, -1 big); the documented flags are the other way round, and a little endian file that follows the comment is refused (C149_documented_flag_refuted)."
  },
  {
   "property": "C150",
   "status": "proved",
   "theorems": [
    "C150_once",
    "C150_file_coords"
   ],
   "note": "Over the reading model with a byte buffer; snapshot layout in SheetSpec."
  },
  {
   "property": "C151",
   "status": "partial",
   "theorems": [
    "C151_stale_refuted",
    "C151_wrong_shape"
   ],
   "note": "Only files with another grid count are reported (C151_wrong_shape); a missing or cut off file returns the particles of the file before it without an error (C151_stale_refuted)."
  },
  {
   "property": "C152",
   "status": "partial",
   "theorems": [
    "C152_ids_refuted"
   ],
   "note": "Refuted: all ids are 0 and no velocities are returned (C152_ids_refuted)."
  },
  {
   "property": "C153",
   "status": "proved",
   "theorems": [
    "C153_bolshoi",
    "C153_bolshoiP"
   ],
   "note": "For any float arithmetic; file layouts in BolshoiSpec; the buffers must be large enough (slice bounds), as allocated by the code."
  },
  {
   "property": "C154",
   "status": "partial",
   "theorems": [
    "C154_once_partial",
    "C154_onceP_partial",
    "C154_lower_face_refuted",
    "C154_rounding_refuted"
   ],
   "note": "Proved when the cell faces are computed without rounding and coordinates lie in (0, W]; a coordinate 0 is in no cell (C154_lower_face_refuted), and with IEEE single precision, 12 cells and a box of 250, one particle is returned by no file and another by two (C154_rounding_refuted)."
  },
  {
   "property": "C155",
   "status": "partial",
   "theorems": [
    "C155_header_partial",
    "C155_n_refuted"
   ],
   "note": "The region contains all returned particles; N counts the boundary copies also (C155_n_refuted)."
  },
  {
   "property": "C156",
   "status": "proved",
   "theorems": [
    "C156_cut_bolshoi",
    "C156_cut_bolshoiP"
   ],
   "note": "Reading panics (None in the model) at every cut position."
  },
  {
   "property": "C157",
   "status": "proved",
   "theorems": [
    "C157_point",
    "C157_spheres",
    "C157_tetra_contained",
    "C157_bounding_sphere",
    "C157_bounding_tight"
   ],
   "note": "Exact arithmetic, radii >= 0."
  },
  {
   "property": "C158",
   "status": "partial",
   "theorems": [
    "C158_contains_partial",
    "C158_documented_refuted"
   ],
   "note": "The roles are swapped: it is true exactly when s2 is strictly smaller and contained in s1 (C158_contains_partial); when s1 is contained in s2, as documented, it is false (C158_documented_refuted)."
  },
  {
   "property": "C159",
   "status": "partial",
   "theorems": [
    "C159_overlap_partial",
    "C159_inside_refuted"
   ],
   "note": "Sound; incomplete: a sphere inside of a tetrahedron is not found (C159_inside_refuted)."
  },
  {
   "property": "C160",
   "status": "partial",
   "theorems": [
    "C160_segment_partial",
    "C160_other_axes_refuted"
   ],
   "note": "Right when the y and z terms of the linear coefficient vanish; the factor 2 is missing for them: a segment along y through the unit sphere is not found (C160_other_axes_refuted)."
  },
  {
   "property": "C161",
   "status": "proved",
   "theorems": [
    "C161_corner",
    "C161_moved",
    "C161_corners_moved",
    "C161_reordered",
    "C161_cut",
    "C161_flat"
   ],
   "note": "Exact arithmetic."
  },
  {
   "property": "C162",
   "status": "partial",
   "theorems": [
    "C162_orient_partial",
    "C162_outward_refuted"
   ],
   "note": "The vertices are kept and all faces point the same way, but with right-hand normals inward for +1 (C162_outward_refuted)."
  },
  {
   "property": "C163",
   "status": "partial",
   "theorems": [
    "C163_distances_partial",
    "C163_no_false_hits",
    "C163_face_refuted"
   ],
   "note": "Exact for rays through the interior of a tetrahedron that has been oriented with +1, and no false distances for any ray; for a ray in the plane of a face the distance is NaN (C163_face_refuted). Rays that only touch the surface are not covered."
  },
  {
   "property": "C164",
   "status": "proved",
   "theorems": [
    "C164_translate",
    "C164_dot",
    "C164_segment"
   ],
   "note": "Exact arithmetic."
  },
  {
   "property": "C165",
   "status": "partial",
   "theorems": [
    "C165_line_init",
    "C165_solve_partial",
    "C165_solve_found_partial",
    "C165_perpendicular_refuted"
   ],
   "note": "Init and every point that Solve returns are right; perpendicular vertical and horizontal lines are reported as parallel (C165_perpendicular_refuted)."
  },
  {
   "property": "C166",
   "status": "partial",
   "theorems": [
    "C166_aligned_refuted",
    "C166_aligned_partial"
   ],
   "note": "Right for rays from the origin only; the direction is taken as a second point (C166_aligned_refuted)."
  },
  {
   "property": "C167",
   "status": "partial",
   "theorems": [
    "C167_distance_partial",
    "C167_range_refuted",
    "C167_in_range_partial",
    "C167_end_refuted"
   ],
   "note": "The distance is right, with values in [-pi, pi] instead of the documented range (C167_range_refuted); the range test misses direction 0 when the range ends at 2 pi (C167_end_refuted)."
  },
  {
   "property": "C168",
   "status": "partial",
   "theorems": [
    "C168_corners",
    "C168_found",
    "C168_in_plane",
    "C168_whole",
    "C168_cycle",
    "C168_on_edge",
    "C168_touching_refuted"
   ],
   "note": "All proved, including that the polygon of the corners is exactly the intersection (C168_whole), except for planes with no vertex below them: the lowest face is not found when the plane touches it (C168_touching_refuted)."
  },
  {
   "property": "C169",
   "status": "partial",
   "theorems": [
    "C169_furthest",
    "C169_closest_refuted"
   ],
   "note": "The furthest point is right; the closest point may be nearer than the closest corner (C169_closest_refuted)."
  },
  {
   "property": "C170",
   "status": "partial",
   "theorems": [
    "C170_unit_normals",
    "C170_new",
    "C170_unique_partial",
    "C170_icosahedron_refuted",
    "C170_new_unique"
   ],
   "note": "Normals are right for all solids; the unique normals are for all but the icosahedron, where two are opposite (C170_icosahedron_refuted)."
  },
  {
   "property": "C171",
   "status": "proved",
   "theorems": [
    "C171_block",
    "C171_names",
    "C171_protocol",
    "C171_close"
   ],
   "note": "exact arithmetic; go-artio is a contract (a fileset is a record of header fields and per-range particle lists); the hubble field is assumed to be present"
  },
  {
   "property": "C172",
   "status": "partial",
   "theorems": [
    "C172_ignored_refuted",
    "C172_other_snapshot_refuted",
    "C172_example_refuted"
   ],
   "note": "refuted: the fileset part of the name is ignored (artio.go:133), so the block of the same number of the buffer's own fileset is returned"
  },
  {
   "property": "C173",
   "status": "proved",
   "theorems": [
    "C173_min_mass"
   ],
   "note": "exact arithmetic"
  },
  {
   "property": "C174",
   "status": "partial",
   "theorems": [
    "C174_header_partial",
    "C174_empty_block_refuted"
   ],
   "note": "proved for blocks with at least one particle; refuted for empty blocks, where ReadHeader panics (artio.go:258 and boundingBox)"
  },
  {
   "property": "C175",
   "status": "partial",
   "theorems": [
    "C175_no_nbody_refuted"
   ],
   "note": "refuted: nBodyFlags counts every label (artio.go:201), so the error is only returned when there are no labels at all"
  },
  {
   "property": "C176",
   "status": "partial",
   "theorems": [
    "C176_error_lost_refuted"
   ],
   "note": "refuted: the error of Read is overwritten (artio.go:222-227) and xs[0] panics"
  },
  {
   "property": "C177",
   "status": "partial",
   "theorems": [
    "C177_mass_partial",
    "C177_mass_inside_partial",
    "C177_edge_refuted"
   ],
   "note": "Proved for halos that do not straddle the edge of the box and shells within R200m (files are chosen by the R200m sphere; C178_other_halos_refuted shows that particles of the shell beyond it are missed). C177_mass_inside_partial: exactly the mass inside if the sampled radii bracket the shell."
  },
  {
   "property": "C178",
   "status": "partial",
   "theorems": [
    "C178_other_halos_refuted"
   ],
   "note": "Refuted: files are read if the R200m sphere of any halo meets them and are then used for all halos, so that the M_sp of a row depends on the other lines. C177 proves independence for shells within R200m."
  },
  {
   "property": "C179",
   "status": "partial",
   "theorems": [
    "C179_ids_partial",
    "C179_file"
   ],
   "note": "Proved for halos that do not straddle the edge of the box, shells within R200m less the width, no particle exactly at the centre. The file part (C179_file) is for all data that fits."
  },
  {
   "property": "C180",
   "status": "partial",
   "theorems": [
    "C180_write_error_refuted"
   ],
   "note": "Refuted: the error is dropped (stats.go:345)."
  },
  {
   "property": "C181",
   "status": "partial",
   "theorems": [
    "C181_exclusion_refuted",
    "C181_ignored"
   ],
   "note": "Refuted: the option is accepted but has no effect; neither has Values."
  },
  {
   "property": "C182",
   "status": "proved",
   "theorems": [
    "C182_skip_mass",
    "C182_placeholder_rows",
    "C182_other_columns",
    "C182_no_file",
    "C182_options"
   ],
   "note": "All parts."
  },
  {
   "property": "C183",
   "status": "proved",
   "theorems": [
    "C183_header",
    "C183_layout"
   ],
   "note": "Header text and layout."
  },
  {
   "property": "C184",
   "status": "proved",
   "theorems": [
    "C184_sphere",
    "C184_scaling",
    "C184_columns",
    "C184_plane"
   ],
   "note": "Over real arithmetic."
  },
  {
   "property": "C185",
   "status": "partial",
   "theorems": [
    "C185_tensor",
    "C185_lengths_partial",
    "C185_tie_refuted",
    "C185_direction_partial",
    "C185_direction_refuted"
   ],
   "note": "Tensor and lengths proved (lengths unless the two compared first are equal and longest). Direction proved if the first eigenvalue belongs to the longest axis; refuted otherwise: ay2 and az2 are swapped, so that the eigenvector of another axis is returned."
  },
  {
   "property": "C186",
   "status": "proved",
   "theorems": [
    "C186_histogram"
   ],
   "note": "Over real arithmetic."
  },
  {
   "property": "C187",
   "status": "proved",
   "theorems": [
    "C187_header",
    "C187_profiles"
   ],
   "note": "C187_profiles reads the output back with the model of catalog.Parse; number formatting is the contract word/parseFloat/reread; C187_header for Bins >= 2 (one column per label has no range). The directions are arbitrary functions."
  },
  {
   "property": "C188",
   "status": "partial",
   "theorems": [
    "C188_higher_order_refuted",
    "C188_lower_order"
   ],
   "note": "C188_lower_order: a catalogue of a lower order is refused. C188_higher_order_refuted: a catalogue of a higher order is accepted and the profiles are those of the shells of the first 2*Order^2 coefficients (cmd/prof.go:223-247 does not compare the number of columns with Order)."
  },
  {
   "property": "C189",
   "status": "partial",
   "theorems": [
    "C189_bootstrap",
    "C189_profile",
    "C189_rounding_refuted"
   ],
   "note": "C189_bootstrap, C189_profile: in exact arithmetic. C189_rounding_refuted: in float64 the one-pass formula sqrt(E[x^2]-E[x]^2) is NaN for pixels that all have the density 0.1 and Samples = 3."
  },
  {
   "property": "C190",
   "status": "partial",
   "theorems": [
    "C190_lgadget",
    "C190_uniform",
    "C190_gadget_refuted",
    "C190_background_refuted",
    "C190_background",
    "C190_bolshoi",
    "C190_bolshoiP_refuted"
   ],
   "note": "Proved for LGadget-2 (all histories; C190_uniform: the masses add up to the mean density), Bolshoi, and the background density (C190_background). Refuted for Gadget-2 (C190_gadget_refuted: MinMass is always 0 because no code sets the field, hence C190_background_refuted) and for BolshoiP (C190_bolshoiP_refuted: MinMass ignores the mass in the header)."
  },
  {
   "property": "C191",
   "status": "partial",
   "theorems": [
    "C191_in_turn",
    "C191_out_of_turn",
    "C191_header",
    "C191_failed_read_refuted"
   ],
   "note": "C191_in_turn, C191_out_of_turn, C191_header proved for all histories of either format. C191_failed_read_refuted: a failed Read leaves the buffer open and the next Read panics unless the caller closes it."
  },
  {
   "property": "C192",
   "status": "proved",
   "theorems": [
    "C192_values",
    "C192_every_four",
    "C192_no_early_return",
    "C192_returns"
   ],
   "note": "Xorshift on exact uint32 words; the order of the step is computed in the kernel (vm_compute) with a primality proof for each factor of 2^128-1."
  },
  {
   "property": "C193",
   "status": "proved",
   "theorems": [
    "C193_axes",
    "C193_directions",
    "C193_seed"
   ],
   "note": "Floats are reals; the rejection loop's termination is proved from the full period (C192)."
  },
  {
   "property": "C194",
   "status": "partial",
   "theorems": [
    "C194_covers",
    "C194_exact_partial",
    "C194_aligned_refuted"
   ],
   "note": "Coverage is proved in full; exactness when the first two corners are seen in different directions. Slices whose first two corners are aligned with the axis are reported as a full circle: C194_aligned_refuted."
  },
  {
   "property": "C195",
   "status": "partial",
   "theorems": [
    "C195_lines",
    "C195_meets_partial",
    "C195_corner_refuted"
   ],
   "note": "Proved for every direction that is not the direction of a corner, when no side passes through the axis. In the direction of a corner neither of its two lines is reported: C195_corner_refuted."
  },
  {
   "property": "C196",
   "status": "proved",
   "theorems": [
    "C196_reader",
    "C196_gadget",
    "C196_lgadget"
   ],
   "note": ""
  },
  {
   "property": "C197",
   "status": "proved",
   "theorems": [
    "C197_linear",
    "C197_bilinear",
    "C197_trilinear",
    "C197_spline",
    "C197_bicubic",
    "C197_tricubic",
    "C197_overlap_refuted"
   ],
   "note": "C197_overlap_refuted shows why the output must not begin inside an input."
  },
  {
   "property": "C198",
   "status": "partial",
   "theorems": [
    "C198_mean",
    "C198_median_partial",
    "C198_median_rank",
    "C198_radius_partial",
    "C198_radius_refuted"
   ],
   "note": "Means in full; medians for even numbers of values (C198_median_rank: what odd numbers give; C198_radius_refuted: for odd numbers of different values it is never a median, the defect of C13)."
  },
  {
   "property": "C199",
   "status": "partial",
   "theorems": [
    "C199_file_partial",
    "C199_stdin",
    "C199_failing_refuted",
    "C199_grown_refuted"
   ],
   "note": "The standard input in full; files of the reported size. A failing or shortened read of a file goes unnoticed (C199_failing_refuted, C199_grown_refuted)."
  },
  {
   "property": "C200",
   "status": "partial",
   "theorems": [
    "C200_id_next",
    "C200_coord_shell",
    "C200_shell_stats",
    "C200_shell_run_stats",
    "C200_other_order_refuted",
    "C200_short_rows",
    "C200_no_rows_refuted"
   ],
   "note": "Holds for id|coord, id|tree, coord|shell, coord|prof and shell|stats with equal Order (C200_id_next, C200_coord_shell, C200_shell_stats, C200_shell_run_stats, C200_short_rows). False of the code: stats accepts rows longer than its Order needs and uses their first 2*Order^2 numbers (C200_other_order_refuted); a table without rows makes stats panic (C200_no_rows_refuted)."
  },
  {
   "property": "C201",
   "status": "proved",
   "theorems": [
    "C201_prof",
    "C201_phase",
    "C201_counted"
   ],
   "note": "roundings by their relative error (no overflow or underflow of the squares); the roundings of Flocq's 24- and 53-digit formats satisfy it"
  },
  {
   "property": "C202",
   "status": "partial",
   "theorems": [
    "C202_insert_partial",
    "C202_leak_refuted"
   ],
   "note": "ends within 2^-49 of the radial range below the outer radius are excluded: there the code adds the density to the next line of sight or panics (C202_leak_refuted, with Flocq's 53-digit rounding). Retrieve's own summation is exact in the statement."
  },
  {
   "property": "C203",
   "status": "proved",
   "theorems": [
    "C203_uniform"
   ],
   "note": ""
  },
  {
   "property": "C204",
   "status": "proved",
   "theorems": [
    "C204_lines"
   ],
   "note": "the angular width must be a number: 0/0 for a circle of radius 0 centred on the axis is not considered"
  },
  {
   "property": "C205",
   "status": "partial",
   "theorems": [
    "C205_pixel_partial",
    "C205_axis_refuted"
   ],
   "note": "Proved away from the axis (C205_pixel_partial); on the axis the property is false (C205_axis_refuted): a NaN from math.Acos makes the pixel index out of range at level 1 and puts the particle into the wrong hemisphere at higher levels. Azimuths within a relative 2^-40 of 2 pi and levels 0 and 1 are not covered."
  },
  {
   "property": "C206",
   "status": "partial",
   "theorems": [
    "C206_grid_partial",
    "C206_edge_refuted"
   ],
   "note": "Proved for coordinates away from the upper end of the periodic box (C206_grid_partial); just below the box the property is false of the code (C206_edge_refuted)."
  },
  {
   "property": "C207",
   "status": "partial",
   "theorems": [
    "C207_accepted",
    "C207_runs_partial",
    "C207_subhalo_refuted",
    "C207_empty_refuted"
   ],
   "note": "C207_accepted is the exact validation; C207_runs_partial proves the property for non-empty catalogues and the strategies other than subhalo; the remaining cases are false of the code (C207_subhalo_refuted, C207_empty_refuted). Mass ranges are in C139 and C50."
  },
  {
   "property": "C208",
   "status": "partial",
   "theorems": [
    "C208_region_partial",
    "C208_drift_refuted"
   ],
   "note": "C208_region_partial bounds the error by n * 2^-20 box widths for up to 2^20 particles; exact containment is false of the code (C208_drift_refuted, for every number of particles of one family)."
  },
  {
   "property": "C209",
   "status": "partial",
   "theorems": [
    "C209_next",
    "C209_uniform_partial",
    "C209_uniformInt_partial",
    "C209_uniformInt_refuted"
   ],
   "note": "Proved for ranges with |low| at most 2^17 times the width (float64 arithmetic: 53-bit significand, ties to even, no overflow or underflow); C209_uniformInt_refuted: for every seed UniformInt(4194304, 4194305) eventually returns 4194305."
  },
  {
   "property": "C210",
   "status": "proved",
   "theorems": [
    "C210_sectors"
   ],
   "note": "Rounding enters as the relative-error contract accurate; Flocq's 53-bit rounding satisfies it."
  },
  {
   "property": "C211",
   "status": "proved",
   "theorems": [
    "C211_blocks",
    "C211_first_block"
   ],
   "note": "Coordinates are reals (the float64 values are exact multiples of 2^-30)."
  },
  {
   "property": "C212",
   "status": "proved",
   "theorems": [
    "C212_directions",
    "C212_axes"
   ],
   "note": "Rounding enters as the relative-error contract accurate with r64 1 = 1 (no overflow, no underflow); the square root is correctly rounded. Flocq's 24- and 53-bit roundings satisfy both."
  },
  {
   "property": "C213",
   "status": "partial",
   "theorems": [
    "C213_unit_partial",
    "C213_one_refuted",
    "C213_uniform_int_refuted"
   ],
   "note": "float64 rounding is Flocq's FLX 53-digit rounding to nearest even (no underflow); the source of the table is universally quantified. The half-open range [0,1) does not hold: C213_one_refuted gives a source of multiples of 2^-53 with which the first draw is 1, and C213_uniform_int_refuted that UniformInt(0, high) then returns high."
  },
  {
   "property": "C214",
   "status": "partial",
   "theorems": [
    "C214_pair23_refuted",
    "C214_pair45_refuted",
    "C214_net_partial",
    "C214_pairs_listed_partial"
   ],
   "note": "C214_net_partial: the 13 pairs listed in net_pairs, with their e; C214_pairs_listed_partial: these are all pairs but (2,3) and (4,5). C214_pair23_refuted and C214_pair45_refuted: those two have holes (sobol.go:68 reads iv[MaxDim*(j-1)+k] in the loop over l). Not proved: boxes in three or more coordinates. Coordinates are reals (exact multiples of 2^-30)."
  }
 ]
}