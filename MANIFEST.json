{
 "claims": [
  {
   "property": "C01",
   "status": "partial",
   "theorems": [
    "C01_queue_is_bounded_fifo",
    "C01_queue_any_coordinates",
    "C01_queue_capacity",
    "C01_large_coordinates_refuted",
    "C01_size_zero_ub"
   ],
   "note": "FIFO behaviour for every operation history proved for 16-bit coordinates, and with explicit truncation for all ints; images wider than 32768 pixels and size-0 queues are refuted by witnesses."
  },
  {
   "property": "C02",
   "status": "proved",
   "theorems": [
    "C02_doy2md_correct",
    "C02_md2doy_correct",
    "C02_separate_lookups_agree",
    "C02_invalid_month_is_zero"
   ],
   "note": "All days of the 365-day calendar, both directions, against month lengths."
  },
  {
   "property": "C03",
   "status": "proved",
   "theorems": [
    "C03_round_trip",
    "C03_every_ce_is_a_date",
    "C03_order",
    "C03_doy_and_year",
    "C03_doy2ce_agrees",
    "C03_date_order",
    "C03_no_overflow",
    "C03_leap_day_refuted"
   ],
   "note": "Round trip, surjectivity and order for all existing days of the 365-day calendar (the documented domain); the collision of 29 February with 1 March is shown separately."
  },
  {
   "property": "C04",
   "status": "proved",
   "theorems": [
    "C04_setters_consistent",
    "C04_setters_effect",
    "C04_setters_keep_clock",
    "C04_copy_date"
   ],
   "note": "Every sequence of setter calls with legal arguments after one full set_date."
  },
  {
   "property": "C05",
   "status": "partial",
   "theorems": [
    "C05_compact_text",
    "C05_long_text",
    "C05_round_trip",
    "C05_accepted_in_range_partial",
    "C05_out_of_range_refused",
    "C05_wrong_length_refused",
    "C05_defined_iff_not_blank",
    "C05_nonexistent_day_refuted",
    "C05_not_a_number_refuted",
    "C05_no_dummy_date_refuted"
   ],
   "note": "Round trip, ranges and totality proved; acceptance of non-existing days / non-numbers and the missing dummy date refuted by witnesses."
  },
  {
   "property": "C06",
   "status": "partial",
   "theorems": [
    "C06_durations_partial",
    "C06_years_refuted",
    "C06_sum_refuted"
   ],
   "note": "Holds below one year; from one year on the unit thresholds are wrong (witnesses)."
  },
  {
   "property": "C07",
   "status": "partial",
   "theorems": [
    "C07_read_flag",
    "C07_write_flag",
    "C07_write_flag_in_image",
    "C07_flags_disjoint",
    "C07_overwide_value_refuted"
   ],
   "note": "Set/get independence for all words and flags; over-wide values corrupt neighbouring flags (witness), see refuted theorem."
  },
  {
   "property": "C08",
   "status": "partial",
   "theorems": [
    "C08_merge_worst_partial",
    "C08_merge_illumination_refuted",
    "C08_merge_commutative",
    "C08_merge_associative",
    "C08_merge_idempotent"
   ],
   "note": "Per-flag merge law and semilattice laws as far as they hold; counterexamples as refuted theorems."
  },
  {
   "property": "C09",
   "status": "proved",
   "theorems": [
    "C09_pixel_used_iff",
    "C09_keywords",
    "C09_more_screening_excludes_more",
    "C09_screen_qai"
   ],
   "note": "Screening decision against an independent table of states, monotone in the selection."
  },
  {
   "property": "C10",
   "status": "proved",
   "theorems": [
    "C10_copy_string",
    "C10_concat_string_2",
    "C10_concat_string_3"
   ],
   "note": "Buffer-level: result is the full string with NUL or the program exits, no out-of-bounds write."
  },
  {
   "property": "C11",
   "status": "partial",
   "theorems": [
    "C11_replace_first_partial",
    "C11_no_occurrence_partial",
    "C11_leaves_others_alone_refuted",
    "C11_overwrite_part",
    "C11_overwrite_rejects"
   ],
   "note": "First occurrence replaced exactly; strings without occurrence may terminate the program (size_t wrap), refuted by witness."
  },
  {
   "property": "C12",
   "status": "partial",
   "theorems": [
    "C12_fill_history",
    "C12_fill_history_unallocated_partial",
    "C12_empty_first_refuted",
    "C12_fill_string",
    "C12_lookup"
   ],
   "note": "All histories on allocated vectors; zeroed vectors need a non-empty first string (witness of exit otherwise)."
  },
  {
   "property": "C13",
   "status": "partial",
   "theorems": [
    "C13_re_alloc",
    "C13_re_alloc_2D",
    "C13_re_alloc_3D",
    "C13_re_alloc_2DC_partial",
    "C13_re_alloc_2DC_refuted",
    "C13_shrink_to_zero_exits"
   ],
   "note": "1D, 2D and 3D resizing for all shapes; the contiguous 2D variant scrambles rows when the row length changes (witness)."
  },
  {
   "property": "C14",
   "status": "partial",
   "theorems": [
    "C14_active_tiles",
    "C14_selection_unique",
    "C14_allow_list_file_partial",
    "C14_wide_tile_number_refuted",
    "C14_short_line_refuted"
   ],
   "note": "Selection proved for every range and list; reading the list file back is proved for tile numbers of at most four digits with complete lines, witnesses of wrong results otherwise."
  },
  {
   "property": "C15",
   "status": "partial",
   "theorems": [
    "C15_tile_contains_partial",
    "C15_interior_unique_partial",
    "C15_half_open_partial",
    "C15_half_open_refuted"
   ],
   "note": "Coordinates in exact integers. Containment and uniqueness for interior points proved; the half-open boundary rule holds only left of/above the origin, refuted elsewhere."
  },
  {
   "property": "C16",
   "status": "partial",
   "theorems": [
    "C16_align_partial",
    "C16_align_any_size_partial",
    "C16_aligned_moves_refuted"
   ],
   "note": "Exact integers. Result is on the grid, covers the image and moves at most one pixel; an aligned coordinate always moves by one pixel (refuted)."
  },
  {
   "property": "C17",
   "status": "proved",
   "theorems": [
    "C17_each_unit_once_in_order",
    "C17_run_exists",
    "C17_threads_disjoint",
    "C17_same_result_for_every_schedule",
    "C17_write_order"
   ],
   "note": "All unit counts, all interleavings of the three threads."
  },
  {
   "property": "C18",
   "status": "partial",
   "theorems": [
    "C18_bijection_partial",
    "C18_in_range_partial",
    "C18_many_units_refuted",
    "C18_chunk_layout"
   ],
   "note": "Up to 2^24 units with binary32 arithmetic; beyond that the bijection fails (witness)."
  },
  {
   "property": "C19",
   "status": "partial",
   "theorems": [
    "C19_streaming_partial",
    "C19_serial_refuted",
    "C19_exit_code"
   ],
   "note": "Streaming mode proved; without streaming the last unit overwrites the totals (witness of FAILURE for a run with data)."
  },
  {
   "property": "C20",
   "status": "proved",
   "theorems": [
    "C20_mean_variance",
    "C20_skew",
    "C20_kurt",
    "C20_covariance",
    "C20_covar",
    "C20_variance",
    "C20_standdev",
    "C20_sample_covariance",
    "C20_skewness",
    "C20_kurtosis"
   ],
   "note": "All sequences of reals; recurrences against the textbook definitions."
  },
  {
   "property": "C21",
   "status": "partial",
   "theorems": [
    "C21_least_squares",
    "C21_residuals_sum_to_zero",
    "C21_rsquared_partial",
    "C21_correlation",
    "C21_trend_values",
    "C21_trend_few_values",
    "C21_constant_series_refuted"
   ],
   "note": "Optimality over all lines, zero residual sum, R-squared; the trend product of a pixel. Constant series give 0/0 (refuted)."
  },
  {
   "property": "C22",
   "status": "partial",
   "theorems": [
    "C22_mode_partial",
    "C22_n_uniq_partial",
    "C22_histogram_partial",
    "C22_overflow_refuted",
    "C22_empty_refuted"
   ],
   "note": "All arrays whose pairwise differences fit int; overflowing comparison and the empty array refuted."
  },
  {
   "property": "C23",
   "status": "partial",
   "theorems": [
    "C23_accept_iff_partial",
    "C23_nan_refuted",
    "C23_garbage_refuted",
    "C23_int_max_refuted"
   ],
   "note": "Acceptance characterised for every file and registration without NaN values; NaN, garbage text and INT_MAX enumerations refuted."
  },
  {
   "property": "C24",
   "status": "partial",
   "theorems": [
    "C24_line_partial",
    "C24_first_definition_partial",
    "C24_total_partial",
    "C24_file_lines",
    "C24_short_date_refuted"
   ],
   "note": "One line, line sequences, totality and the fgets loop, for complete dates; short dates read beyond their word (refuted)."
  },
  {
   "property": "C25",
   "status": "partial",
   "theorems": [
    "C25_linear_partial",
    "C25_bounded",
    "C25_masked",
    "C25_long_gap_refuted",
    "C25_nodata_refuted"
   ],
   "note": "Full for series whose neighbouring clear observations satisfy gap*value < 2^24 (single precision exactness); refuted beyond (constant series loses one count) and for values blending to nodata."
  },
  {
   "property": "C26",
   "status": "partial",
   "theorems": [
    "C26_moving",
    "C26_nodata_refuted"
   ],
   "note": "Value at each grid day proved for every series; refuted: a mean may equal the nodata value."
  },
  {
   "property": "C27",
   "status": "partial",
   "theorems": [
    "C27_rbf_partial",
    "C27_bounded",
    "C27_constant",
    "C27_cutoff",
    "C27_small_cutoff_refuted"
   ],
   "note": "Exact arithmetic (no float rounding); holds for every series and kernel set whose central weight is at most half the cutoff (every sigma for cutoff >= 0.84); refuted for smaller cutoffs (division by zero weight, undefined conversion)."
  },
  {
   "property": "C28",
   "status": "partial",
   "theorems": [
    "C28_fold_partial",
    "C28_masked",
    "C28_single_std_refuted",
    "C28_constant_skew_refuted"
   ],
   "note": "Exact arithmetic; values within +-16383 and periods for which the statistic exists; refuted: standard deviation of one value and skewness of a constant period are NaN (undefined conversion)."
  },
  {
   "property": "C29",
   "status": "partial",
   "theorems": [
    "C29_stm_partial",
    "C29_masked",
    "C29_range_refuted",
    "C29_mean_refuted"
   ],
   "note": "Exact arithmetic; distinct metrics, values within +-16383, statistic exists; refuted: range wraps beyond 32767, binary64 running mean of 0,1,6,1 truncates to 1 instead of 2."
  },
  {
   "property": "C30",
   "status": "partial",
   "theorems": [
    "C30_standardize_partial",
    "C30_unchanged",
    "C30_range",
    "C30_constant_refuted"
   ],
   "note": "Exact arithmetic; all series; refuted for normalising constant series (NaN converted to short)."
  },
  {
   "property": "C31",
   "status": "partial",
   "theorems": [
    "C31_largest_drop_partial",
    "C31_before_part_refuted",
    "C31_range_refuted",
    "C31_penalty_refuted"
   ],
   "note": "Largest drop, first attained, total and after parts for all series with 16-bit drops; the before part lacks its last value, over-wide drops and the penalty order are refuted."
  },
  {
   "property": "C32",
   "status": "partial",
   "theorems": [
    "C32_terminates_partial",
    "C32_only_removes_partial",
    "C32_removed_partial",
    "C32_restored_partial",
    "C32_idempotent",
    "C32_unmask_refuted",
    "C32_outermost_refuted"
   ],
   "note": "Proved for every series: the filter ends within one round per observation, drops only observations of non-interpolated triplets, leaves at least three clear observations if it drops any, is idempotent and monotone with BELOW_NOISE = 0. Refuted as stated: BELOW_NOISE > 0 un-masks QAI-screened observations, and the outermost observation can be dropped."
  },
  {
   "property": "C33",
   "status": "proved",
   "theorems": [
    "C33_flooding",
    "C33_never_below",
    "C33_success_refuted"
   ],
   "note": "Total: terminates without undefined behaviour for every image of at most 32768 rows and columns; on SUCCESS exact. C33_success_refuted shows a 6x6 image for which the queue is too small, FAILURE is returned and the marker is left too high (cloud-ll.c:843 ignores the return code)."
  },
  {
   "property": "C34",
   "status": "proved",
   "theorems": [
    "C34_exact",
    "C34_zero",
    "C34_empty"
   ],
   "note": "Exact squared distance for all images that meet the int bound; the parallel loops are run sequentially."
  },
  {
   "property": "C35",
   "status": "partial",
   "theorems": [
    "C35_safe_partial",
    "C35_covers_partial",
    "C35_reach_partial",
    "C35_zero_partial",
    "C35_border_refuted",
    "C35_radius_refuted"
   ],
   "note": "Proved: no out-of-bounds access; everything within r of a TRUE pixel that is at least r away from the border becomes TRUE; every TRUE pixel of the result is less than r+1 away from an input TRUE pixel; r=0 copies. Refuted: TRUE pixels nearer than r to the border are lost; the painted shape exceeds the disc (r=4, sqrt 17)."
  },
  {
   "property": "C36",
   "status": "proved",
   "theorems": [
    "C36_removal",
    "C36_selection",
    "C36_adjusted",
    "C36_nothing"
   ],
   "note": "For sensor sets with distinct band names and at least one needed band; C36_removal holds for every flag vector without that restriction. C36_nothing records that the program ends when no band is needed (reallocation to zero bytes)."
  },
  {
   "property": "C37",
   "status": "partial",
   "theorems": [
    "C37_windows",
    "C37_last_month_refuted",
    "C37_acquisitions",
    "C37_simple_partial",
    "C37_gaps",
    "C37_spread_partial",
    "C37_one_observation_refuted",
    "C37_std_refuted",
    "C37_quantile_refuted",
    "C37_empty_quantile_refuted",
    "C37_stale_refuted"
   ],
   "note": "Windows, NUM, the gaps and MIN/MAX/RNG/AVG are right; the remaining metrics are right when every window has a clear observation on its first day and none on the same day. Refuted: the last month is dropped whenever MONTH_STEP divides the month difference; STD/SKW/KRT/quantiles use the number of observations instead of the number of gaps."
  },
  {
   "property": "C38",
   "status": "partial",
   "theorems": [
    "C38_projected_refuted",
    "C38_geographic_refuted",
    "C38_pixel_partial",
    "C38_border_refuted",
    "C38_run_partial"
   ],
   "note": "As written the property is false: get_brick_y adds the row offset, so the bounding box of every chunk is empty and no sample is ever extracted, with projected (C38_projected_refuted) or geographic coordinates (C38_geographic_refuted); positions exactly on tile borders right of / below the origin belong to no chunk (C38_border_refuted). What holds for arbitrary bounding boxes and warpers: located pixels contain the position, uniquely and, off the borders, completely (C38_pixel_partial); each row is recorded at most once, with the values of its pixel, and deactivated, and rows that stay active were reachable from no unit (C38_run_partial). Missing: exactly-once extraction, which is false."
  },
  {
   "property": "C39",
   "status": "partial",
   "theorems": [
    "C39_roundtrip_partial",
    "C39_first_word",
    "C39_projection_refuted",
    "C39_decimals_refuted",
    "C39_existing",
    "C39_old_format",
    "C39_copy_refuted",
    "C39_incomplete_refuted",
    "C39_incomplete_rejected"
   ],
   "note": "Round trip exact for one-word projections and numbers with six decimals (atof axiomatised by a hypothesis, instance given). Refuted: a projection with a blank is cut at it (so the file written from real WKT reads back cut), more decimals are rounded, copying an old-format definition cuts it, a duplicate tag hides a missing one."
  },
  {
   "property": "C40",
   "status": "partial",
   "theorems": [
    "C40_basename_partial",
    "C40_recombine_partial",
    "C40_root_refuted",
    "C40_directory_refuted"
   ],
   "note": "False in full: the empty path and paths of slashes only read in front of the string (C40_root_refuted); with a trailing slash directory and basename do not belong together (C40_directory_refuted). Proved for every path that names something; recombination for paths without trailing slash."
  },
  {
   "property": "C41",
   "status": "partial",
   "theorems": [
    "C41_bounds_partial",
    "C41_complete_partial",
    "C41_vector_refuted",
    "C41_cut_refuted"
   ],
   "note": "No out-of-bounds write of the log for any content behind the separator array, complete log if the text fits. False in full: vectors with several values print an array without NUL (C41_vector_refuted), overflow by the last value is cut silently (C41_cut_refuted)."
  },
  {
   "property": "C42",
   "status": "partial",
   "theorems": [
    "C42_labels_partial",
    "C42_objects_partial"
   ],
   "note": "Proved for every image: no access outside of the arrays, background 0, labels within 1..n, equal labels imply 8-connected; object sizes are exact. Missing: termination of the contour following and connected implies equal labels."
  },
  {
   "property": "C43",
   "status": "partial",
   "theorems": [
    "C43_safe_partial",
    "C43_fill_partial",
    "C43_schedule_refuted"
   ],
   "note": "Every interleaving of single reads and writes: monotone, filled pixels have five TRUE neighbours in the result, unfilled ones had fewer in the input, no out-of-bounds access. Schedule independence is refuted."
  },
  {
   "property": "C44",
   "status": "partial",
   "theorems": [
    "C44_regular",
    "C44_irregular",
    "C44_header_refuted",
    "C44_find",
    "C44_statistics_partial",
    "C44_minimum_refuted",
    "C44_maximum_refuted"
   ],
   "note": "Regular tables read completely for every size (C44_regular), irregular rows rejected, lookup by name, mean/sd/sum exact (real arithmetic). Refuted: a header with another number of names is accepted with names dropped or left empty; minimum (maximum) of columns entirely above 32767 (below -32768) is the constant."
  },
  {
   "property": "C45",
   "status": "partial",
   "theorems": [
    "C45_layout_partial",
    "C45_duplicate_refuted",
    "C45_quantiles_refuted"
   ],
   "note": "Positions of all metrics proved for at most 100 quantiles; refuted: duplicated metrics leave the observation count in the first band, a 101st quantile is written out of bounds."
  },
  {
   "property": "C46",
   "status": "partial",
   "theorems": [
    "C46_line_partial",
    "C46_line_refuted",
    "C46_constant_refuted"
   ],
   "note": "Proved for whole-number slopes and distinct days. Refuted for other slopes (integer division of the slope) and for several observations on one day (residual taken from (right-left)/2)."
  },
  {
   "property": "C47",
   "status": "partial",
   "theorems": [
    "C47_margin_partial",
    "C47_left",
    "C47_no_margin",
    "C47_values_kept",
    "C47_left_margin_refuted"
   ],
   "note": "Exact for the chunk and all its margin for every cube, except the margin to the left unless the tile has one column of chunks or the chunk is in the second one. C47_left says what the left margin shows in general (always the first column of chunks), C47_left_margin_refuted: with two columns of chunks the left margin of the first chunk comes from the middle of the tile to the left. Cause: read-ard-hl.c line 1000 does not add the position of the chunk."
  },
  {
   "property": "C48",
   "status": "partial",
   "theorems": [
    "C48_crop_partial",
    "C48_undoes_margin",
    "C48_other_types",
    "C48_types_refuted"
   ],
   "note": "Exact for short values and undoes the margin of C47. C48_types_refuted: for every other pixel type every crop writes out of bounds (C48_other_types; brick_base-cl.c:467-507 swap the indices). The output bricks of the repository are short."
  },
  {
   "property": "C49",
   "status": "partial",
   "theorems": [
    "C49_days_partial",
    "C49_one_day",
    "C49_one_day_refuted",
    "C49_periods",
    "C49_folds"
   ],
   "note": "Days exact for every season whose first and last day differ; periods and fold dates exact for every season. C49_one_day_refuted: a season of one day uses the whole year (C49_one_day, param-hl.c:1056 tests < and not <=)."
  },
  {
   "property": "C50",
   "status": "partial",
   "theorems": [
    "C50_selection",
    "C50_chronological",
    "C50_other_names_exit",
    "C50_regular_names_partial",
    "C50_product_refuted"
   ],
   "note": "C50_selection and C50_chronological are exact for every directory in which the images of the product and sensors start with a date, where product and sensor match anywhere in the name. C50_regular_names_partial: for regular names that is equality of product and sensor. C50_product_refuted: a longer product name is taken as well. C50_other_names_exit: one file with the product and sensor in its name but without a date ends the program."
  },
  {
   "property": "C51",
   "status": "proved",
   "theorems": [
    "C51_common_bands",
    "C51_incompatible_fails",
    "C51_unknown_sensor_fails",
    "C51_target_bands"
   ],
   "note": "Sensor definitions are a map from names to band names (JSON parsing not modelled)."
  },
  {
   "property": "C52",
   "status": "partial",
   "theorems": [
    "C52_union_partial",
    "C52_adjusted_refuted"
   ],
   "note": "False: retrieve_sensor allocates its tables before it appends SEN2A to the sensors, so every run with spectral adjustment writes behind both tables (C52_adjusted_refuted). The union itself is right (C52_union_partial)."
  },
  {
   "property": "C53",
   "status": "proved",
   "theorems": [
    "C53_pixel_shows_best_observation"
   ],
   "note": "Floats are real numbers, the fit of the sigmoids (GSL) is a parameter. The scores are specified in BapSpec.v by closed formulas."
  },
  {
   "property": "C54",
   "status": "proved",
   "theorems": [
    "C54_scores_follow_the_parameters",
    "C54_bell_through_configured_points",
    "C54_closer_is_better",
    "C54_sigmoid_half_way"
   ],
   "note": "As C53; for declines and rises only range and zero outside the season are stated since the sigmoids are fitted by GSL."
  },
  {
   "property": "C55",
   "status": "partial",
   "theorems": [
    "C55_composite_defined_partial",
    "C55_valley_refuted",
    "C55_zero_factor_refuted",
    "C55_average_without_output_refuted"
   ],
   "note": "False for accepted files: DOY_SCORE with the smallest score in the middle gives NaN scores and index -1 (C55_valley_refuted), Y_FACTOR = 0 converts infinity to int (C55_zero_factor_refuted), SELECT = FALSE with OUTPUT_BAP = FALSE writes through NULL (C55_average_without_output_refuted). Holds for the parameters described by sane in BapSpec.v."
  },
  {
   "property": "C56",
   "status": "proved",
   "theorems": [
    "C56_pixel_averages_observations",
    "C56_average_between_extremes"
   ],
   "note": "As C53."
  },
  {
   "property": "C57",
   "status": "proved",
   "theorems": [
    "C57_pixel_independent_of_history"
   ],
   "note": "As C53; for first target years before 1901 targets before 1900 would keep stale scores."
  },
  {
   "property": "C58",
   "status": "proved",
   "theorems": [
    "C58_correlation_with_the_others"
   ],
   "note": "Floats are real numbers."
  },
  {
   "property": "C59",
   "status": "partial",
   "theorems": [
    "C59_zero_weights_keep_observations_partial",
    "C59_zero_doy_weight_refuted"
   ],
   "note": "False for the DOY score: with SCORE_DOY_WEIGHT = 0 and OFF_SEASON = FALSE no observation is ever used (C59_zero_doy_weight_refuted)."
  },
  {
   "property": "C60",
   "status": "proved",
   "theorems": [
    "C60_indices_follow_their_formulas",
    "C60_outside_the_mask",
    "C60_plain_band"
   ],
   "note": "Floating-point operations are modelled as correctly rounded real operations. Wavelength constants and tasseled cap coefficients are float constants."
  },
  {
   "property": "C61",
   "status": "partial",
   "theorems": [
    "C61_shipped_indices_accepted_partial",
    "C61_missing_band",
    "C61_ndvire1n_refuted",
    "C61_kndvi_of_zero_refuted"
   ],
   "note": "False for NDVIre1n: the program compares with NDVIren, the shipped list has NDVIre1n (C61_ndvire1n_refuted); kNDVI stores nodata when one reflectance is zero though the formula is defined (C61_kndvi_of_zero_refuted). Holds for all other names."
  },
  {
   "property": "C62",
   "status": "partial",
   "theorems": [
    "C62_ratios_always_defined_partial",
    "C62_defined_within_range_partial",
    "C62_evi_overflow_refuted",
    "C62_arvi_overflow_refuted",
    "C62_sarvi_overflow_refuted",
    "C62_tcdi_overflow_refuted",
    "C62_msrre_of_negative_refuted"
   ],
   "note": "False: EVI, ARVI, SARVI with a tiny denominator, TC-DI of bright pixels with dark near infrared, and MSRre with negative reflectances convert out of range numbers (C62_*_refuted). All other indices are proved defined."
  },
  {
   "property": "C63",
   "status": "proved",
   "theorems": [
    "C63_normalized_difference_within_one",
    "C63_antisymmetric",
    "C63_scale_invariant",
    "C63_monotone"
   ],
   "note": "For the function computing one value; the series is covered by C60."
  },
  {
   "property": "C64",
   "status": "partial",
   "theorems": [
    "C64_normalized_difference_is_never_nodata_partial",
    "C64_kernel_index_is_never_nodata_partial",
    "C64_wetness_refuted"
   ],
   "note": "False for TC-WET: a valid observation is stored as -9999 (C64_wetness_refuted). Holds for normalized differences of reflectances between 0 and 1 and for kNDVI."
  },
  {
   "property": "C65",
   "status": "proved",
   "theorems": [
    "C65_merge_in_any_order",
    "C65_merge_worst_of_all",
    "C65_clear_only_if_all_clear"
   ],
   "note": "Illumination is excluded from the worst-of-all statement because the code takes the minimum there (C08_merge_illumination_refuted); the order statement covers all flags."
  },
  {
   "property": "C66",
   "status": "proved",
   "theorems": [
    "C66_listed_tiles_are_processed",
    "C66_same_tiles_same_result"
   ],
   "note": "Consequence of C14 for well-formed list files; tile numbers that need more than four characters are misread (C14_wide_tile_number_refuted)."
  },
  {
   "property": "C67",
   "status": "proved",
   "theorems": [
    "C67_every_chunk_once"
   ],
   "note": "Joins C17 and C18; more than 2^24 units are excluded because of C18_many_units_refuted."
  },
  {
   "property": "C68",
   "status": "proved",
   "theorems": [
    "C68_printed_dates_are_read_back",
    "C68_texts_differ"
   ],
   "note": "The calendar has 365-day years, 29 February is not a day of it (C03_leap_day_refuted)."
  },
  {
   "property": "C69",
   "status": "proved",
   "theorems": [
    "C69_file_accepted_iff"
   ],
   "note": "Joins C23 and C24 for the text of a file; the numeric conversions atof are parameters. NaN and incomplete dates are excluded (C23_nan_refuted, C24_short_date_refuted)."
  },
  {
   "property": "C70",
   "status": "proved",
   "theorems": [
    "C70_statistics_of_images",
    "C70_order_of_pixels"
   ],
   "note": "Consequence of C22, whose overflow cannot occur for 16-bit values."
  },
  {
   "property": "C71",
   "status": "proved",
   "theorems": [
    "C71_filter_without_restoring"
   ],
   "note": "C32 without its refuted part: restoring needs BELOW_NOISE > 0. The result is shown to be independent of the fuel of the model."
  },
  {
   "property": "C72",
   "status": "proved",
   "theorems": [
    "C72_reflectance_series",
    "C72_monotone_between"
   ],
   "note": "C25 for realistic series; the bound on the gap excludes C25_long_gap_refuted."
  },
  {
   "property": "C73",
   "status": "proved",
   "theorems": [
    "C73_metrics_of_the_window",
    "C73_no_memory_of_other_pixels",
    "C73_segmentation"
   ],
   "note": "Against definitions over the set of foreground pixels; float arithmetic as reals."
  },
  {
   "property": "C74",
   "status": "partial",
   "theorems": [
    "C74_ranges",
    "C74_effective_mesh_size_refuted",
    "C74_maximum_refuted"
   ],
   "note": "Ranges proved. Refuted: effective mesh size squares the total area; maximum starts at 0, so negative values give 0."
  },
  {
   "property": "C75",
   "status": "partial",
   "theorems": [
    "C75_defined_partial",
    "C75_standard_deviation_refuted",
    "C75_geometric_mean_refuted",
    "C75_fractal_dimension_refuted",
    "C75_fractal_range_refuted",
    "C75_all_pixels_refuted",
    "C75_single_pixels_refuted"
   ],
   "note": "Proved for MPA, EDD, EMS, AVG, MAX, ARE. Refuted for STD, GEO, FDI in degenerate windows, and for tiles without any patch; binary32 single-pixel test depends on the radius."
  },
  {
   "property": "C76",
   "status": "proved",
   "theorems": [
    "C76_transmittances",
    "C76_more_aerosol_less_light",
    "C76_spherical_albedo",
    "C76_surroundings",
    "C76_scattering_angle",
    "C76_illumination",
    "C76_phase_functions",
    "C76_single_scattering",
    "C76_water_vapour",
    "C76_ozone",
    "C76_ozone_amount",
    "C76_fresnel",
    "C76_elevation"
   ],
   "note": "Over the reals; path reflectance only for single scattering."
  },
  {
   "property": "C77",
   "status": "partial",
   "theorems": [
    "C77_inverts_uniform_scene",
    "C77_inverts_target",
    "C77_brighter_is_brighter",
    "C77_pixel",
    "C77_pixel_in_background",
    "C77_off_pixel",
    "C77_branches_agree_refuted",
    "C77_nodata_means_off_refuted"
   ],
   "note": "Over the reals. Inversion, uniqueness, flags and clamping hold; refuted: the two branches apply the gas transmittance differently (to the path reflectance in one, not in the other), so a uniform scene gives two different reflectances; refuted: reflectance between -1 and -0.9999 is stored as -9999 without switching the pixel off."
  },
  {
   "property": "C78",
   "status": "partial",
   "theorems": [
    "C78_between_valid_cells_partial",
    "C78_no_valid_cell",
    "C78_linear_fields",
    "C78_border_refuted"
   ],
   "note": "Holds away from the left and right border, and everywhere if all cells around are valid; refuted at the left and right border, where a cell without data keeps half of the weight."
  },
  {
   "property": "C79",
   "status": "partial",
   "theorems": [
    "C79_off_by_at_most_one_partial",
    "C79_unchanged_refuted"
   ],
   "note": "The value is off by at most 1; refuted: 1 becomes 0 (half of all values lose 1)."
  },
  {
   "property": "C80",
   "status": "partial",
   "theorems": [
    "C80_within_clear_pixels_partial",
    "C80_uniform_scene",
    "C80_clouds_refuted"
   ],
   "note": "Holds for clear pixels (and nodata gives 0); refuted for clouds in columns without clear pixels, which are mixed with 0. Over the reals; the reflectance without adjacency correction is the input."
  },
  {
   "property": "C81",
   "status": "partial",
   "theorems": [
    "C81_flat_terrain",
    "C81_positive_and_decreasing",
    "C81_no_direct_light",
    "C81_factor_partial",
    "C81_carried_refuted"
   ],
   "note": "Flat terrain, sign, monotony and shadow hold; refuted: the ratio of the band itself is read instead of that of SWIR2, so the C factor is not carried."
  },
  {
   "property": "C82",
   "status": "partial",
   "theorems": [
    "C82_events_are_observations_partial",
    "C82_day_of_observation_partial",
    "C82_day_lost_refuted"
   ],
   "note": "Every event is an observation of the series; refuted: the date is one day early for the day numbers listed in PolSpec.lost_days, because the day is cut, not rounded, after a trip through radians."
  },
  {
   "property": "C83",
   "status": "partial",
   "theorems": [
    "C83_seasons_by_date_partial",
    "C83_late_series_refuted"
   ],
   "note": "Holds when the series begins no later than one step after the start day; refuted: a later series has no first season and the metrics are undefined."
  },
  {
   "property": "C84",
   "status": "proved",
   "theorems": [
    "C84_dates_in_order"
   ],
   "note": "For series of up to 88 years, step widths 1 to 364 days and thresholds in order (the order is not checked when the parameter file is read)."
  },
  {
   "property": "C85",
   "status": "proved",
   "theorems": [
    "C85_peak_is_highest",
    "C85_peak_amplitude"
   ],
   "note": "The amplitude for series without nodata inside."
  },
  {
   "property": "C86",
   "status": "partial",
   "theorems": [
    "C86_integrals_add_up",
    "C86_rising_integral_refuted"
   ],
   "note": "The sum holds for step widths up to 255 days; refuted: the integral of the rising rates overflows the stored 16 bits for a series that swings between extremes."
  },
  {
   "property": "C87",
   "status": "partial",
   "theorems": [
    "C87_years",
    "C87_no_data",
    "C87_coordinates_alone_refuted",
    "C87_coordinates_of_no_data_refuted"
   ],
   "note": "Refuted: polar coordinates requested alone are cancelled; refuted: their series is 0, not nodata, for pixels without data."
  },
  {
   "property": "C88",
   "status": "partial",
   "theorems": [
    "C88_lengths",
    "C88_vector_dates",
    "C88_start_shift_partial",
    "C88_start_shift_fixed_refuted"
   ],
   "note": "Lengths and vector dates hold; the shift is bounded for adaptive seasons; refuted: for fixed seasons the shift is minus the start date instead of 0."
  },
  {
   "property": "C89",
   "status": "partial",
   "theorems": [
    "C89_seasons_have_values_partial",
    "C89_never_positive_refuted"
   ],
   "note": "Refuted: a pixel that is never positive has no season with a peak and its metrics are undefined. A pixel that gets metrics has a positive or missing observation."
  },
  {
   "property": "C90",
   "status": "proved",
   "theorems": [
    "C90_prediction",
    "C90_within_neighbours",
    "C90_uniform",
    "C90_similar_weigh_more",
    "C90_no_similar_pixel",
    "C90_missing_coarse"
   ],
   "note": "All scenes, radii and positions in real arithmetic; the weights are given by the specification; also what happens without candidates or coarse data."
  },
  {
   "property": "C91",
   "status": "partial",
   "theorems": [
    "C91_season_average_partial",
    "C91_masked",
    "C91_last_day_refuted",
    "C91_year_refuted"
   ],
   "note": "Seasons without a year, and ascending breakpoints with a year; the last day of the year with the default breakpoints, and windows that cross the turn of the year for a given year, are refuted."
  },
  {
   "property": "C92",
   "status": "partial",
   "theorems": [
    "C92_product_partial",
    "C92_no_fine_refuted",
    "C92_missing_band_refuted",
    "C92_missing_first_band_refuted",
    "C92_fields_partial",
    "C92_fields_refuted"
   ],
   "note": "Level 2 ImproPhe for pixels with all bands; refuted: without fine data the mask is ignored, a pixel lacking a band becomes 0, continuous fields are 0 instead of nodata off the mask and after a year without data."
  },
  {
   "property": "C93",
   "status": "partial",
   "theorems": [
    "C93_largest_deviation",
    "C93_uniform",
    "C93_standardized",
    "C93_constant_refuted"
   ],
   "note": "Texture in full; standardization for images with at least two different values, constant images become not a number (refuted)."
  },
  {
   "property": "C94",
   "status": "partial",
   "theorems": [
    "C94_closest_entry",
    "C94_nothing_to_compare",
    "C94_exact_match",
    "C94_more_entries",
    "C94_more_entries_refuted",
    "C94_constant_feature_refuted"
   ],
   "note": "Smallest distances, exact match; the monotony only without rescaling (refuted with it); a constant feature with rescaling voids the library (refuted)."
  },
  {
   "property": "C95",
   "status": "partial",
   "theorems": [
    "C95_structuring_element",
    "C95_erosion_dilation",
    "C95_order",
    "C95_idempotent",
    "C95_monotone",
    "C95_written",
    "C95_strips_partial",
    "C95_strips_refuted",
    "C95_only_valid_pixels_refuted",
    "C95_mask_unused",
    "C95_mask_refuted"
   ],
   "note": "Laws for all images; blocks overlap by half of what opening and closing need (refuted), missing values take part (refuted), the mask is unused without exclusion (refuted)."
  },
  {
   "property": "C96",
   "status": "proved",
   "theorems": [
    "C96_histogram",
    "C96_counts",
    "C96_no_nodata"
   ],
   "note": "All images of 16-bit integers; the counters do not wrap in the model."
  },
  {
   "property": "C97",
   "status": "partial",
   "theorems": [
    "C97_points_are_pixels",
    "C97_at_most",
    "C97_size_partial",
    "C97_only_requested_partial",
    "C97_size_large_share_partial",
    "C97_unrequested_refuted",
    "C97_size_refuted",
    "C97_overflow_refuted",
    "C97_format_refuted",
    "C97_output_without_format"
   ],
   "note": "Proved: every point is the centre of a pixel of its class, no pixel twice, never more than requested, exact size and smallest numbers when the preselected pixels fit the memory (with a corollary free of the preselection). Refuted: a draw of zero samples classes that were not requested; the size is not guaranteed although there are enough pixels; when more pixels are preselected than fit, another class can lose its points; the output format option is always refused."
  },
  {
   "property": "C98",
   "status": "partial",
   "theorems": [
    "C98_covers_box",
    "C98_touch_box",
    "C98_tiles_disjoint",
    "C98_geographic_box_refuted",
    "C98_finder_partial",
    "C98_finder_border_refuted"
   ],
   "note": "Grid proved for the projected box, finder for points inside of tiles. Refuted: the geographic box need not be covered; on tile borders right of or below the origin the pixel lies outside of the tile."
  },
  {
   "property": "C99",
   "status": "partial",
   "theorems": [
    "C99_all_bands",
    "C99_order",
    "C99_refuses",
    "C99_position_refuted"
   ],
   "note": "Completeness, order and the tests of directory and size proved. Refuted: images at different positions are stacked."
  },
  {
   "property": "C100",
   "status": "partial",
   "theorems": [
    "C100_regression",
    "C100_no_threshold",
    "C100_stop_unique",
    "C100_single_model_refuted"
   ],
   "note": "Proved for every set of at least one model when no uncertainty is written, or of at least two; number of models is unique, and all of them with threshold 0. Refuted: with one model the uncertainty is 0/0 converted to a short."
  },
  {
   "property": "C101",
   "status": "partial",
   "theorems": [
    "C101_label",
    "C101_forest_label",
    "C101_classes_differ_refuted"
   ],
   "note": "Proved for labels within 16 bit and for forests whose models all have the number of columns of the set. Refuted: models of a set with different numbers of classes read outside of the vote table."
  },
  {
   "property": "C102",
   "status": "partial",
   "theorems": [
    "C102_probability_partial",
    "C102_unanimous_refuted",
    "C102_margin_partial",
    "C102_tie_refuted",
    "C102_labels_differ_refuted",
    "C102_pooled"
   ],
   "note": "Probability within one unit of the rounded-down share of the pooled votes, exact unless the share is an integer; sum at most 10000; margin within one unit if the two largest differ by two units. Refuted: unanimous forest of three trees gets 9999; equal votes give a margin of 5000; bands mix classes if models have different labels. Pooled share differs from the mean of the models."
  },
  {
   "property": "C103",
   "status": "proved",
   "theorems": [
    "C103_nodata",
    "C103_predicted",
    "C103_invalid_ignored"
   ],
   "note": "Nodata in all products, number of bands kept; otherwise 1 to all models. Invalid features are used if not excluded."
  },
  {
   "property": "C104",
   "status": "partial",
   "theorems": [
    "C104_tile_content",
    "C104_written",
    "C104_every_pixel",
    "C104_extent_refuted",
    "C104_unaligned_partial",
    "C104_unaligned_refuted",
    "C104_pixel_size_refuted"
   ],
   "note": "Content, place, uniqueness and choice of the written tiles proved for images on the pixel grid; refuted: extent from four corners can miss bulging edges (C104_extent_refuted), images off the grid are shifted by less than a pixel (C104_unaligned_partial, _refuted), the quicklook tiles get the pixel size of the first product (C104_pixel_size_refuted)."
  },
  {
   "property": "C105",
   "status": "partial",
   "theorems": [
    "C105_colour",
    "C105_monotone",
    "C105_unambiguous_refuted"
   ],
   "note": "Colours, bounds and monotony proved; refuted: the colours of nodata and clouds are not reserved (C105_unambiguous_refuted)."
  },
  {
   "property": "C106",
   "status": "partial",
   "theorems": [
    "C106_multiples_accepted",
    "C106_only_multiples_partial",
    "C106_degrees_refuted",
    "C106_fine_resolution_refuted"
   ],
   "note": "Holds when sizes and resolution are multiples of a unit above the tolerance (metres); refuted in degrees, where the absolute tolerance of 0.005 accepts anything fine."
  },
  {
   "property": "C107",
   "status": "proved",
   "theorems": [
    "C107_bands",
    "C107_lossless"
   ],
   "note": "All flags in order and lossless for words with the sign bit unset (it is never set by the quality functions)."
  },
  {
   "property": "C108",
   "status": "partial",
   "theorems": [
    "C108_flags_partial",
    "C108_snow_partial",
    "C108_border_shadow_refuted",
    "C108_border_cloud_refuted"
   ],
   "note": "Final flags proved pixel by pixel for detections at least one buffer away from the image border; refuted at the border: a shadow there is not flagged, a confident cloud there becomes cirrus."
  },
  {
   "property": "C109",
   "status": "partial",
   "theorems": [
    "C109_two_bands_partial",
    "C109_threads_refuted"
   ],
   "note": "Minimum of the two bands proved for more than one thread; refuted for NTHREAD = 1, where only the shortwave infrared counts."
  },
  {
   "property": "C110",
   "status": "partial",
   "theorems": [
    "C110_skip_partial",
    "C110_threshold_refuted"
   ],
   "note": "Exact up to 0.8 times the threshold; refuted above: 65% clouds are skipped with a threshold of 75%."
  },
  {
   "property": "C111",
   "status": "proved",
   "theorems": [
    "C111_distance",
    "C111_clear"
   ],
   "note": "Whole pixels rounded down times the resolution, and the image without clouds."
  },
  {
   "property": "C112",
   "status": "partial",
   "theorems": [
    "C112_defined_partial",
    "C112_water",
    "C112_snow",
    "C112_saturated",
    "C112_cloud_is_bright",
    "C112_black_refuted",
    "C112_negative_refuted"
   ],
   "note": "Defined for non-negative reflectances with a visible sum above 0; water and snow tests agree with exact ratios; refuted: pixels black in the visible (NaN) and ratios above 1 from negative reflectance are undefined conversions."
  },
  {
   "property": "C113",
   "status": "proved",
   "theorems": [
    "C113_region_growing"
   ],
   "note": "Region growing by queue, refinement, saturation and brightness."
  },
  {
   "property": "C114",
   "status": "partial",
   "theorems": [
    "C114_even_partial",
    "C114_odd_refuted"
   ],
   "note": "Even sizes; refuted for odd numbers of rows (write behind the end)."
  },
  {
   "property": "C115",
   "status": "proved",
   "theorems": [
    "C115_files_hold_bands",
    "C115_not_requested",
    "C115_other_layout_refused"
   ],
   "note": "Whole bricks with values of the data type; names under 1024 characters, no stale locks."
  },
  {
   "property": "C116",
   "status": "partial",
   "theorems": [
    "C116_sequence",
    "C116_average_between",
    "C116_again",
    "C116_two_images_commute",
    "C116_quality_any_order",
    "C116_three_images_refuted"
   ],
   "note": "Sequences follow the pixel rule, merged values lie between, repeating an image changes nothing, two images commute, quality images commute in any number; refuted: three averaged reflectance images depend on the order."
  },
  {
   "property": "C117",
   "status": "partial",
   "theorems": [
    "C117_chunks_in_place_partial",
    "C117_skipped_first_chunk_refuted",
    "C117_first_chunk_late_refuted"
   ],
   "note": "Holds if the first chunk (0,0) is written first, in any order of the others; refuted when the first chunk has no data and is skipped (content of an earlier run stays, or cells stay unwritten) or is written late (erases the others)."
  },
  {
   "property": "C118",
   "status": "partial",
   "theorems": [
    "C118_one_after_the_other",
    "C118_all_data_arrive",
    "C118_mutual_exclusion",
    "C118_no_deadlock_partial",
    "C118_failure_blocks_refuted",
    "C118_failed_write_refuses_next_refuted"
   ],
   "note": "Serializability, mutual exclusion, absence of deadlock without failure; refuted: a failing writer keeps its lock file and blocks all later writers."
  },
  {
   "property": "C119",
   "status": "partial",
   "theorems": [
    "C119_reported_bytes_partial",
    "C119_failure_reported_refuted"
   ],
   "note": "Reported bytes are those of all requested products; refuted: a product that failed to be written is counted and the run is reported as successful."
  },
  {
   "property": "C120",
   "status": "partial",
   "theorems": [
    "C120_one_line_per_file",
    "C120_one_line_per_tile_partial",
    "C120_skipped_first_chunk_refuted"
   ],
   "note": "One line per file for whole bricks and for chunked tiles that begin with chunk (0,0); refuted: a tile whose first chunk is skipped has a file without a line."
  },
  {
   "property": "C121",
   "status": "partial",
   "theorems": [
    "C121_options_kept_partial",
    "C121_no_options_refuted"
   ],
   "note": "Driver, extension and all options in order if there is at least one option; refuted: driver and extension alone end the program."
  },
  {
   "property": "C122",
   "status": "partial",
   "theorems": [
    "C122_masks_partial",
    "C122_buffer_partial",
    "C122_thermal_partial",
    "C122_hidden_zero_refuted",
    "C122_buffered_border_refuted"
   ],
   "note": "Missing: zeros behind a saturated band are not seen (C122_hidden_zero_refuted); with the buffer, void pixels at the image border become valid (C122_buffered_border_refuted)."
  },
  {
   "property": "C123",
   "status": "partial",
   "theorems": [
    "C123_only_on_request",
    "C123_screening_partial",
    "C123_blue_refuted",
    "C123_two_bands_refuted"
   ],
   "note": "Exact except where blue is the noisiest band (C123_blue_refuted: noise missed) or red lies between blue and green (C123_two_bands_refuted: false detection). Standard deviations in exact arithmetic."
  },
  {
   "property": "C124",
   "status": "partial",
   "theorems": [
    "C124_stored_partial",
    "C124_unchanged_refuted",
    "C124_defined_refuted"
   ],
   "note": "The stored value is the number or one closer to zero (C124_unchanged_refuted: 7 is stored as 6); above 32767 undefined (C124_defined_refuted)."
  },
  {
   "property": "C125",
   "status": "partial",
   "theorems": [
    "C125_nodata",
    "C125_reflectance_monotone",
    "C125_reflectance_partial",
    "C125_bright_refuted",
    "C125_all_bands_refuted",
    "C125_temperature_monotone",
    "C125_temperature_close"
   ],
   "note": "Within 1.1 units in the usual range, monotone, nodata rule; reflectance above 3.2767 is undefined (C125_bright_refuted), earlier bands of a nodata pixel keep their values (C125_all_bands_refuted)."
  },
  {
   "property": "C126",
   "status": "partial",
   "theorems": [
    "C126_cell_in_grid",
    "C126_empty_cell_refuted"
   ],
   "note": "Every pixel has its cell; a cell may be without pixels (C126_empty_cell_refuted)."
  },
  {
   "property": "C127",
   "status": "partial",
   "theorems": [
    "C127_values_partial",
    "C127_valid_where_data",
    "C127_uniform_refuted",
    "C127_nodata_refuted",
    "C127_chunks_refuted",
    "C127_inside",
    "C127_inside_any_ratio"
   ],
   "note": "Whole numbered ratios up to 1000: nodata rule and bounds, cut towards zero. Refuted: a uniform area of 1 becomes 0, 10000 is lost when nodata is 1, chunk borders change values."
  },
  {
   "property": "C128",
   "status": "proved",
   "theorems": [
    "C128_half_width",
    "C128_kernel"
   ],
   "note": "Search and kernel over the reals, entries rounded to float."
  },
  {
   "property": "C129",
   "status": "partial",
   "theorems": [
    "C129_days_partial",
    "C129_filled",
    "C129_last_step_refuted"
   ],
   "note": "proved: the bands are the step days whose whole step lies in the period; refuted: the last, shorter step has no band"
  },
  {
   "property": "C130",
   "status": "partial",
   "theorems": [
    "C130_labels_partial",
    "C130_order_refuted"
   ],
   "note": "proved for images in chronological order; refuted for other orders (labels are taken from the end of the list)"
  },
  {
   "property": "C131",
   "status": "partial",
   "theorems": [
    "C131_files_partial",
    "C131_sources",
    "C131_complete_partial",
    "C131_nothing",
    "C131_nothing_refuted",
    "C131_same_index_refuted"
   ],
   "note": "files, sources in memory and completeness proved; refuted: an empty near real time product suppresses all products; an index given twice gives the same file twice"
  },
  {
   "property": "C132",
   "status": "partial",
   "theorems": [
    "C132_curve_partial",
    "C132_fit_range",
    "C132_season",
    "C132_too_few",
    "C132_nrt_nodata_refuted"
   ],
   "note": "proved for any regression, doubles as reals; refuted: near real time residual of pixels without fit is 0, not nodata. Missing: quality of the regression"
  },
  {
   "property": "C133",
   "status": "proved",
   "theorems": [
    "C133_seasonal",
    "C133_years"
   ],
   "note": "labels and dates of the bands for all seasons"
  },
  {
   "property": "C134",
   "status": "partial",
   "theorems": [
    "C134_angle",
    "C134_value_partial",
    "C134_between",
    "C134_untouched",
    "C134_image"
   ],
   "note": "Angles in rounded doubles, predictions in real numbers. Full statement up to: undefined if a mean does not fit into 16 bits, or if the pixel is at 15 degrees (within 1e-10) from the global centre and no cluster is similar, where the weights may sum up to zero."
  },
  {
   "property": "C135",
   "status": "partial",
   "theorems": [
    "C135_clusters_partial",
    "C135_far_partial",
    "C135_nine_refuted",
    "C135_global_refuted"
   ],
   "note": "Holds if the nearest centre is neither the tenth nor the global one, or if nothing is similar. Refuted otherwise with the centres of the code."
  },
  {
   "property": "C136",
   "status": "proved",
   "theorems": [
    "C136_plane",
    "C136_defined",
    "C136_illumination"
   ],
   "note": "real arithmetic for angles and gradients"
  },
  {
   "property": "C137",
   "status": "partial",
   "theorems": [
    "C137_ocean_partial",
    "C137_ocean_refuted",
    "C137_smooth",
    "C137_borders",
    "C137_flag_refuted"
   ],
   "note": "sea and borders proved for column-then-row runs; sea connected otherwise stays nodata (refuted); slope flag at borders refuted"
  },
  {
   "property": "C138",
   "status": "proved",
   "theorems": [
    "C138_classes",
    "C138_refused"
   ],
   "note": "with single and double precision rounding"
  },
  {
   "property": "C139",
   "status": "proved",
   "theorems": [
    "C139_sample",
    "C139_factor",
    "C139_stored"
   ],
   "note": "regression is a parameter; real arithmetic"
  },
  {
   "property": "C140",
   "status": "partial",
   "theorems": [
    "C140_missing",
    "C140_count",
    "C140_distance",
    "C140_centred_partial",
    "C140_total",
    "C140_centred_refuted",
    "C140_variance_refuted"
   ],
   "note": "Refuted: pixels missing in some bands shift the mean (C140_centred_refuted); the data are projected on rows of the eigenvector matrix, so the kept components need not hold the requested variance (C140_variance_refuted). The eigen decomposition (GSL) is an input."
  },
  {
   "property": "C141",
   "status": "proved",
   "theorems": [
    "C141_reciprocal",
    "C141_mirror",
    "C141_turn",
    "C141_positive",
    "C141_length",
    "C141_unknown",
    "C141_standard",
    "C141_normalised",
    "C141_published",
    "C141_same_nir",
    "C141_second"
   ],
   "note": "Real arithmetic; the standard sun zenith is an input."
  },
  {
   "property": "C142",
   "status": "proved",
   "theorems": [
    "C142_reflexive",
    "C142_symmetric",
    "C142_zero",
    "C142_integers",
    "C142_close",
    "C142_large_refuted",
    "C142_digits",
    "C142_digits_unique",
    "C142_size"
   ],
   "note": "Rounded arithmetic on finite numbers. Beyond 2^23 neighbouring integers count as equal (C142_large_refuted)."
  },
  {
   "property": "C143",
   "status": "partial",
   "theorems": [
    "C143_position",
    "C143_hidden",
    "C143_on_the_ground",
    "C143_shadow_of_cloud",
    "C143_excellent",
    "C143_best",
    "C143_none",
    "C143_ends",
    "C143_sun_up",
    "C143_night_refuted",
    "C143_fraction_refuted",
    "C143_sampling_refuted"
   ],
   "note": "Positions in real numbers. Refuted: the search ends (C143_night_refuted: endless with the sun below the horizon; C143_sun_up and C143_ends: it ends otherwise), the similarity is a fraction (C143_fraction_refuted), every cloud gets a shadow (C143_sampling_refuted)."
  },
  {
   "property": "C144",
   "status": "partial",
   "theorems": [
    "C144_corners",
    "C144_zenith",
    "C144_azimuth",
    "C144_masked_partial",
    "C144_masked_only_refuted"
   ],
   "note": "Angles in real numbers; geographic coordinates of the midpoints taken to scale. Masked cells proved for 10 m pixels; refuted: no pixel of another cell is masked (C144_masked_only_refuted)."
  },
  {
   "property": "C145",
   "status": "partial",
   "theorems": [
    "C145_gmt_partial",
    "C145_new_year_refuted",
    "C145_overpass",
    "C145_overpass_time",
    "C145_julian",
    "C145_float",
    "C145_time_refuted"
   ],
   "note": "Times in real numbers, Julian date in floats. Refuted: the day on 1 January east of 150 degrees (C145_new_year_refuted), telling hours apart (C145_time_refuted: quarter of a day)."
  },
  {
   "property": "C146",
   "status": "partial",
   "theorems": [
    "C146_mean",
    "C146_range",
    "C146_masked",
    "C146_kept_refuted"
   ],
   "note": "Real numbers. Refuted in double arithmetic: a pixel without similar neighbours keeps its value (C146_kept_refuted: 3 becomes 2)."
  },
  {
   "property": "C147",
   "status": "partial",
   "theorems": [
    "C147_mean",
    "C147_blocks_partial",
    "C147_blocks_refuted"
   ],
   "note": "Real numbers; the width of the similarity classes is an input. Blocks proved for images without nodata; refuted with nodata elsewhere (C147_blocks_refuted: the number of the block is taken for the pixel)."
  },
  {
   "property": "C148",
   "status": "partial",
   "theorems": [
    "C148_masked_partial",
    "C148_order_refuted",
    "C148_uniform_partial"
   ],
   "note": "The fit is any solution of least squares; shown for uniform fine bands. Refuted: independence of the order of the rows (C148_order_refuted)."
  },
  {
   "property": "C149",
   "status": "partial",
   "theorems": [
    "C149_read",
    "C149_modules",
    "C149_no_quality_refuted"
   ],
   "note": "All assignments of dates to threads; clear sky observations without quality product follow a null pointer (C149_no_quality_refuted)."
  },
  {
   "property": "C150",
   "status": "partial",
   "theorems": [
    "C150_mask",
    "C150_no_mask",
    "C150_input",
    "C150_wide_mask_refuted",
    "C150_features"
   ],
   "note": "Holds for masks of 8 bits; a 16 bit mask value of 257 counts as 1 (C150_wide_mask_refuted)."
  },
  {
   "property": "C151",
   "status": "partial",
   "theorems": [
    "C151_one_input_partial",
    "C151_second_input_refuted"
   ],
   "note": "Modules with one set of sensors: accepted exactly when the sensors suit the target. Level 2 ImproPhe never is, because no parameter sets the target of its second sensors (C151_second_input_refuted)."
  },
  {
   "property": "C152",
   "status": "partial",
   "theorems": [
    "C152_average_partial",
    "C152_modis_size_refuted",
    "C152_wrong_block_refuted",
    "C152_date_line_refuted",
    "C152_bits"
   ],
   "note": "Proved for granules whose pixels all have a block of locations; refuted for the sizes of MODIS granules, and across the date line."
  },
  {
   "property": "C153",
   "status": "proved",
   "theorems": [
    "C153_choice",
    "C153_aqua",
    "C153_table"
   ],
   "note": "Choice per coordinate, commissioning of Aqua, when a table is written."
  },
  {
   "property": "C154",
   "status": "partial",
   "theorems": [
    "C154_days_partial",
    "C154_order_refuted",
    "C154_end_refuted",
    "C154_climatology",
    "C154_mismatch"
   ],
   "note": "Proved for existing days in order; refuted: two kinds of accepted periods that never end. Climatology proved in full."
  },
  {
   "property": "C155",
   "status": "partial",
   "theorems": [
    "C155_constant",
    "C155_daily",
    "C155_climatology",
    "C155_none",
    "C155_strict_refuted",
    "C155_nodata_refuted",
    "C155_blank_refuted"
   ],
   "note": "Nearest value of the day, then of the month, failure without any; refuted: strict mode, 9999 in both tables, blank lines."
  },
  {
   "property": "C156",
   "status": "proved",
   "theorems": [
    "C156_unwrap",
    "C156_datum",
    "C156_reorder",
    "C156_kept"
   ],
   "note": "Unwrapping, ring order and selection of granules."
  },
  {
   "property": "C157",
   "status": "partial",
   "theorems": [
    "C157_quantile",
    "C157_denominator",
    "C157_monotone",
    "C157_colder",
    "C157_warm",
    "C157_land",
    "C157_water",
    "C157_decision",
    "C157_sure",
    "C157_only",
    "C157_no_clear_water",
    "C157_no_land",
    "C157_mask_partial",
    "C157_team_refuted"
   ],
   "note": "C157_mask_partial needs one configured thread or a team of two; C157_team_refuted: with a team of one the water part is never computed. The other theorems settle decision, formulas, quantiles and monotony for every image. Quantiles of GSL are exact reals."
  },
  {
   "property": "C158",
   "status": "partial",
   "theorems": [
    "C158_index",
    "C158_bounds",
    "C158_sign",
    "C158_flat_refuted",
    "C158_mask"
   ],
   "note": "C158_mask: from the ratios to the mask; doubles exact, the index rounded to float, ratios are numbers. The last part of the statement is false: C158_flat_refuted, cells where neither ratio varies have the index 0/0."
  },
  {
   "property": "C159",
   "status": "partial",
   "theorems": [
    "C159_table",
    "C159_map",
    "C159_threads",
    "C159_gas_partial",
    "C159_gas_edge",
    "C159_gas_edge_refuted",
    "C159_size_refuted"
   ],
   "note": "Map, table and threads are proved; the transmittance of a pixel is that of its water vapour only if the first pixel of its block is valid (C159_gas_partial, C159_gas_edge), refuted otherwise (C159_gas_edge_refuted)."
  },
  {
   "property": "C160",
   "status": "partial",
   "theorems": [
    "C160_layout",
    "C160_jobs",
    "C160_history_partial",
    "C160_recorded_partial",
    "C160_resume_partial",
    "C160_complete_partial",
    "C160_missing_refuted",
    "C160_suffix_refuted",
    "C160_name_refuted",
    "C160_plus_refuted",
    "C160_unlocked_refuted"
   ],
   "note": "Proved for images that exist and plain paths none of which is the end of another; cleaning and jobs in full. Refuted: missing images stay QUEUED, paths that end like another, QUEUED in a directory name, '+' in a path, images queued during the cleaning are lost."
  },
  {
   "property": "C161",
   "status": "partial",
   "theorems": [
    "C161_log",
    "C161_directories_partial",
    "C161_same_name_refuted",
    "C161_kinds_refuted"
   ],
   "note": "True for different base names (up to the extension); refuted for equal names in different directories, and for an archive and its directory."
  },
  {
   "property": "C162",
   "status": "partial",
   "theorems": [
    "C162_sentinel2_partial",
    "C162_landsat_partial",
    "C162_landsat_padded_partial",
    "C162_same_day_refuted",
    "C162_concatenated_refuted"
   ],
   "note": "Proved per tile and day, for Landsat with path numbers of fixed width. Refuted: two sensing times of one tile and day; path and row are joined without separator. The text filters of sensor, tile and tier are an input."
  },
  {
   "property": "C163",
   "status": "partial",
   "theorems": [
    "C163_queued_complete",
    "C163_resume_partial",
    "C163_unqueued_refuted",
    "C163_truncated_refuted"
   ],
   "note": "Only complete scenes are queued, whatever the interruptions; all are queued if interruptions fall into a transfer or behind the queueing. Refuted: interruption between two files, or between last file and queue."
  },
  {
   "property": "C164",
   "status": "partial",
   "theorems": [
    "C164_split",
    "C164_ends",
    "C164_ordered",
    "C164_percent_partial",
    "C164_number_partial",
    "C164_all_refuted",
    "C164_more_refuted",
    "C164_none_refuted"
   ],
   "note": "Split and drawing for all samples and draws; the number is exact for whole percentages, and in range for any, of up to 167772 samples. Refuted: 100 % of 671089 samples leave one out, of 16777219 samples are more than there are, and if no sample is left for training the first row is read nevertheless."
  },
  {
   "property": "C165",
   "status": "partial",
   "theorems": [
    "C165_proportional_partial",
    "C165_antiproportional_partial",
    "C165_custom_partial",
    "C165_none",
    "C165_training_refuted",
    "C165_overflow_refuted"
   ],
   "note": "Weights as exact reals, for classes whose differences fit an int. Refuted: classes without training sample get a weight, so that there are more weights than trained classes; overflow of the comparison."
  },
  {
   "property": "C166",
   "status": "partial",
   "theorems": [
    "C166_one_citation_partial",
    "C166_written_partial",
    "C166_kept",
    "C166_marks",
    "C166_collision_refuted"
   ],
   "note": "Sets that differ in one citation have different files, and a new file has exactly the marked entries. Refuted: the name has eight bits; NDVI, and NDVIre1 with NDVIre2, share a file, so that the citations of the second run are lost."
  },
  {
   "property": "C167",
   "status": "partial",
   "theorems": [
    "C167_all_partial",
    "C167_paired_partial",
    "C167_none",
    "C167_single_refuted",
    "C167_shift_refuted"
   ],
   "note": "Proved for vectors of at least two values (all) or one value (paired). Refuted: with 'all' a vector of one value keeps its braces; with 'paired' an empty vector takes the values of the next one. Characters with a meaning for shell or sed are left out."
  },
  {
   "property": "C168",
   "status": "partial",
   "theorems": [
    "C168_range_partial",
    "C168_allow_list",
    "C168_zero_refuted",
    "C168_maximum_refuted"
   ],
   "note": "Proved without column or row 0. Refuted: zeros are stripped, so that for every datacube with a tile in column 0 the minimum is empty, and 0 is never the maximum."
  },
  {
   "property": "C169",
   "status": "partial",
   "theorems": [
    "C169_total",
    "C169_all_bytes_partial",
    "C169_unit",
    "C169_uncounted_refuted",
    "C169_twice_refuted"
   ],
   "note": "The total is settled for all listings (each file once per sensor in its name), units as well, with exact numbers. Refuted: products like LNDLG are not counted, names with two sensors are counted twice."
  }
 ]
}