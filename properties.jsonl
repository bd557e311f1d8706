{"id": "C01", "title": "Coordinate queue is a bounded FIFO", "statement": "A queue created with create_queue(q, n), n>=1, holds at most n-1 coordinate pairs; dequeue returns pairs in exactly the order they were enqueued; enqueue reports FAILURE if and only if n-1 pairs are queued and then changes nothing; dequeue reports FAILURE if and only if the queue is empty. Pairs whose coordinates fit in 16 bits come back unchanged. No operation touches memory outside the n slots.", "quantifier": "every capacity n>=1 and every finite history of enqueue/dequeue calls with arbitrary int coordinates", "why_tests_cant": "the property ranges over unbounded operation histories, in particular every wrap-around position of head and tail", "anchors": ["src/modules/cross-level/queue-cl.c: create_queue, enqueue, dequeue"]}
{"id": "C02", "title": "Day-of-year and month/day are inverse on the 365-day calendar", "statement": "For every day-of-year d in 1..365, doy2md gives a month in 1..12 and a day that exists in that month, and md2doy maps it back to d; conversely every existing (month, day) of a non-leap year maps to a doy in 1..365 that maps back. doy2m and doy2d agree with doy2md.", "quantifier": "every day of year and every month/day pair (any int)", "why_tests_cant": "an equality between two independently written tables and code paths; only a proof over the complete domain with the int default branches covers it", "anchors": ["src/modules/cross-level/date-cl.c: doy2md, doy2m, doy2d, md2doy"]}
{"id": "C03", "title": "Continuous days round-trip and order dates", "statement": "ce2date(date2ce(y,m,d)) = (y,m,d) for every valid 365-day-calendar date; ce2year/ce2doy agree; and date1.ce < date2.ce if and only if (y1,m1,d1) precedes (y2,m2,d2).", "quantifier": "every year (positive or negative) and every month/day of the 365-day calendar", "why_tests_cant": "quantifies over all years; the year boundary (remainder 0) branch and order preservation are relations between infinitely many values", "anchors": ["src/modules/cross-level/date-cl.c: date2ce, doy2ce, ce2date, ce2doy, ce2year, set_date_ce", "src/modules/cross-level/datesys-cl.c: date_order"]}
{"id": "C04", "title": "Date setters keep all fields of a date consistent", "statement": "After set_date, set_date_doy, set_date_ce, ... the fields year, month, day, doy, week, quarter and ce of the date describe the same day: doy=md2doy(month,day), week is the 7-day week of doy (capped at 52), quarter is the calendar quarter, ce=365*year+doy.", "quantifier": "every prior content of the date record, every valid argument, every sequence of setter calls", "why_tests_cant": "an invariant over all call histories, not over single calls", "anchors": ["src/modules/cross-level/date-cl.c: set_date, set_date_year, set_date_month_day, set_date_ce, set_date_doy, set_date_week, set_date_month, set_date_quarter, init_date"]}
{"id": "C05", "title": "File-name dates: text round trip and validation", "statement": "compact_date(y,m,d) printed into a file name and read back by date_from_string gives the same date for every acceptable date; date_from_string reports FAILURE for every string whose first token is not an 8 character date inside the documented ranges; it never reports SUCCESS with a date outside 1900..2100.", "quantifier": "every string and every date", "why_tests_cant": "ranges over all strings; tests can only sample", "anchors": ["src/modules/cross-level/date-cl.c: compact_date, date_from_string"]}
{"id": "C06", "title": "Elapsed seconds are decomposed without loss", "statement": "set_secs(secs) decomposes a duration into years, months, days, hours, minutes, seconds so that the parts add up to the given duration and every lower unit is smaller than the next higher one (used for the ETA/real time display).", "quantifier": "every non-negative number of seconds", "why_tests_cant": "a wrong unit constant only shows for durations larger than that unit (a year), which tests never wait for", "anchors": ["src/modules/cross-level/date-cl.c: set_secs", "src/modules/higher-level/progress-hl.c: eta, print_progress_runtime"]}
{"id": "C07", "title": "Quality flags are independent bit fields", "statement": "Writing any quality flag of a pixel with an in-range value makes exactly that flag read back as that value and leaves all other flags (and pixels) unchanged; the twelve flags occupy disjoint bits of the 16-bit word. Values wider than the flag are not silently accepted.", "quantifier": "every 16-bit prior word (including negative ones), every flag, every value", "why_tests_cant": "2^16 words x 12 flags x all ints values; sign extension at bit 14/15 only shows for particular words", "anchors": ["src/modules/cross-level/quality-cl.c: set_qai, get_qai, set_off ... get_vaporfill", "src/modules/cross-level/enum-cl.h: _QAI_BIT_*"]}
{"id": "C08", "title": "Merging quality words is most restrictive", "statement": "merge_qai_from_values(a,b) yields, for every flag, the more restrictive of the two states (nodata only if both are nodata; worst cloud, aerosol, illumination state; union of all one-bit flags); it is commutative, associative and idempotent.", "quantifier": "every pair (triple) of 16-bit quality words", "why_tests_cant": "2^32 pairs; one wrongly oriented comparison among twelve survives any sampling that does not hit it", "anchors": ["src/modules/cross-level/quality-cl.c: merge_qai_from_values"]}
{"id": "C09", "title": "Quality screening removes exactly the selected states", "statement": "A pixel of an acquisition is used iff none of the states the user selected with SCREEN_QAI apply to it (and it is inside the processing mask); selecting more states never makes an excluded pixel usable.", "quantifier": "every quality word, every selection of the 18 states, every pixel", "why_tests_cant": "2^18 selections x 2^16 words", "anchors": ["src/modules/higher-level/quality-hl.c: use_this_pixel, screen_qai"]}
{"id": "C10", "title": "String copies never overflow and never truncate silently", "statement": "copy_string, concat_string_2 and concat_string_3 either leave in the destination exactly the (joined) source followed by a NUL within the given size, or terminate the program; they never write outside the destination.", "quantifier": "every destination size, every source string", "why_tests_cant": "all lengths around the boundary, for every buffer size", "anchors": ["src/modules/cross-level/string-cl.c: copy_string, concat_string_2, concat_string_3"]}
{"id": "C11", "title": "Substring replacement", "statement": "replace_string(src, search, replace, size) replaces exactly the first occurrence of search and nothing else, leaves strings that do not contain search alone, and never writes more than size bytes.", "quantifier": "every source/search/replacement string and buffer size", "why_tests_cant": "ranges over all triples of strings including overlaps and boundary sizes", "anchors": ["src/modules/cross-level/string-cl.c: replace_string, overwrite_string_part"]}
{"id": "C12", "title": "String vectors grow without losing entries", "statement": "After any sequence of fill_string_vector calls each position holds the last string written to it, positions never written are empty, and other entries are preserved.", "quantifier": "every sequence of (position, string) writes", "why_tests_cant": "history-dependent growth/reallocation", "anchors": ["src/modules/cross-level/string-cl.c: fill_string_vector, re_alloc_string_vector, alloc_string, fill_string"]}
{"id": "C13", "title": "Reallocation keeps the overlapping content and zeroes the rest", "statement": "re_alloc, re_alloc_2D, re_alloc_2DC and re_alloc_3D keep every element whose indices exist in both the old and the new shape at its indices and make new elements zero.", "quantifier": "every old and new shape, every content", "why_tests_cant": "shape pairs are unbounded; contiguous 2D layouts move rows when the row length changes", "anchors": ["src/modules/cross-level/alloc-cl.c: re_alloc, re_alloc_2D, re_alloc_2DC, re_alloc_3D"]}
{"id": "C14", "title": "Active tiles are exactly the allow-listed tiles of the requested range", "statement": "tile_active produces each tile of the requested X/Y range that is on the allow list (or every tile of the range without a list) exactly once, in row-major order, and nothing else; it fails iff that set is empty; it never writes outside its arrays.", "quantifier": "every tile range and every allow-list", "why_tests_cant": "all ranges/lists, including duplicates in the list and ranges with one row/column", "anchors": ["src/modules/cross-level/tile-cl.c: tile_readlist, tile_allowlisted, tile_active"]}
{"id": "C15", "title": "Every map coordinate belongs to exactly one tile that contains it", "statement": "tile_find returns the tile whose footprint contains the coordinate: its upper-left corner is on the tiling grid and the coordinate lies in the half-open footprint of that tile; neighbouring tiles do not both claim a coordinate and no coordinate is assigned to a tile not containing it.", "quantifier": "every coordinate, origin and tile size", "why_tests_cant": "boundaries between tiles on either side of the origin are measure-zero inputs", "anchors": ["src/modules/cross-level/cube-cl.c: tile_find"]}
{"id": "C16", "title": "Image origin alignment", "statement": "tile_align snaps an upper-left coordinate to the pixel grid of its tile such that the image stays covered and moves by at most one pixel; an already aligned coordinate does not move.", "quantifier": "every coordinate, origin, tile size and resolution", "why_tests_cant": "exactly aligned coordinates are a measure-zero input", "anchors": ["src/modules/cross-level/cube-cl.c: tile_align"]}
{"id": "C17", "title": "Each processing unit is read, computed and written exactly once, in order", "statement": "Whether streaming is on or off, a higher-level run reads every processing unit exactly once, computes it exactly once strictly after it was read, and writes it (if it has products) exactly once strictly after it was computed; no unit index outside the allocated arrays is ever used; the run terminates.", "quantifier": "every number of units (including 0) and, with streaming, every interleaving of the three concurrent stages", "why_tests_cant": "ranges over all unit counts and all thread schedules", "anchors": ["src/modules/higher-level/progress-hl.c: progress, processing_unit, forward_processing_unit, read_this_chunk, compute_this_chunk, write_this_chunk", "src/modules/higher-level/tasks-hl.c: read_higher_level, compute_higher_level, output_higher_level", "src/main/higher-level/force-higher-level.c: main"]}
{"id": "C18", "title": "Processing units enumerate all (tile, chunk) pairs", "statement": "The map from processing unit to (tile, chunk column, chunk row) is a bijection onto active tiles x chunks, i.e. every chunk of every active tile is processed exactly once.", "quantifier": "every number of tiles and chunk layout", "why_tests_cant": "the computation uses single-precision floats, so it is only wrong for very large runs no test executes", "anchors": ["src/modules/higher-level/progress-hl.c: forward_processing_unit, chunk_layout, init_progess"]}
{"id": "C19", "title": "A run that read and wrote data is not reported as empty", "statement": "The exit status with FAIL_IF_EMPTY and the byte totals reflect all data read and written by the run: a run reports 'no input or output' only if no bytes were read, or none written, in the whole run.", "quantifier": "every sequence of per-unit byte counts, streaming on or off", "why_tests_cant": "depends on which unit happens to be the last one of the run", "anchors": ["src/modules/higher-level/tasks-hl.c: read_higher_level, output_higher_level, handle_no_io", "src/main/higher-level/force-higher-level.c: main"]}
{"id": "C20", "title": "One-pass moments equal their definitions", "statement": "Feeding x1..xn to the recurrences (mean/variance, covariance, skewness, kurtosis) yields in exact arithmetic the arithmetic mean, the sums of squared/cubed/fourth-power deviations from the mean and the co-moment; variance() is the unbiased sample variance, skewness()/kurtosis() the population coefficients.", "quantifier": "every sequence of real numbers of any length", "why_tests_cant": "an algebraic identity over all sequences", "anchors": ["src/modules/cross-level/stats-cl.c: covar_recurrence, cov_recurrence, kurt_recurrence, skew_recurrence, var_recurrence, variance, standdev, skewness, kurtosis"]}
{"id": "C21", "title": "Trend lines are least-squares fits", "statement": "linreg_coefs applied to the accumulated moments gives the slope/offset minimizing the sum of squared residuals, residuals sum to zero, and R-squared lies in [0,1] and is the explained share of the variance.", "quantifier": "every series with at least two distinct x values (reals)", "why_tests_cant": "optimality over all alternative lines cannot be tested", "anchors": ["src/modules/cross-level/stats-cl.c: linreg_coefs, linreg_rsquared, linreg_predict", "src/modules/higher-level/trend-hl.c: trend"]}
{"id": "C22", "title": "Mode, unique count and histogram", "statement": "mode(x,n) returns a value with maximal multiplicity; n_uniq(x,n) is the number of distinct values; histogram counts each value once and its counts sum to n.", "quantifier": "every integer array", "why_tests_cant": "depends on order and ties of arbitrary arrays", "anchors": ["src/modules/cross-level/stats-cl.c: mode, n_uniq, histogram"]}
{"id": "C23", "title": "Accepted parameter files satisfy every declared constraint", "statement": "If check_parameter succeeds, every registered parameter was given, every numeric value lies in its declared range, every enumeration value is one of the allowed tags, every vector has the expected length; conversely a file violating any of these is rejected.", "quantifier": "every set of registered parameters and every parameter file", "why_tests_cant": "quantifies over all files and registrations, including special float values", "anchors": ["src/modules/cross-level/param-cl.c: parse_parameter, check_parameter, check_int_par, check_enum_par, check_float_par, check_double_par, check_date_par, parse_enum, length_par"]}
{"id": "C24", "title": "Parameter values are the blank/equals separated words before a comment", "statement": "For a line 'TAG = v1 v2 ... # comment' parse_parameter stores exactly v1, v2, ... in order; the first valid line for a tag wins; other lines never modify the parameter; vector storage is never exceeded.", "quantifier": "every line and every sequence of lines", "why_tests_cant": "all strings; re-tokenisation of the buffer inside the parameter loop", "anchors": ["src/modules/cross-level/param-cl.c: length_par, parse_parameter"]}
{"id": "C25", "title": "Linear interpolation is exact at observations and bounded by its neighbours", "statement": "For every equidistant date the linearly interpolated value is the observation itself on observation dates, lies between (and is proportionally blended from) the nearest earlier and later clear observation, equals the nearest one outside the observed period, and is nodata iff the pixel has no clear observation.", "quantifier": "every time series with sorted dates, every sorted interpolation grid, every pixel", "why_tests_cant": "the scan start index is carried over between output dates; correctness is an invariant over the whole double loop", "anchors": ["src/modules/higher-level/interpolate-hl.c: interpolate_linear"]}
{"id": "C26", "title": "Moving average interpolation uses exactly the observations in the window", "statement": "interpolate_moving gives the mean of all clear observations within mov_max days, nodata iff there is none.", "quantifier": "every sorted series, grid and window size", "why_tests_cant": "the carried start index must never skip an observation of a later window", "anchors": ["src/modules/higher-level/interpolate-hl.c: interpolate_moving"]}
{"id": "C27", "title": "RBF interpolation stays inside its kernel and between data values", "statement": "interpolate_rbf never reads a kernel weight outside the kernel array, uses exactly the clear observations inside each kernel cut-off, and the result lies between the smallest and largest used observation; nodata iff no observation is used.", "quantifier": "every sorted series, kernel widths and cut-off", "why_tests_cant": "memory safety for all widths/date distances", "anchors": ["src/modules/higher-level/interpolate-hl.c: interpolate_rbf, rbf_kernel"]}
{"id": "C28", "title": "Folding aggregates exactly the observations of each period", "statement": "Each folded band (year, quarter, month, week, day) holds the chosen statistic of exactly the valid interpolated values dated in that period, nodata iff there is none or the pixel is masked.", "quantifier": "every series, period type, statistic and mask", "why_tests_cant": "all series/dates; boundary periods", "anchors": ["src/modules/higher-level/fold-hl.c: fold, tsa_fold"]}
{"id": "C29", "title": "Spectral temporal metrics", "statement": "NUM, MIN, MAX, RNG, AVG of STM are the count, minimum, maximum, range and mean of the valid values of the pixel's series; all metrics are nodata iff the series has no valid value or the pixel is masked.", "quantifier": "every series of 16-bit values", "why_tests_cant": "range overflow and sentinel initialisation only show for extreme values", "anchors": ["src/modules/higher-level/stm-hl.c: tsa_stm"]}
{"id": "C30", "title": "Standardization", "statement": "After standardization every valid value is the truncated (and clamped) centred/normalised value; nodata values and masked pixels are unchanged; a series that has at least two valid values stays defined.", "quantifier": "every series of 16-bit values, both methods", "why_tests_cant": "degenerate (constant) series divide by zero", "anchors": ["src/modules/higher-level/standardize-hl.c: standardize_timeseries"]}
{"id": "C31", "title": "Change detection (CAT) finds the largest drop", "statement": "Without penalty, CHANGE is the largest difference between a valid value and its preceding valid value and YEAR is the first period attaining it; the series is then split into the part before and the part from the change on.", "quantifier": "every folded series", "why_tests_cant": "ranges over all series and gaps", "anchors": ["src/modules/higher-level/trend-hl.c: cat"]}
{"id": "C32", "title": "Noise screening terminates and only removes observations", "statement": "screen_noise terminates for every input, never un-masks an observation that QAI screening removed, and keeps at least the two outermost observations.", "quantifier": "every series and every threshold", "why_tests_cant": "termination and monotonicity for all inputs", "anchors": ["src/modules/higher-level/quality-hl.c: screen_noise"]}
{"id": "C33", "title": "Greyscale reconstruction computes the flooding fixpoint", "statement": "On success greyscale_reconstruction_ returns the morphological reconstruction by erosion of mask from marker: every interior pixel equals the minimum over all 8-connected paths of the maximal mask value on the path.", "quantifier": "every image of up to 32768 rows and columns, every initial marker", "why_tests_cant": "graph fixpoint over all images", "anchors": ["src/modules/cross-level/imagefuns-cl.c: greyscale_reconstruction_"]}
{"id": "C34", "title": "Distance transform is the exact Euclidean distance", "statement": "dist_transform_ yields for every pixel of an image with at least one TRUE pixel the Euclidean distance to the nearest TRUE pixel, rounded down; without any TRUE pixel every value is at least the number of rows plus the number of columns; it neither leaves its arrays nor overflows.", "quantifier": "every binary image whose squared size nx^2+(nx+2ny)^2 fits into a 32-bit int", "why_tests_cant": "lower envelope algorithm correctness for all images", "anchors": ["src/modules/cross-level/imagefuns-cl.c: dist_transform_, dt_dfun, dt_Sep"]}
{"id": "C35", "title": "Buffering never removes pixels", "statement": "buffer_ grows the TRUE region: every TRUE pixel stays TRUE and every pixel within radius r of a TRUE pixel becomes TRUE; pixels farther away are unchanged; no write outside the image.", "quantifier": "every image and radius", "why_tests_cant": "border behaviour for all radii", "anchors": ["src/modules/cross-level/imagefuns-cl.c: buffer_"]}
{"id": "C36", "title": "Band subsetting keeps names and numbers aligned", "statement": "After the indices have been retrieved without spectral adjustment, exactly the bands needed by the requested indices remain, in their original order, and for every sensor the band number of each remaining name is the one it had before; an index that is undefined or needs a missing band ends the program.", "quantifier": "every sensor configuration and selection", "why_tests_cant": "in-place shifting over all masks", "anchors": ["src/modules/higher-level/index-parse-hl.c: remove_unused_bands, check_available_bands"]}
{"id": "C37", "title": "Clear-sky observation windows tile the time range", "statement": "The CSO windows are consecutive, non-overlapping, cover the requested range; NUM counts exactly the clear observations of the pixel in the window; the gaps between observations (incl. window borders) add up to the window length and all gap statistics are statistics of these gaps.", "quantifier": "every date range, step and series", "why_tests_cant": "counter mix-ups (n vs. number of gaps) only show for particular series", "anchors": ["src/modules/higher-level/cso-hl.c: clear_sky_observations, compile_cso"]}
{"id": "C38", "title": "Every sample point is extracted exactly once", "statement": "Over a whole run each active sample point inside the processed tiles is extracted from exactly one chunk and pixel - the one containing it - and deactivated.", "quantifier": "every sample coordinate and chunk layout", "why_tests_cant": "coordinates exactly on tile borders", "anchors": ["src/modules/higher-level/sample-hl.c: sample_points", "src/modules/cross-level/cube-cl.c: tile_find"]}
{"id": "C39", "title": "Datacube definition survives being written and read", "statement": "read_datacube_def of a file written by write_datacube_def yields the same projection, geographic and map origin and tile size.", "quantifier": "every datacube definition", "why_tests_cant": "projection strings contain separators of the tag/value syntax", "anchors": ["src/modules/cross-level/cube-cl.c: write_datacube_def, read_datacube_def", "src/modules/cross-level/read-cl.c: read_tagvalue"]}
{"id": "C40", "title": "Path decomposition", "statement": "basename/extension/directory functions split a path such that the parts recombine to the original, for every path.", "quantifier": "every path string", "why_tests_cant": "trailing slashes, missing dots, empty strings", "anchors": ["src/modules/cross-level/dir-cl.c: extension, extension2, basename_without_ext, basename_with_ext, directoryname"]}
{"id": "C41", "title": "Parameter log never overflows its buffer", "statement": "log_parameter never writes outside the 16384 byte log and logs every registered parameter or terminates.", "quantifier": "every set of parameters and values", "why_tests_cant": "total length of all values is unbounded", "anchors": ["src/modules/cross-level/param-cl.c: log_parameter"]}
{"id": "C42", "title": "Connected components", "statement": "connectedcomponents_ labels foreground pixels with 1..n such that two foreground pixels have equal labels iff they are 8-connected; background stays 0; n is the number of components.", "quantifier": "every binary image", "why_tests_cant": "contour tracing correctness over all shapes", "anchors": ["src/modules/cross-level/imagefuns-cl.c: connectedcomponents_, ccl_tracer, binary_to_objects"]}
{"id": "C43", "title": "Majority fill", "statement": "majorfill_ only changes FALSE pixels, only to TRUE, and only pixels with at least five TRUE neighbours in the final image; the result does not depend on the thread schedule.", "quantifier": "every image and schedule", "why_tests_cant": "schedule dependent", "anchors": ["src/modules/cross-level/imagefuns-cl.c: majorfill_"]}
{"id": "C44", "title": "Tables are read completely and regularly", "statement": "read_table returns every row and column of a regular table in order with correct per-column minimum, maximum, mean; irregular tables are rejected.", "quantifier": "every table content and size (buffer doubling)", "why_tests_cant": "unbounded sizes and value ranges", "anchors": ["src/modules/cross-level/table-cl.c: read_table"]}
{"id": "C45", "title": "Every requested metric gets its own output band", "statement": "For every list of requested statistics (STM or CSO parameter), band i of the product holds the i-th requested statistic; parsing the list never writes outside its tables.", "quantifier": "all lists of requested statistics of any length and all time series", "why_tests_cant": "unbounded lists, including duplicates and more quantiles than the fixed size table", "anchors": ["src/modules/higher-level/param-hl.c: parse_sta", "src/modules/higher-level/stm-hl.c: tsa_stm"]}
{"id": "C46", "title": "Noise screening keeps a series without noise", "statement": "A series whose observations lie exactly on a straight line in time (in particular a constant series) has zero noise, so noise screening never drops one of its observations, whatever the thresholds.", "quantifier": "all lines, all observation dates including several observations on one day, all masks and thresholds", "why_tests_cant": "depends on every combination of slopes and date gaps", "anchors": ["src/modules/higher-level/quality-hl.c: screen_noise"]}
{"id": "C47", "title": "The margin of a chunk is taken from the neighbouring chunks and tiles", "statement": "Reading a chunk of a tile with a margin of n pixels returns, for every requested band, the chunk surrounded by exactly the pixels that lie next to it when all tiles are seen as one seamless image, and nodata where a neighbouring tile has no file; with a margin of 0 it returns the chunk itself.", "quantifier": "all datacubes (any number of tiles, chunks per tile and pixels per chunk, any pixel values), all resolutions, all tiles and chunks, all margins up to the size of a chunk, all lists of bands and both pixel types", "why_tests_cant": "the nine parts are read with offsets that depend on chunk, tile and direction; a test covers a few cubes and positions", "anchors": ["src/modules/higher-level/read-ard-hl.c: read_chunk", "src/modules/higher-level/read-ard-hl.c: add_chunks"]}
{"id": "C48", "title": "Cropping a product returns its inner part", "statement": "Removing a margin of n pixels returns for every band and pixel type exactly the pixels at distance n and more from the border, without access outside of the image; removing the margin a chunk was read with gives the chunk back.", "quantifier": "all image sizes, margins, numbers of bands, pixel values and pixel types", "why_tests_cant": "the result depends on every index of an image of any size; a test covers single images and the type short", "anchors": ["src/modules/cross-level/brick_base-cl.c: crop_brick", "src/modules/higher-level/tasks-hl.c: output_higher_level"]}
{"id": "C49", "title": "The season and the folding periods follow DOY_RANGE", "statement": "Given the first and last day of the year of a season, exactly the days from the first to the last are used, over the turn of the year if the last comes first (and one day if they are equal); a week, month or quarter is used iff one of its days is; the folded time series has one date per year, used quarter, used month, used week and used day, at the first day of the period, each once and in ascending order.", "quantifier": "all first and last days 1-365 and all numbers of years", "why_tests_cant": "133225 combinations of first and last day, each with hundreds of flags and dates; tests check a few", "anchors": ["src/modules/higher-level/param-hl.c: parse_param_higher", "src/modules/higher-level/tsa-hl.c: compile_ts_metadata"]}
{"id": "C50", "title": "Exactly the requested images of a tile are listed", "statement": "Listing a tile returns exactly the image files of the requested product and sensors whose date lies in the time span and in the season and that are not Landsat 7 images after the date from which those are ignored, in the order of the directory, which is the order of the dates; if there are none it fails.", "quantifier": "all directory contents, products, sensor lists, time spans and seasons", "why_tests_cant": "directories hold any number of files with any names; a test lists a few directories", "anchors": ["src/modules/higher-level/read-ard-hl.c: list_ard"]}
{"id": "C51", "title": "Exactly the bands that all sensors share are processed", "statement": "Without spectral adjustment the processed bands are exactly those bands of the first sensor that every other sensor has, in the first sensor's order; for each sensor and band the file band number that is read is the one defined for that name. Startup fails if there is no common band, if a sensor is unknown, or if the common bands are not the bands of the target sensor.", "quantifier": "all sets of sensor definitions, sensor lists and target sensors", "why_tests_cant": "the sensor list and the definitions are free; tests cover a few combinations of shipped sensors", "anchors": ["src/modules/higher-level/sensor-hl.c: retrieve_sensor", "src/modules/higher-level/sensor-hl.c: get_band_intersection", "src/modules/higher-level/sensor-hl.c: get_band_numbers_to_read", "src/modules/higher-level/sensor-hl.c: check_target_sensor"]}
{"id": "C52", "title": "With spectral adjustment all bands of all sensors are processed", "statement": "With spectral adjustment the processed bands are all bands of the sensors and of Sentinel-2A, each once, in the order of first occurrence; a band that a sensor lacks has number 0 for it; memory is accessed only within the allocated tables.", "quantifier": "all sets of sensor definitions and sensor lists", "why_tests_cant": "a write behind an allocated table usually goes unnoticed in a test, and the sensor lists are free", "anchors": ["src/modules/higher-level/sensor-hl.c: retrieve_sensor", "src/modules/higher-level/sensor-hl.c: get_band_union"]}
{"id": "C53", "title": "The best-available-pixel composite shows the best usable observation", "statement": "With SELECT = TRUE every band of the composite, and quality, number, day, year, distance, sensor and score products, come from one observation: the earliest of those with the largest total score among the valid observations that are in season and not excluded as too cloudy or too hazy; NUM is the number of usable observations. Without any usable observation all products hold nodata. Over water the total score is one minus the SWIR2 reflectance, halved where SWIR2 exceeds NIR.", "quantifier": "all parameter files with a peak, decline or rise of the DOY scores, all time series of a pixel, all earlier pixels", "why_tests_cant": "the choice depends on the joint order of all scores of all observations", "anchors": ["src/modules/higher-level/bap-hl.c: bap_compositing", "src/modules/higher-level/bap-hl.c: haze_stats", "src/modules/higher-level/bap-hl.c: water_score", "src/modules/higher-level/bap-hl.c: pixel_is_water", "src/modules/higher-level/level3-hl.c: level3"]}
{"id": "C54", "title": "The scores follow the configured functions", "statement": "The DOY score equals the configured scores on the configured days of the closest target year and decreases with the distance from the target; the year score does so with the distance from the target year; the cloud distance, haze, view angle and correlation scores are monotone and 1/2 at the configured values; a score with weight 0 is 0; the total score is the weighted mean or product and lies between 0 and 1.", "quantifier": "all parameter files with a peak of the DOY scores, all observations within 80 years of the target year", "why_tests_cant": "the scores are real functions of days, weights and angles", "anchors": ["src/modules/higher-level/bap-hl.c: parametric_score", "src/modules/higher-level/bap-hl.c: target_function", "src/modules/higher-level/bap-hl.c: compile_target_static"]}
{"id": "C55", "title": "Every accepted parameter file defines the composite", "statement": "For every set of compositing parameters that the parameter parser accepts, each pixel gets a result; no memory outside the arrays is accessed and no conversion overflows.", "quantifier": "all accepted parameter files and time series", "why_tests_cant": "only special combinations of parameters fail", "anchors": ["src/modules/higher-level/bap-hl.c: parametric_score", "src/modules/higher-level/bap-hl.c: bap_compositing", "src/modules/higher-level/bap-hl.c: bap_weighting", "src/modules/higher-level/param-hl.c: parse_param_higher"]}
{"id": "C56", "title": "Averaging weighs all usable observations by their score", "statement": "With SELECT = FALSE each band is the mean of the usable observations weighted by their total scores, cut to an integer, and lies between the smallest and the largest valid value; the score products are mean scores; the pixel is nodata if the scores add up to zero.", "quantifier": "all such parameter files and time series", "why_tests_cant": "sums over any number of observations", "anchors": ["src/modules/higher-level/bap-hl.c: bap_weighting"]}
{"id": "C57", "title": "A composite pixel does not depend on the pixels before it", "statement": "The score arrays are reused from pixel to pixel; the products of a pixel depend only on its own observations and the parameters.", "quantifier": "all contents left by earlier pixels, all time series, first target year at least 1901", "why_tests_cant": "stale values only show for special orders of pixels", "anchors": ["src/modules/higher-level/level3-hl.c: level3", "src/modules/higher-level/bap-hl.c: parametric_score"]}
{"id": "C58", "title": "The correlation score compares an observation with all others", "statement": "The value scored is the mean absolute Pearson correlation of the spectrum with those of all other valid observations, leaving out spectra with the same value in all bands; it lies between 0 and 1 when there is such an observation.", "quantifier": "all numbers of bands and observations", "why_tests_cant": "the matrix is filled by symmetry and overwritten by its means", "anchors": ["src/modules/higher-level/bap-hl.c: corr_matrix"]}
{"id": "C59", "title": "A weight of zero takes a score out of the ranking but keeps the observations", "statement": "Setting a weight to 0 switches that score off; observations are still used.", "quantifier": "all parameter files and time series", "why_tests_cant": "a combination of two parameters decides", "anchors": ["src/modules/higher-level/bap-hl.c: parametric_score", "src/modules/higher-level/bap-hl.c: bap_compositing"]}
{"id": "C60", "title": "Spectral indices follow their documented formulas", "statement": "For every index of the shipped list (but NDVIre1n), each valid observation with reflectances between 0 and 1 gets the value of the documented formula, scaled and truncated (less than 1.1 units away); nodata where the formula is undefined, the observation is invalid or the pixel is masked. A band name instead of an index returns that band.", "quantifier": "all index names, band orders, numbers of observations and reflectances between 0 and 1 (positive for kNDVI), as long as the result fits into 16 bit", "why_tests_cant": "31 formulas over up to six bands in single precision; rounding errors and zero denominators", "anchors": ["src/modules/higher-level/index-compute-hl.c: tsa_spectral_index", "src/modules/higher-level/index-compute-hl.c: index_differenced", "src/modules/higher-level/index-compute-hl.c: index_resistance", "src/modules/higher-level/index-compute-hl.c: index_tasseled"]}
{"id": "C61", "title": "Every index of the shipped list can be computed", "statement": "An index named in indices.json is computed whenever its bands are available, and a missing band is an error.", "quantifier": "all names of the list, all sets of bands", "why_tests_cant": "names are compared as strings in two files", "anchors": ["src/modules/higher-level/index-compute-hl.c: tsa_spectral_index", "src/modules/higher-level/index-compute-hl.c: index_kernelized"]}
{"id": "C62", "title": "Index computation is defined for every valid observation", "statement": "No valid observation makes the conversion of an index to 16 bit undefined.", "quantifier": "all valid observations", "why_tests_cant": "overflow needs special combinations of bands", "anchors": ["src/modules/higher-level/index-compute-hl.c: index_resistance", "src/modules/higher-level/index-compute-hl.c: index_msrre", "src/modules/higher-level/index-compute-hl.c: index_tasseled"]}
{"id": "C63", "title": "Normalized differences behave as such", "statement": "A normalized difference lies between -1 and 1, changes its sign when the bands are swapped, does not change when both bands are scaled, increases with the first band and decreases with the second.", "quantifier": "all integer band values (non-negative for the order)", "why_tests_cant": "relations between all pairs of inputs under rounding", "anchors": ["src/modules/higher-level/index-compute-hl.c: index_differenced"]}
{"id": "C64", "title": "A valid index value is not mistaken for nodata", "statement": "The value stored for a valid observation differs from the nodata value -9999 when the index is defined.", "quantifier": "all valid observations", "why_tests_cant": "needs special band values", "anchors": ["src/modules/higher-level/index-compute-hl.c: index_tasseled", "src/modules/higher-level/index-compute-hl.c: index_differenced"]}
{"id": "C65", "title": "Quality of a pixel merged from many images does not depend on their order", "statement": "Merging the quality words of any number of images gives the same word in every order; it is nodata only if all are nodata, every other flag but illumination has the worst value found, and it is clear only if all are clear.", "quantifier": "all lists of quality words, all orders", "why_tests_cant": "number of lists and orders is unbounded", "anchors": ["src/modules/cross-level/quality-cl.c: merge_qai_from_values"]}
{"id": "C66", "title": "The tile list decides which tiles are processed", "statement": "With a file that lists tiles in the documented form, exactly the listed tiles within the requested extent are processed, each once, row by row; the order of the list and repetitions do not matter; the call fails exactly if no tile is left.", "quantifier": "all non-empty lists of tile numbers between -999 and 9999 and all extents", "why_tests_cant": "lists and extents are unbounded", "anchors": ["src/modules/cross-level/tile-cl.c: tile_readlist", "src/modules/cross-level/tile-cl.c: tile_active"]}
{"id": "C67", "title": "Every chunk of every tile is processed exactly once", "statement": "In every run, streaming or not, each chunk of each tile is read, computed and written exactly once, in this order, and nothing else is.", "quantifier": "all lists of tiles, all chunk layouts up to 2^24 chunks, all interleavings of the threads", "why_tests_cant": "interleavings and sizes are unbounded", "anchors": ["src/modules/higher-level/progress-hl.c: progress, processing_unit, forward_processing_unit, chunk_layout", "src/modules/higher-level/tasks-hl.c: read_higher_level, compute_higher_level, output_higher_level"]}
{"id": "C68", "title": "Printed dates are read back", "statement": "A calendar date printed as YYYYMMDD is read back as the same date, whatever text follows the word; different dates have different texts.", "quantifier": "all calendar dates of the years 1900 to 2099 (365-day calendar), all following texts up to the buffer size", "why_tests_cant": "73000 dates times all texts", "anchors": ["src/modules/cross-level/date-cl.c: compact_date", "src/modules/cross-level/date-cl.c: date_from_string"]}
{"id": "C69", "title": "A parameter file is accepted exactly if all parameters are given correctly", "statement": "For the text of a whole file: reading and checking succeeds exactly if every registered parameter is defined, with the right number of values, all in range; the first definition of each parameter counts.", "quantifier": "all sets of parameters, all files of lines below the buffer size, numbers other than NaN, full dates", "why_tests_cant": "unbounded texts and registrations", "anchors": ["src/modules/cross-level/param-cl.c: parse_parameter", "src/modules/cross-level/param-cl.c: check_parameter"]}
{"id": "C70", "title": "Mode, number of classes and histogram of an image do not depend on the order of its pixels", "statement": "For 16-bit images mode, number of distinct values and histogram are right and, for the latter two, the same for every arrangement of the pixels; the mode has the same frequency.", "quantifier": "all non-empty 16-bit images and all permutations", "why_tests_cant": "unbounded", "anchors": ["src/modules/cross-level/stats-cl.c: mode", "src/modules/cross-level/stats-cl.c: n_uniq", "src/modules/cross-level/stats-cl.c: histogram"]}
{"id": "C71", "title": "Noise removal without restoring ends and is stable", "statement": "With BELOW_NOISE = 0 the noise filter ends for every series, never makes an observation clear, leaves at least three clear observations if it drops any, and drops nothing when applied to its own result.", "quantifier": "all time series and all non-negative thresholds", "why_tests_cant": "unbounded series; a float iteration", "anchors": ["src/modules/higher-level/quality-hl.c: screen_noise"]}
{"id": "C72", "title": "Linear interpolation of reflectances is exact and monotone between observations", "statement": "For reflectances up to 10000 and gaps up to 1677 days the interpolated value is the exact blend of the two neighbours, cut to an integer; between two observations the values change in one direction only and stay between them.", "quantifier": "all time series of reflectances, all increasing grids of days", "why_tests_cant": "unbounded; single-precision arithmetic", "anchors": ["src/modules/higher-level/interpolate-hl.c: interpolate_linear"]}
{"id": "C73", "title": "Landscape metrics describe the patches around each pixel", "statement": "Every metric written for a pixel is the value of its definition for the foreground pixels within the kernel around that pixel: mean patch area, fractal dimension, edge density, number of patches, mesh size, mean, standard deviation, geometric mean, maximum, area and patch number. It does not depend on the number of threads, on which thread treats the pixel or on the pixels treated before. Values are written exactly for pixels that are not masked or excluded and belong to the class, or for all of them if all pixels were requested.", "quantifier": "all images, masks, class queries, radii, kernel shapes, minimum patch sizes, lists of metrics and assignments of pixels to threads", "why_tests_cant": "images and schedules are unbounded; the arrays are reused between pixels", "anchors": ["src/modules/higher-level/lsm-hl.c: landscape_metrics", "src/modules/cross-level/imagefuns-cl.c: binary_to_objects"]}
{"id": "C74", "title": "Landscape metrics are in their range and follow the usual definitions", "statement": "Mean patch area and mesh size are between 0 and 10000, edge density between 0 and 20000, and counts and maxima are not negative; the effective mesh size is the sum of the squared shares of the patches; the maximum is a value of the window.", "quantifier": "all images, radii, queries and schedules", "why_tests_cant": "unbounded; values are converted to 16 bit without a test", "anchors": ["src/modules/higher-level/lsm-hl.c: landscape_metrics", "src/modules/cross-level/imagefuns-cl.c: binary_to_objects"]}
{"id": "C75", "title": "Every requested landscape metric exists for every requested pixel", "statement": "For every pixel for which metrics are requested a value is computed from finite numbers and fits 16 bit.", "quantifier": "all images, radii, queries and schedules", "why_tests_cant": "degenerate windows (one pixel, one patch, no positive values) are rare in tests", "anchors": ["src/modules/higher-level/lsm-hl.c: landscape_metrics", "src/modules/cross-level/imagefuns-cl.c: binary_to_objects"]}
{"id": "C76", "title": "The terms of the radiative transfer are physical", "statement": "Direct and diffuse transmittances are shares of the light that add up to the total, at most 1, and fall with aerosol; spherical albedo stays below 0.46; the share of the surroundings grows with distance from 0 towards 1; the scattering angle and the illumination are the angles between the directions of sun, sensor and terrain; both phase functions distribute all scattered light; gas transmittances lie in (0,1], are 1 without gas and fall with the amount and the path; Fresnel reflection lies in [0,1]; optical depths fall with elevation and can be scaled forth and back; ozone stays between 0.235 and 0.445.", "quantifier": "all optical depths, all angles, all bands, all gas amounts, all elevations, all places and days", "why_tests_cant": "ranges and integrals over continuous quantities", "anchors": ["src/modules/lower-level/radtran-ll.c: scatt_transmitt, sphere_albedo, env_weight, backscatter, phase_molecular, phase_aerosol, wvp_transmitt, ozone_transmitt, fresnel_reflection, illumin, aod_elev_factor, mod_elev_factor, path_ref", "src/modules/lower-level/gas-ll.c: ozone_amount"]}
{"id": "C77", "title": "Atmospheric correction undoes the effect of the atmosphere", "statement": "The surface reflectance written for a pixel is that of the only surface that looks like the measured value through the given atmosphere, cut to an integer; too dark or too bright values are flagged and clamped as documented, other flags stay; the value is nodata only for pixels that are switched off; with and without the correction of the surroundings a uniform scene gives the same reflectance.", "quantifier": "all atmospheres that let light pass, all measured values, all quality words", "why_tests_cant": "the inverse of a non-linear equation for all atmospheres", "anchors": ["src/modules/lower-level/atmo-ll.c: surface_reflectance"]}
{"id": "C78", "title": "Values between the cells of a coarse grid come from its valid cells", "statement": "The value interpolated for a pixel lies between the smallest and the largest valid cell around it; fields that are linear in the coordinates are reproduced.", "quantifier": "all grid sizes, all pixels, all patterns of nodata", "why_tests_cant": "all patterns of missing cells", "anchors": ["src/modules/lower-level/atmo-ll.c: interpolation_weights, interpolate_coarse"]}
{"id": "C79", "title": "Without atmospheric correction the reflectance is passed through", "statement": "With atmospheric correction switched off the top-of-atmosphere reflectance is written unchanged.", "quantifier": "all 16-bit reflectances", "why_tests_cant": "single-precision rounding for all values", "anchors": ["src/modules/lower-level/atmo-ll.c: surface_reflectance"]}
{"id": "C80", "title": "Background reflectance is an average of the scene", "statement": "The background reflectance of every valid pixel lies between the smallest and the largest reflectance of the clear pixels; a uniform scene keeps its reflectance.", "quantifier": "all images, all patterns of clouds and nodata, all aerosol loads, all resolutions up to 250 m", "why_tests_cant": "all images and cloud patterns; recursive filters", "anchors": ["src/modules/lower-level/atmo-ll.c: background_reflectance"]}
{"id": "C81", "title": "Topographic correction leaves flat terrain alone", "statement": "On flat terrain with open sky the topographic factor is 1; it is positive and falls with illumination; terrain without direct light is left alone; the C factor, estimated in SWIR2, is carried to each band with the ratio of diffuse to direct light.", "quantifier": "all sun angles, illumination angles, sky view factors and atmospheres", "why_tests_cant": "continuous quantities", "anchors": ["src/modules/lower-level/atmo-ll.c: surface_reflectance"]}
{"id": "C82", "title": "Phenological dates and values are those of observations", "statement": "For every pixel and year, the date and the value written for an event of a land surface phenology season (start, middle, peak, end, ...) are the date and the value of one observation of the interpolated series; dates count days from the first day of the first year.", "quantifier": "all interpolated series, all thresholds, all step widths below a year, all years", "why_tests_cant": "the events come out of a search over all positions in all series", "anchors": ["src/modules/higher-level/polar-hl.c: polar_ts, polar_coords, identify_regular_seasons, identify_variable_seasons, accumulate_seasons", "docs/source/components/higher-level/tsa/param.rst: POL"]}
{"id": "C83", "title": "Phenological seasons begin on the same day of every year", "statement": "With fixed seasons, observations are put into the season given by their date and the day on which the phenological year begins.", "quantifier": "all series on a regular grid of dates, all start days", "why_tests_cant": "all combinations of start day, step width and first date", "anchors": ["src/modules/higher-level/polar-hl.c: identify_regular_seasons"]}
{"id": "C84", "title": "Phenological dates are in order", "statement": "Within a season: start of the season, early date, middle, late date and end never run backwards, and the peak of the season lies between start and end.", "quantifier": "all series, all thresholds in order, fixed and adaptive seasons", "why_tests_cant": "all shapes of series", "anchors": ["src/modules/higher-level/polar-hl.c: accumulate_seasons, metrics"]}
{"id": "C85", "title": "The peak is the highest value of the season", "statement": "No value written for another event exceeds the value of the peak; the amplitude is peak minus minimum and never negative.", "quantifier": "all series, all years", "why_tests_cant": "all shapes of series", "anchors": ["src/modules/higher-level/polar-hl.c: metrics"]}
{"id": "C86", "title": "Integrals of a season add up", "statement": "The integral over the season is the sum of the integral of the base level and the seasonal integral, up to one unit from cutting to integers; the integrals can be stored for all legal values.", "quantifier": "all series of 16-bit values, step widths up to 255 days", "why_tests_cant": "rounding of single-precision sums for all series", "anchors": ["src/modules/higher-level/polar-hl.c: metrics"]}
{"id": "C87", "title": "Phenology is written for the years that are complete and nodata stays nodata", "statement": "All metrics have one value per year; one of the two outer years is nodata; masked pixels and pixels without observations are nodata everywhere; the polar coordinates can be requested alone.", "quantifier": "all series, all lists of requested metrics", "why_tests_cant": "all combinations of requested outputs", "anchors": ["src/modules/higher-level/polar-hl.c: tsa_polar, polar_ts"]}
{"id": "C88", "title": "Lengths of phenological periods are differences of dates", "statement": "A length is the difference of the two dates that delimit it; dates of mean vectors lie within the phenological year; the shift of the start of a season is at most half a year and 0 for fixed seasons.", "quantifier": "all series, all years, fixed and adaptive seasons", "why_tests_cant": "direction arithmetic on the circle for all angles, in machine arithmetic", "anchors": ["src/modules/higher-level/polar-hl.c: metrics, identify_variable_seasons, polar_vector"]}
{"id": "C89", "title": "Phenology is computed for all pixels with data", "statement": "Every pixel with data gets metrics; the program does not fail for any legal values.", "quantifier": "all series of 16-bit values", "why_tests_cant": "rare series such as those that are never positive", "anchors": ["src/modules/higher-level/polar-hl.c: accumulate_seasons, metrics"]}
{"id": "C90", "title": "ImproPhe predictions are weighted means of similar pixels nearby", "statement": "The value predicted for a pixel is a weighted mean of the coarse values of the pixels within the prediction radius that have data and are similar in the fine image; the strictest limit of similarity with enough pixels is used; more similar and more homogeneous pixels never weigh less; the prediction stays within the range of the values used; a uniform coarse image stays as it is.", "quantifier": "all images, all radii, all positions", "why_tests_cant": "the result depends on all pixels in the circle and on exponential weights", "anchors": ["src/modules/higher-level/improphe-hl.c: improphe, rescale_weight", "src/modules/cross-level/imagefuns-cl.c: distance_kernel"]}
{"id": "C91", "title": "Seasonal averages use the observations of the season", "statement": "The average image of a season is the mean of the clear observations within the seasonal window (and the year); if there is none, the mean over all windows; nodata if there is none at all; every day of the year belongs to a window when the breakpoints cover the year, and windows may extend into the previous or the next year.", "quantifier": "all series of observations, all lists of breakpoints", "why_tests_cant": "all combinations of dates and windows", "anchors": ["src/modules/higher-level/improphe-hl.c: average_season", "src/modules/aux-level/param-aux.c: write_par_hl_imp"]}
{"id": "C92", "title": "ImproPhe products hold predictions, originals or nodata", "statement": "Every pixel of a product holds nodata outside of the processing mask, the original value where the input is not valid, the prediction elsewhere.", "quantifier": "all images, masks and years", "why_tests_cant": "all combinations of missing data", "anchors": ["src/modules/higher-level/l2-improphe-hl.c: level2_improphe", "src/modules/higher-level/cf-improphe-hl.c: confield_improphe"]}
{"id": "C93", "title": "ImproPhe texture and standardization", "statement": "The texture of a pixel is the largest sample standard deviation, over the bands, of the valid values in the square around it, 0 in uniform surroundings; standardization gives mean 0 and standard deviation 1 and keeps nodata.", "quantifier": "all images and radii", "why_tests_cant": "identities over the real numbers for all images", "anchors": ["src/modules/higher-level/improphe-hl.c: focal_sd, standardize_float"]}
{"id": "C94", "title": "Library completeness is the distance to the closest library entry", "statement": "The value written for a library is the distance of the pixel to the closest entry, over the features that are valid; the summary is the minimum over all libraries; a pixel that equals an entry has distance 0; more entries never increase the value.", "quantifier": "all libraries, all pixels, with and without rescaling and exclusion", "why_tests_cant": "minimum over arbitrary tables", "anchors": ["src/modules/higher-level/lib-hl.c: library_completeness", "src/modules/higher-level/read-aux-hl.cpp: read_libraries"]}
{"id": "C95", "title": "Texture is grey-scale morphology", "statement": "Erosion and dilation are minimum and maximum over the pixels within RADIUS, repeated TXT_ITERATIONS times; opening never brightens and closing never darkens; both are idempotent; all operations but the differences are monotone; the result does not depend on how a tile is divided into blocks; only valid pixels take part.", "quantifier": "all images, radii and numbers of iterations, all block sizes", "why_tests_cant": "algebraic laws over all images", "anchors": ["src/modules/higher-level/texture-hl.c: texture", "src/modules/higher-level/param-hl.c: parse_param_higher"]}
{"id": "C96", "title": "force-hist counts every class", "statement": "The table written by force-hist lists, in increasing order, exactly the values other than nodata that occur in the image, each with its number of pixels; an image without nodata value is refused.", "quantifier": "all images of 16-bit integers, all nodata values", "why_tests_cant": "all images", "anchors": ["src/main/aux-level/force-hist.c: main"]}
{"id": "C97", "title": "force-stratified-sample draws the requested sample", "statement": "Every written point is the centre of a pixel with the class written, no pixel is drawn twice, only requested classes are drawn, each class gets the requested number of points (or all its pixels), taken by the smallest random numbers; output file and format can be chosen.", "quantifier": "all images, all tables of sample sizes, all sequences of random numbers", "why_tests_cant": "depends on random numbers", "anchors": ["src/main/aux-level/force-stratified-sample.c: main, parse_args"]}
{"id": "C98", "title": "Tile grid and tile finder agree with the data cube", "statement": "force-tabulate-grid lists every tile that the box touches, once, with non-overlapping polygons: every point in the box lies in the listed tile to which the other programs assign it; no tile outside is listed; force-tile-finder gives a tile and pixel that contain the point.", "quantifier": "all grids, all boxes, all points", "why_tests_cant": "all real coordinates", "anchors": ["src/main/aux-level/force-tabulate-grid.c: main", "src/main/aux-level/force-tile-finder.c: main", "src/modules/cross-level/cube-cl.c: tile_find"]}
{"id": "C99", "title": "force-stack stacks all bands in a defined order", "statement": "The virtual stack holds every band of every input exactly once: ordered by band and then by file if all inputs have the same number of bands, else by file and then by band; inputs that do not match in directory, size or position are refused.", "quantifier": "all lists of inputs", "why_tests_cant": "all lists of inputs", "anchors": ["src/main/aux-level/force-stack.c: main"]}
{"id": "C100", "title": "Regression blends the models of its own model set", "statement": "For every predicted pixel and model set the prediction is the scaled and clipped mean of the first n models of that set, n is reported as number of iterations, and n is the first number above two at which the mean changes by less than the convergence threshold (all models if it never does); the uncertainty is the sample standard deviation of these predictions.", "quantifier": "all model sets, all numbers of models, all predictions, thresholds and scales", "why_tests_cant": "all real predictions and thresholds", "anchors": ["src/modules/higher-level/ml-hl.c: machine_learning"]}
{"id": "C101", "title": "Classification takes the majority of the models", "statement": "The class of every predicted pixel is a most frequent label among the models of the set, where the label of a random forest is one with most votes.", "quantifier": "all model sets, all labels and votes", "why_tests_cant": "all combinations of votes", "anchors": ["src/modules/higher-level/ml-hl.c: machine_learning", "src/modules/higher-level/read-aux-hl.cpp: read_machine_learner"]}
{"id": "C102", "title": "Random forest probabilities and margin reflect the votes", "statement": "The probability of a class is its share of the votes in 1/10000, the probabilities of a set do not exceed 10000 in total, a unanimous vote gives 10000, and the margin is the difference of the two largest probabilities.", "quantifier": "all model sets, all votes", "why_tests_cant": "all votes, floating point division", "anchors": ["src/modules/higher-level/ml-hl.c: machine_learning"]}
{"id": "C103", "title": "Pixels without valid input have no prediction", "statement": "All requested products of a pixel outside of the processing mask, or with an invalid feature if these are excluded, are nodata in every band; every other pixel is predicted by at least one and at most all models.", "quantifier": "all masks, features and model sets", "why_tests_cant": "all combinations", "anchors": ["src/modules/higher-level/ml-hl.c: machine_learning"]}
{"id": "C104", "title": "Tiling a Level 2 image loses and moves no pixel", "statement": "Every pixel of the image is in exactly one tile at the same map coordinates, with the same values in all products, and the rest of a tile is nodata; a tile of the extent and allow-list is written, once, if and only if it has valid pixels and its share of clouds and shadows does not exceed the allowed one; the georeference of each written product fits its pixel size.", "quantifier": "all grids, images, positions, products, allow-lists and thresholds", "why_tests_cant": "all offsets between image and grid and all images", "anchors": ["src/modules/lower-level/cube-ll.c: tile_level2, start_datacube"]}
{"id": "C105", "title": "The quicklook has the documented colours", "statement": "Every pixel of the Level 2 quicklook has the documented colour of the image pixel it stands for: nodata black, cirrus red, clouds pink, shadows cyan, snow yellow, saturation orange, subzero green, else true colour stretched from 0 to 25 % reflectance, monotonically; no pixel outside of the image is read.", "quantifier": "all image sizes and resolutions, all quality words and reflectances", "why_tests_cant": "2^15 words times all reflectances and sizes", "anchors": ["src/modules/lower-level/atmo-ll.c: compile_l2_ovv"]}
{"id": "C106", "title": "Level 2 tiles hold whole pixels", "statement": "A data cube is only started if the tile size is a multiple of the resolution, so that neighbouring tiles share no pixel and leave no gap.", "quantifier": "all tile sizes and resolutions", "why_tests_cant": "all combinations, including degrees", "anchors": ["src/modules/lower-level/cube-ll.c: start_datacube"]}
{"id": "C107", "title": "Inflated quality information is complete", "statement": "The bands of the inflated quality image are the documented flags in the documented order, and the quality word can be restored from them.", "quantifier": "all images and quality words", "why_tests_cant": "2^15 words times all images", "anchors": ["src/main/higher-level/force-qai-inflate.c: main"]}
{"id": "C108", "title": "The cloud, shadow and snow flags cover the buffered detections", "statement": "In the final quality words, a detected cloud pixel is flagged as confident cloud, other pixels within the cloud buffer of one as buffered cloud, pixels within the cirrus buffer of a cirrus detection (above 1 % and above 0.7 % + 0.7 % per km2 of elevation) as cirrus unless they are cloud, pixels within the shadow and snow buffers as shadow and snow; nothing else changes and nodata pixels are untouched.", "quantifier": "all images, detections, elevations and buffer distances", "why_tests_cant": "all masks times all buffer distances, including the image border", "anchors": ["src/modules/lower-level/cloud-ll.c: finalize_cloud, potential_cloud"]}
{"id": "C109", "title": "The shadow detection uses both infrared bands and does not depend on the number of threads", "statement": "The shadow probability of a pixel is the smaller of its depths below the flooding level in the near and shortwave infrared, whatever the number of threads.", "quantifier": "all images, backgrounds and thread counts", "why_tests_cant": "result depends on NTHREAD and on all image topographies", "anchors": ["src/modules/lower-level/cloud-ll.c: shadow_probability"]}
{"id": "C110", "title": "MAX_CLOUD_COVER_FRAME skips exactly the images above the threshold", "statement": "The processing of an image is cancelled if and only if the share of cloud and shadow pixels among its valid pixels exceeds MAX_CLOUD_COVER_FRAME.", "quantifier": "all images, masks and thresholds", "why_tests_cant": "all shares and roundings at the threshold", "anchors": ["src/modules/lower-level/cloud-ll.c: detect_clouds, finalize_cloud"]}
{"id": "C111", "title": "The cloud distance is the distance to the nearest cloud, shadow or snow", "statement": "The cloud distance of a valid pixel is its Euclidean distance in metres (whole pixels) to the nearest cloud, shadow or snow pixel, at most 32767; nodata pixels have the nodata value; a clear image has a larger distance than any in the image.", "quantifier": "all quality images and resolutions", "why_tests_cant": "all positions of clouds in images of all sizes", "anchors": ["src/modules/lower-level/cloud-ll.c: cloud_distance"]}
{"id": "C112", "title": "The tests for potential cloud, water and snow are defined and exact", "statement": "For every valid pixel the tests for water, snow and potential cloud give a defined result: a water pixel is one with the documented ratio, reflectance and slope, a snow pixel one with the documented ratio, reflectance and temperature, a saturated pixel is a potential cloud, and the probability is between 0 and 1.", "quantifier": "all reflectances, temperatures and slopes", "why_tests_cant": "2^16 values per band, with undefined conversions for rare combinations", "anchors": ["src/modules/lower-level/cloud-ll.c: potential_cloud"]}
{"id": "C113", "title": "Sentinel-2 clouds grow into exactly the linked candidates", "statement": "The Sentinel-2 cloud mask marks a pixel if and only if it is bright and either saturated or in a cell that is a cloud or is connected to one through candidate cells; the search ends without an error.", "quantifier": "all masks and image sizes", "why_tests_cant": "all shapes of clouds", "anchors": ["src/modules/lower-level/cloud-ll.c: cloud_parallax"]}
{"id": "C114", "title": "Changing the resolution stays within the image", "statement": "Halving the resolution for the Sentinel-2 cloud test writes each coarse cell once, with the value of its pixels, and nothing outside of the coarse image.", "quantifier": "all image sizes", "why_tests_cant": "odd image sizes are not in any test data", "anchors": ["src/modules/lower-level/cloud-ll.c: cloud_parallax"]}
{"id": "C115", "title": "A written product holds exactly the selected bands", "statement": "Writing a product succeeds, releases its locks and leaves in each of its files exactly the bands selected for output, in their order, with name, nodata value and every pixel (combined with the previous content if the product is mosaicked); no other file changes. A file of another layout is refused and left unchanged, and a product that is not requested writes nothing.", "quantifier": "all products, band selections, output options and states of the disk", "why_tests_cant": "all combinations of output options and of what is on the disk before", "anchors": ["src/modules/cross-level/brick_io-cl.cpp: write_brick"]}
{"id": "C116", "title": "Several images of one day are combined pixel by pixel, whatever their order", "statement": "When several images are written into the same Level 2 file, a pixel that only one image sees keeps that value, otherwise it becomes the average (reflectance) or the worst state (quality); the result lies between the values, writing the same image again changes nothing, and the order of the images does not matter.", "quantifier": "all sequences of images and pixel values", "why_tests_cant": "all orders of arrival of any number of images", "anchors": ["src/modules/cross-level/brick_io-cl.cpp: write_brick"]}
{"id": "C117", "title": "A tile written in chunks is complete", "statement": "After the processing units of a tile have been written, each pixel of the file has the value its processing unit computed, and nothing remains from an earlier file.", "quantifier": "all chunk layouts, orders and previous files", "why_tests_cant": "all orders and all subsets of chunks that have data", "anchors": ["src/modules/cross-level/brick_io-cl.cpp: write_brick"]}
{"id": "C118", "title": "Processes that write the same file do not lose each other's data", "statement": "If several processes write the same file at the same time, the result is that of writing one after the other; a process that fails does not prevent the others from writing.", "quantifier": "all interleavings of any number of processes", "why_tests_cant": "races cannot be enumerated by running", "anchors": ["src/modules/cross-level/brick_io-cl.cpp: write_brick", "src/modules/cross-level/lock-cl.c: lock_file, unlock_file"]}
{"id": "C119", "title": "A higher level product that could not be written is reported", "statement": "The number of bytes reported as output counts the products that were written; if nothing could be written, the run does not end as successful.", "quantifier": "all products and states of the disk", "why_tests_cant": "failures of the file system at any point", "anchors": ["src/modules/higher-level/tasks-hl.c: output_higher_level", "src/modules/cross-level/brick_base-cl.c: get_brick_size"]}
{"id": "C120", "title": "The provenance file lists every written file once per run with its inputs", "statement": "Each written file gets one line in the provenance file, with its input images, marked as update exactly if it was combined with an existing file; a tile written in chunks gets one line for each file.", "quantifier": "all products, chunk orders and previous files", "why_tests_cant": "all orders of chunks and states of the disk", "anchors": ["src/modules/cross-level/brick_io-cl.cpp: write_brick"]}
{"id": "C121", "title": "All GDAL options of the options file are used", "statement": "Reading a file with GDAL output options gives the driver, the extension and all other options in the order of the file; driver and extension alone are enough.", "quantifier": "all files", "why_tests_cant": "all numbers and orders of lines", "anchors": ["src/modules/cross-level/gdalopt-cl.c: parse_gdaloptions"]}
{"id": "C122", "title": "Nodata and saturated pixels of a Level 1 image are found", "statement": "A pixel of a Level 1 image is nodata exactly if a band other than cirrus is zero there (or, if requested, it is next to such a pixel), and flagged as saturated exactly if a reflective band is at its maximum; an image without thermal data is refused.", "quantifier": "all images, band orders and options", "why_tests_cant": "all combinations of zeros and saturated values over bands and pixels", "anchors": ["src/modules/lower-level/read-ll.c: bounds_level1"]}
{"id": "C123", "title": "The impulse noise filter removes exactly the pixels where one visible band stands out", "statement": "If requested for 8 bit images, a pixel becomes nodata exactly if in its 3 x 3 window the standard deviation of one visible band exceeds that of both others by more than 15 digital numbers; nothing else changes.", "quantifier": "all images and masks", "why_tests_cant": "the filter works in place, each decision depends on all earlier ones", "anchors": ["src/modules/lower-level/read-ll.c: impulse_noise_level1"]}
{"id": "C124", "title": "Sentinel-2 digital numbers are stored as reflectance without loss", "statement": "With the scale 10000 of the products, the stored reflectance is the digital number plus the offset of the product, for every digital number.", "quantifier": "all digital numbers and offsets", "why_tests_cant": "rounding affects 2289 of 65536 numbers, none of them in an obvious place", "anchors": ["src/modules/lower-level/read-ll.c: convert_level1"]}
{"id": "C125", "title": "Landsat digital numbers become reflectance and temperature", "statement": "Reflectance is the calibrated value over the cosine of the sun zenith in 1/10000, temperature the Planck temperature in 1/100 Kelvin, both growing with the digital number; a pixel without positive reflectance is nodata in all bands.", "quantifier": "all digital numbers and calibrations", "why_tests_cant": "all calibration coefficients and digital numbers, rounding of every operation", "anchors": ["src/modules/lower-level/read-ll.c: convert_level1"]}
{"id": "C126", "title": "Every pixel has its cell in the coarse grid of the atmospheric correction", "statement": "Each pixel of the image is mapped to a cell inside the coarse grid that contains it, and each cell contains a pixel.", "quantifier": "all image sizes and whole numbered resolutions", "why_tests_cant": "all sizes and resolutions; rounding of quotients at cell borders", "anchors": ["src/modules/lower-level/atc-ll.c: init_atc_xy", "src/modules/cross-level/brick_base-cl.c: convert_brick_p2p"]}
{"id": "C127", "title": "Reducing the resolution with a point spread function gives weighted means", "statement": "With REDUCE_PSF, a coarse pixel is nodata exactly if all its fine pixels are, otherwise its value lies between the smallest and the largest valid value of the fine pixels within one coarse pixel around it; a uniform area keeps its value, any nodata value may be used, and the image does not depend on how it is divided into chunks.", "quantifier": "all images, sizes, ratios and nodata values", "why_tests_cant": "two passes of floating point means over all images; loss of one unit affects only some values", "anchors": ["src/modules/higher-level/read-ard-hl.c: reduce_psf"]}
{"id": "C128", "title": "The point spread function is a Gaussian as wide as the coarse pixel", "statement": "The search for the width of the Gaussian ends, its half width at half maximum is half of the ratio of the resolutions up to one step of the search, and the kernel is symmetric, non-negative and falls with the distance.", "quantifier": "all ratios of at least 1", "why_tests_cant": "termination of a search loop over real numbers", "anchors": ["src/modules/cross-level/imagefuns-cl.c: find_sigma, gauss_kernel"]}
{"id": "C129", "title": "The interpolated series covers the period in steps of INT_DAY", "statement": "The bands of the interpolated time series are the days of DATE_RANGE in steps of INT_DAY from its first day, in order and each once, up to the last such day in the period, and every band is named after its date.", "quantifier": "all periods and steps", "why_tests_cant": "the number of bands comes from integer division; only periods that are no multiple of the step differ", "anchors": ["src/modules/higher-level/tsa-hl.c: time_series_analysis, compile_tsa"]}
{"id": "C130", "title": "The bands of the near real time product carry the dates of the recent images", "statement": "The near real time product has exactly one band for each image after the end of the period of the harmonic fit, labelled with date and sensor of that image.", "quantifier": "all lists of images and fit periods", "why_tests_cant": "depends on the order and the dates of all images", "anchors": ["src/modules/higher-level/tsa-hl.c: time_series_analysis, compile_tsa"]}
{"id": "C131", "title": "The time series analysis writes exactly the requested products", "statement": "For each requested index exactly the requested products are written, each to its own file; everything a trend or a change product is computed from is in memory; and a product that happens to be empty does not suppress the others.", "quantifier": "all combinations of output options and indices", "why_tests_cant": "some hundred output options can be combined freely", "anchors": ["src/modules/higher-level/tsa-hl.c: compile_tsa, compile_tsa_brick"]}
{"id": "C132", "title": "Harmonic interpolation follows a harmonic curve fitted to the observations of the fit period", "statement": "With INTERPOLATE = HARMONIC, the values of the series are whole parts of one curve with an offset, the requested trend and modes of 365, 182.5 and 121.7 days; the curve depends only on the clear observations in HARMONIC_FIT_RANGE; without trend the series repeats after 365 days; the near real time product holds observed minus predicted value, and pixels that are masked or have too few observations are nodata in both products.", "quantifier": "all series, periods of the fit and numbers of modes, any regression", "why_tests_cant": "any observations, and a regression as a black box", "anchors": ["src/modules/higher-level/interpolate-hl.c: interpolate_harmonic"]}
{"id": "C133", "title": "The bands of the folded series are labelled with the periods they summarise", "statement": "The bands of the quarterly, monthly, weekly and daily folds are labelled with exactly the quarters, months, weeks and days of the season given by DOY_RANGE in ascending order, and the bands of annual folds and polarmetrics with the years from the first year of DATE_RANGE on.", "quantifier": "all seasons, years and products", "why_tests_cant": "seasons across the turn of the year and all pairs of days of the year", "anchors": ["src/modules/higher-level/tsa-hl.c: compile_tsa"]}
{"id": "C134", "title": "Spectral adjustment replaces each band with a weighted mean of regression predictions and touches nothing else", "statement": "With SPECTRAL_ADJUST, each of the ten bands of a valid pixel of Landsat or MODIS becomes the whole part of a weighted mean of linear predictions from its six bands, with the same clusters and weights for all bands, so that it lies between the smallest and the largest of these predictions; the angles the weights depend on are always defined; invalid pixels, other bands and images of Sentinel-2 are not changed.", "quantifier": "all spectra, cluster centres, coefficients, masks and images", "why_tests_cant": "the arc cosine is undefined as soon as rounding makes a quotient exceed 1, which depends on the exact 16 bit values of six bands", "anchors": ["src/modules/higher-level/spec-adjust-hl.c: spectral_predict, spectral_adjust"]}
{"id": "C135", "title": "Spectral adjustment uses the most similar clusters", "statement": "The clusters used for a pixel are the at most ten nearest ones among those closer than 4 degrees, or closer than 12 degrees and closer than the global cluster, followed by the global cluster if there are fewer than ten.", "quantifier": "all spectra and cluster centres", "why_tests_cant": "depends on the order of 51 angles; every cluster and the global one can be the nearest", "anchors": ["src/modules/higher-level/spec-adjust-hl.c: spectral_predict"]}
{"id": "C136", "title": "Slope, aspect and illumination are those of the terrain", "statement": "On an inclined plane the stored slope is the inclination, the stored aspect the compass direction in which the plane falls, and the stored illumination the cosine of the angle between sun and surface normal (within 4/10000); pixels steeper than 2 degrees are flagged; for any elevations all stored values are defined and in range and the illumination classes follow the stored value.", "quantifier": "all elevations, resolutions, sun angles and inclinations", "why_tests_cant": "four quadrants of arc tangents and three branches for the compass direction; any gradient", "anchors": ["src/modules/lower-level/topo-ll.c: exposition_topography, illumination_topography"]}
{"id": "C137", "title": "Missing elevations: sea is filled, everything else is masked, borders take over from inside", "statement": "Missing elevations connected to the sea become 0, others stay missing and known elevations are kept; smoothing keeps missing pixels missing and stays between the elevations of the window; after slope and aspect, a pixel is masked exactly if elevations around it are missing, and border pixels have slope, aspect and slope flag of their inner neighbour.", "quantifier": "all images of any size with any pattern of missing elevations", "why_tests_cant": "the shapes of the sea and the patterns of missing pixels at borders and corners are unbounded", "anchors": ["src/modules/lower-level/topo-ll.c: ocean_topography, smooth_topography, exposition_topography"]}
{"id": "C138", "title": "Elevation classes are valid rows of the correction tables", "statement": "The class of every pixel is between 0 and 254 in spite of rounding, grows with elevation, and pixels of one class differ by at most a 255th of the range plus 5 cm; images with elevations below -500 m or above 9000 m are refused.", "quantifier": "all sets of elevations in single precision", "why_tests_cant": "a class of 255 by rounding at the highest pixel depends on the exact values of lowest and highest elevation", "anchors": ["src/modules/lower-level/topo-ll.c: stats_topography"]}
{"id": "C139", "title": "The topographic correction factor stays in range and is never below the theoretical factor", "statement": "The pixels sampled for the estimate are distinct, symmetric, within 3 km and fit into the memory for every resolution; the factor is at least the theoretical one and at most 6.5535, is the theoretical one without an estimate, and the stored factor lies between the smallest and the largest of the illuminated pixels around.", "quantifier": "all resolutions, regression results and images", "why_tests_cant": "any resolution and any regression result", "anchors": ["src/modules/lower-level/topo-ll.c: cfactor_topography"]}
{"id": "C140", "title": "Principal components are a centred, isometric image of the bands that keeps the requested variance", "statement": "Pixels missing in every band are missing in every component; every complete pixel is projected; with all components kept, distances between pixels are those between their centred spectra; components have mean zero; the number of components is the smallest that reaches the requested share of the variance.", "quantifier": "all images, masks and orthonormal eigenvectors with non-negative eigenvalues in falling order", "why_tests_cant": "any image, any covariance; wrong axes are invisible in small or symmetric examples", "anchors": ["src/modules/cross-level/pca-cl.c: pca"]}
{"id": "C141", "title": "The BRDF correction normalises to nadir view and the standard sun", "statement": "The modelled reflectance is the same if sun and sensor are exchanged, if the azimuth is mirrored or turned by a full turn, and positive for sun and sensor not too low; the factor of a band with parameters turns the modelled reflectance into that of nadir view at the standard sun zenith, is positive, and 1 if the image already has that geometry; bands without parameters are left alone.", "quantifier": "all sun and view angles and all lists of bands", "why_tests_cant": "continuous angles; physical symmetries are statements about all geometries", "anchors": ["src/modules/lower-level/brdf-ll.c: brdf_factor, brdf_forward, LiKernel, GetPhaang, GetpAngles, GetDistance, GetOverlap", "src/modules/cross-level/brick_base-cl.c: find_domain"]}
{"id": "C142", "title": "Floating point comparison, digit count and readable sizes", "statement": "The comparison of floating point numbers is reflexive and symmetric, tells zero from everything else, tells all integers of less than 23 bits apart (52 for double), and otherwise only accepts numbers whose relative difference is below 2^-22 (2^-51); the number of digits is right for every int; sizes are printed with the largest unit that leaves a number of at least 1 and below 1024.", "quantifier": "all floats and doubles, all ints, all sizes", "why_tests_cant": "rounding at the ends of the range; INT_MIN; all pairs of numbers", "anchors": ["src/modules/cross-level/utils-cl.c: fequal, dequal, num_decimal_places, print_humanreadable_bytes"]}
{"id": "C143", "title": "Cloud shadows lie where sun and sensor put them", "statement": "The shadow of a thing in height h that the sensor sees in a pixel is looked for within half a pixel of the place where the sun casts it; with the sun behind the sensor, or on the ground, it is the pixel itself. A pixel is marked as shadow only as the shadow of a pixel of a cloud at the best-matching height tried; the search ends, its similarity is a fraction, and every cloud of sufficient size gets a shadow.", "quantifier": "all clouds, heights, sun and view angles, images and resolutions", "why_tests_cant": "continuous geometry and data dependent search; all images", "anchors": ["src/modules/lower-level/cloud-ll.c: shadow_position, shadow_matching"]}
{"id": "C144", "title": "View angles point to the nadir line of the image", "statement": "The corners are the outermost pixels with data; the tangent of the view zenith times the height of the satellite is the distance of the pixel from the line through the middles of the upper and lower edge; the azimuth is the compass direction from the pixel to that line; cells of a Sentinel-2 image without angles are masked, and only they.", "quantifier": "all images, pixels, heights and resolutions", "why_tests_cant": "continuous angles; every shape of the data; rounding at cell borders", "anchors": ["src/modules/lower-level/sunview-ll.c: viewgeo, view_angle"]}
{"id": "C145", "title": "The time of the sun position is the time of the overpass", "statement": "The time in GMT is the local time minus an hour per 15 degrees of longitude to the second, on the right day; the local time of the overpass exists up to the highest latitude the satellites reach, is within six hours of that at the equator and mirrored between hemispheres; the Julian date grows by one from each day of the Gregorian calendar to the next, and the time used for the sun tells hours apart.", "quantifier": "all dates, local times, longitudes and latitudes", "why_tests_cant": "all dates incl. leap days and ends of years; float resolution", "anchors": ["src/modules/lower-level/sunview-ll.c: localtime2gmt, standard_sunzenith", "src/modules/cross-level/sun-cl.c: sunJC"]}
{"id": "C146", "title": "Sharpening with ImproPhe averages similar neighbours", "statement": "Each sharpened value is the mean of the 20 m band over the clear pixels within two pixels that are similar in the 10 m bands (narrowest limit with three pixels), with weights of at most 1 that fall with dissimilarity; it lies within the range of the values around, a pixel without similar neighbours keeps its value, and clouds, shadows and nodata are left alone.", "quantifier": "all images, masks and pixels", "why_tests_cant": "all neighbourhoods; floating point truncation hits only some values", "anchors": ["src/modules/lower-level/resmerge-ll.c: resolution_merge_2, improphe_resmerge, rescale_weight_resmerge"]}
{"id": "C147", "title": "Sharpening with STARFM predicts every pixel from similar pixels", "statement": "Each pixel with data is predicted as a mean with positive weights of fine value plus coarse difference over similar pixels nearby, among which is the pixel itself; the coarse versions of the fine bands are averages over blocks of 2 x 2 pixels.", "quantifier": "all images, masks and pixels", "why_tests_cant": "candidate sets depend on the data; the effect of nodata elsewhere in the image", "anchors": ["src/modules/lower-level/resmerge-ll.c: resolution_merge_3, starfm"]}
{"id": "C148", "title": "Sharpening with regression does not depend on the order of processing", "statement": "Only clear pixels change, each gets the value of the least squares fit in its window, and the result does not depend on the order in which threads process rows.", "quantifier": "all images and all orders of processing", "why_tests_cant": "races between threads do not show in a test", "anchors": ["src/modules/lower-level/resmerge-ll.c: resolution_merge_1"]}
{"id": "C149", "title": "All images of a chunk are read with their quality, or an error is reported", "statement": "If all requested files of all listed dates can be read, every date is returned in order with its bands, its quality and its auxiliary products; without a quality product the quality flags exactly the pixels that lack a band. If any file cannot be read, reading fails as a whole. Neither depends on the number of threads or on how dates are shared among them.", "quantifier": "all lists of dates, files, products and assignments to threads", "why_tests_cant": "assignments of dates to threads and failing files cannot be enumerated", "anchors": ["src/modules/higher-level/read-ard-hl.c: read_ard", "src/modules/higher-level/param-hl.c: parse_param_higher"]}
{"id": "C150", "title": "The processing mask and the features select the pixels", "statement": "Exactly the pixels with mask value 1 are processed, a chunk without such a pixel or a tile without mask is skipped, an unreadable mask gives no product; a feature is missing exactly where it has its nodata value, and a tile that lacks a feature is skipped.", "quantifier": "all masks, features and nodata values", "why_tests_cant": "all pixel values and combinations of missing files", "anchors": ["src/modules/higher-level/read-ard-hl.c: read_mask, read_features", "src/modules/higher-level/tasks-hl.c: compute_higher_level"]}
{"id": "C151", "title": "Every higher level module can be configured", "statement": "For each module there are parameter files whose sensors are accepted, namely those whose sensors have common bands that suit the target sensor.", "quantifier": "all modules, parameter values and sensor definitions", "why_tests_cant": "a statement about all parameter files", "anchors": ["src/modules/higher-level/param-hl.c: parse_param_higher, register_l2i, register_ard1", "src/modules/higher-level/sensor-hl.c: retrieve_sensor, check_target_sensor"]}
{"id": "C152", "title": "The water vapour of a coordinate is the mean of its clear pixels", "statement": "For every granule image, the value of a coordinate is the mean of the clear pixels that lie in its box of 1.5 degrees, provided they make up a tenth of the pixels in the box, and 9999 otherwise; the count is the number of pixels in the box. Every pixel is judged by the location of its own block.", "quantifier": "all granules, sizes, offsets, values and boxes", "why_tests_cant": "granules have millions of pixels and arbitrary sizes; reads behind an array show no effect in a test", "anchors": ["src/modules/lower-level/modwvp-ll.c: compile_modis_wvp, int2bit"]}
{"id": "C153", "title": "The table of a day holds the better sensor for each coordinate", "statement": "For each coordinate in its order, the table holds the value of the sensor with more pixels (Terra if equal), of the only one with a value, or 9999; Aqua counts only from its commissioning. The table is written exactly if some coordinate has a value.", "quantifier": "all dates and all averages and counts of both sensors", "why_tests_cant": "combinations of dates, values and counts are unbounded", "anchors": ["src/modules/lower-level/modwvp-ll.c: choose_modis_wvp, create_wvp_lut"]}
{"id": "C154", "title": "Daily tables are made for each day of a period, monthly tables hold the statistics of their days", "statement": "For an accepted period every day from the first to the last is processed once, in order, and the program ends; the monthly tables hold mean, standard deviation and number of the valid values of the days of that month; tables of other coordinates are refused.", "quantifier": "all periods, coordinates and tables", "why_tests_cant": "periods and the calendar are unbounded, and a missing end shows only as a program that does not stop", "anchors": ["src/main/lower-level/force-lut-modis.c: main, parse_args", "src/modules/cross-level/datesys-cl.c: date_plus, date_order", "src/modules/lower-level/modwvp-ll.c: read_wvp_lut"]}
{"id": "C155", "title": "A Landsat scene uses the nearest water vapour of its day", "statement": "The water vapour of a scene is the constant of the parameter file, or that of the nearest coordinate within 1.5 degrees in the table of the day; without one, that of the month, or, if strict water vapour is asked for, the scene fails; it also fails if neither table has a value.", "quantifier": "all tables, scene centres and parameters", "why_tests_cant": "all tables and positions; distances are compared after rounding", "anchors": ["src/modules/lower-level/gas-ll.c: water_vapor_from_lut"]}
{"id": "C156", "title": "Outlines of granules keep their corners across the date line", "statement": "Corners are moved by whole turns to lie within half a turn of the first corner, the ring is then possibly started at the opposite corner and never reversed; granules by night, around the globe or near a pole are left out.", "quantifier": "all outlines and bounding boxes", "why_tests_cant": "real valued corners", "anchors": ["src/modules/lower-level/modwvp-ll.c: read_modis_geometa"]}
{"id": "C157", "title": "Clouds of Landsat scenes are the bright candidates that are cold enough", "statement": "A pixel is a cloud exactly if it is bright and is saturated, 35 K colder than the cold clear land, or a candidate whose probability exceeds that of the clear pixels by the tolerance. Probabilities follow the stated formulas, quantiles are those of the clear land (of all clear pixels if it is rare), nothing is divided by zero. A larger tolerance never adds clouds; on land a colder candidate is a cloud wherever a warmer one is; land 4 K warmer than the warm clear land is no cloud. This holds for every number of threads.", "quantifier": "all images, masks, temperatures, reflectances, tolerances and numbers of threads", "why_tests_cant": "the thresholds depend on the whole image and pass through single precision; the number of threads is decided by the system", "anchors": ["src/modules/lower-level/cloud-ll.c: land_probability, water_probability, cloud_probability", "src/modules/cross-level/stats-cl.c: quantile"]}
{"id": "C158", "title": "The Sentinel-2 mask follows the displacement index", "statement": "Each cell with a ratio gets the normalised difference of the variances of the two ratios over the cells within three rows and columns, between -1 and 1, or no index if there are fewer than three; the clouds are the bright pixels that are saturated or lie in cells that are clearly displaced, or displaced and likely by colour, without a doubtful neighbour, and the cells linked to them with an index below -0.25. Nothing outside of the image is read, and every cell with enough neighbours has an index.", "quantifier": "all images of ratios and probabilities, all sizes", "why_tests_cant": "windows at every border of images of any size, and real valued statistics", "anchors": ["src/modules/lower-level/cloud-ll.c: cloud_parallax"]}
{"id": "C159", "title": "Water vapour of Sentinel-2 is complete and consistent", "statement": "Every block of six by six pixels with bright land pixels and a view angle gets one estimate, from the mean reflectance and the nearest elevation class of exactly those pixels; valid pixels get the estimate of their block, or the mean of all estimates with a flag if there is none, and invalid pixels none. If the minimum does not depend on its start, the map does not depend on the distribution to threads. Every entry of the transmittance table that is read was computed, for water vapour and angle at most 0.01 below. The transmittance of a pixel is that of its water vapour.", "quantifier": "all images of whole blocks (as Sentinel-2 tiles are), all reflectances, flags and elevations, all minimisers, all distributions of the blocks to threads", "why_tests_cant": "rounding at the borders of the table and any distribution of work to threads", "anchors": ["src/modules/lower-level/gas-ll.c: wvp_transmitt_lut, fun_wvp, water_vapor, gas_transmittance"]}
{"id": "C160", "title": "Bulk processing treats every queued image once and records it", "statement": "Cleaning brings every line of the queue to the form 'path status'; the jobs are exactly the images that are QUEUED. After any mixture of finished images, newly queued images and cleanings, the status of an image in the queue is DONE or FAIL by the result of its processing if it was processed, and unchanged otherwise; no line is lost or reordered. A run that is started again after any interruption processes exactly those that have not been recorded.", "quantifier": "all queues, all paths, all results of image processor and unpacking, all orders of finishing, enqueueing and cleaning", "why_tests_cant": "any order of events among parallel jobs and writers, and any path used as a regular expression", "anchors": ["bash/force-level2.sh: process_this_image, queue cleaning, IMAGES", "misc/force-bash-library.sh: file_not_found, dir_not_found", "bash/force-level1-csd.sh: QUEUE"]}
{"id": "C161", "title": "Images that are processed at the same time do not share files", "statement": "Different images of a queue have different log files, and different directories into which they are unpacked.", "quantifier": "all pairs of images, all log and temporary directories", "why_tests_cant": "depends on which pairs of names meet in one run", "anchors": ["bash/force-level2.sh: process_this_image (LOGFILE, DIR_EXTRACT)"]}
{"id": "C162", "title": "Exactly the newest version of each matching scene is downloaded", "statement": "For every scene of the catalogue that satisfies the query exactly one scene of the same tile (Landsat: path and row) and sensing time is chosen, in a version that is at least as new; nothing that does not satisfy the query is chosen; scenes are in order of their dates.", "quantifier": "all catalogues, all queries", "why_tests_cant": "all catalogues and all mixtures of reprocessed versions", "anchors": ["bash/force-level1-csd.sh: LINKS"]}
{"id": "C163", "title": "Every downloaded scene is queued once, across interruptions", "statement": "After any number of interrupted downloads and a complete one, every chosen scene that was not in the pool before has been put into the queue exactly once and in order; a scene is only queued when all its files are there.", "quantifier": "all lists of scenes, all pools, all points of interruption, any number of interruptions", "why_tests_cant": "interruptions at any step and in any number", "anchors": ["bash/force-level1-csd.sh: download loop, QUEUE"]}
{"id": "C164", "title": "Samples are split into training and validation without loss", "statement": "Every sample is used exactly once, for training or for validation, both in the order of the files; the number of training samples is the requested percentage, rounded down; without random split they are the first ones. The drawing ends when every sample is drawn often enough. No element outside of the arrays is read or written.", "quantifier": "all lists of samples, all percentages, all sequences of random numbers", "why_tests_cant": "all random sequences, and rounding of percentages in single precision", "anchors": ["src/main/aux-level/force-train.cpp: main"]}
{"id": "C165", "title": "Class weights follow the number of samples", "statement": "PROPORTIONAL and ANTIPROPORTIONAL give one positive weight to each class that is trained, in ascending order of the classes; weights sum up to one and are the shares of the classes, or inversely proportional to their numbers of samples. A list of weights is taken if and only if it has one for each class. Regressions and EQUALIZED have no weights.", "quantifier": "all responses, all settings of FEATURE_WEIGHTS", "why_tests_cant": "all distributions of classes", "anchors": ["src/modules/aux-level/train-aux.cpp: class_priors", "src/modules/cross-level/stats-cl.c: histogram, n_uniq"]}
{"id": "C166", "title": "Every run leaves the citations it asks for", "statement": "The citations of a run are written to a file whose name depends on the set of citations: runs with different sets write different files, each with exactly the entries that were marked; existing files are kept. Marking an entry changes no other one, and numbers outside of the table nothing.", "quantifier": "all sets of citations, all directories with citations of earlier runs", "why_tests_cant": "all pairs of sets of citations", "anchors": ["src/modules/cross-level/cite-cl.c: cite_crc8, cite_me, cite_push"]}
{"id": "C167", "title": "Magic parameters generate every combination", "statement": "With 'all' there is a file for each choice of one value per replacement vector, and as many files as choices; with 'paired' the i-th file has the i-th value of each vector, and vectors of different lengths are refused. All places of a key are replaced; everything else stays.", "quantifier": "all numbers and lengths of vectors, all parameter files", "why_tests_cant": "any number of vectors of any lengths", "anchors": ["bash/force-magic-parameters.sh: KEYS, COMBS"]}
{"id": "C168", "title": "The suggested extent spans all tiles", "statement": "The suggested ranges of tiles are the smallest and the largest column and row of the tiles that intersect the area; the allow-list has all tiles and their number.", "quantifier": "all non-empty lists of tiles with numbers from -999 to 9999", "why_tests_cant": "all sets of tiles, in any order", "anchors": ["bash/force-tile-extent.sh: XMIN, XMAX, YMIN, YMAX", "misc/force-bash-library.sh: is_lt, is_gt"]}
{"id": "C169", "title": "The size of a datacube counts every file once", "statement": "The total is the sum of the sizes of all files of the tiles; sizes are shown in a unit in which they are at most 1024 (or in the largest unit) without changing their value.", "quantifier": "all listings, all sizes", "why_tests_cant": "all names of files and sizes", "anchors": ["bash/force-datacube-size.sh: pretty_size, SENSORS, ALL_SIZE"]}
