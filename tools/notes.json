{
 "C01": {
  "note": "FIFO behaviour for every operation history proved for 16-bit coordinates, and with explicit truncation for all ints; images wider than 32768 pixels and size-0 queues are refuted by witnesses."
 },
 "C02": {
  "status": "proved",
  "note": "All days of the 365-day calendar, both directions, against month lengths."
 },
 "C03": {
  "status": "proved",
  "note": "Round trip, surjectivity and order for all existing days of the 365-day calendar (the documented domain); the collision of 29 February with 1 March is shown separately."
 },
 "C04": {
  "status": "proved",
  "note": "Every sequence of setter calls with legal arguments after one full set_date."
 },
 "C05": {
  "note": "Round trip, ranges and totality proved; acceptance of non-existing days / non-numbers and the missing dummy date refuted by witnesses."
 },
 "C06": {
  "note": "Holds below one year; from one year on the unit thresholds are wrong (witnesses)."
 },
 "C07": {
  "note": "Set/get independence for all words and flags; over-wide values corrupt neighbouring flags (witness), see refuted theorem."
 },
 "C08": {
  "note": "Per-flag merge law and semilattice laws as far as they hold; counterexamples as refuted theorems."
 },
 "C09": {
  "note": "Screening decision against an independent table of states, monotone in the selection."
 },
 "C10": {
  "note": "Buffer-level: result is the full string with NUL or the program exits, no out-of-bounds write."
 },
 "C11": {
  "note": "First occurrence replaced exactly; strings without occurrence may terminate the program (size_t wrap), refuted by witness."
 },
 "C12": {
  "note": "All histories on allocated vectors; zeroed vectors need a non-empty first string (witness of exit otherwise)."
 },
 "C13": {
  "note": "1D, 2D and 3D resizing for all shapes; the contiguous 2D variant scrambles rows when the row length changes (witness)."
 },
 "C14": {
  "note": "Selection proved for every range and list; reading the list file back is proved for tile numbers of at most four digits with complete lines, witnesses of wrong results otherwise."
 },
 "C15": {
  "note": "Coordinates in exact integers. Containment and uniqueness for interior points proved; the half-open boundary rule holds only left of/above the origin, refuted elsewhere."
 },
 "C16": {
  "note": "Exact integers. Result is on the grid, covers the image and moves at most one pixel; an aligned coordinate always moves by one pixel (refuted)."
 },
 "C17": {
  "note": "All unit counts, all interleavings of the three threads."
 },
 "C18": {
  "note": "Up to 2^24 units with binary32 arithmetic; beyond that the bijection fails (witness)."
 },
 "C19": {
  "note": "Streaming mode proved; without streaming the last unit overwrites the totals (witness of FAILURE for a run with data)."
 },
 "C20": {
  "status": "proved",
  "note": "All sequences of reals; recurrences against the textbook definitions."
 },
 "C21": {
  "status": "partial",
  "note": "Optimality over all lines, zero residual sum, R-squared; the trend product of a pixel. Constant series give 0/0 (refuted)."
 },
 "C22": {
  "status": "partial",
  "note": "All arrays whose pairwise differences fit int; overflowing comparison and the empty array refuted."
 },
 "C31": {
  "status": "partial",
  "note": "Largest drop, first attained, total and after parts for all series with 16-bit drops; the before part lacks its last value, over-wide drops and the penalty order are refuted."
 },
 "C23": {
  "status": "partial",
  "note": "Acceptance characterised for every file and registration without NaN values; NaN, garbage text and INT_MAX enumerations refuted."
 },
 "C24": {
  "status": "partial",
  "note": "One line, line sequences, totality and the fgets loop, for complete dates; short dates read beyond their word (refuted)."
 },
 "C25": {
  "status": "partial",
  "note": "Full for series whose neighbouring clear observations satisfy gap*value < 2^24 (single precision exactness); refuted beyond (constant series loses one count) and for values blending to nodata."
 },
 "C26": {
  "status": "partial",
  "note": "Value at each grid day proved for every series; refuted: a mean may equal the nodata value."
 },
 "C27": {
  "status": "partial",
  "note": "Exact arithmetic (no float rounding); holds for every series and kernel set whose central weight is at most half the cutoff (every sigma for cutoff >= 0.84); refuted for smaller cutoffs (division by zero weight, undefined conversion)."
 },
 "C28": {
  "status": "partial",
  "note": "Exact arithmetic; values within +-16383 and periods for which the statistic exists; refuted: standard deviation of one value and skewness of a constant period are NaN (undefined conversion)."
 },
 "C29": {
  "status": "partial",
  "note": "Exact arithmetic; distinct metrics, values within +-16383, statistic exists; refuted: range wraps beyond 32767, binary64 running mean of 0,1,6,1 truncates to 1 instead of 2."
 },
 "C45": {
  "status": "partial",
  "note": "Positions of all metrics proved for at most 100 quantiles; refuted: duplicated metrics leave the observation count in the first band, a 101st quantile is written out of bounds."
 },
 "C30": {
  "status": "partial",
  "note": "Exact arithmetic; all series; refuted for normalising constant series (NaN converted to short)."
 },
 "C32": {
  "status": "partial",
  "note": "Proved for every series: the filter ends within one round per observation, drops only observations of non-interpolated triplets, leaves at least three clear observations if it drops any, is idempotent and monotone with BELOW_NOISE = 0. Refuted as stated: BELOW_NOISE > 0 un-masks QAI-screened observations, and the outermost observation can be dropped."
 },
 "C46": {
  "status": "partial",
  "note": "Proved for whole-number slopes and distinct days. Refuted for other slopes (integer division of the slope) and for several observations on one day (residual taken from (right-left)/2)."
 },
 "C34": {
  "status": "proved",
  "note": "Exact squared distance for all images that meet the int bound; the parallel loops are run sequentially."
 },
 "C35": {
  "status": "partial",
  "note": "Proved: no out-of-bounds access; everything within r of a TRUE pixel that is at least r away from the border becomes TRUE; every TRUE pixel of the result is less than r+1 away from an input TRUE pixel; r=0 copies. Refuted: TRUE pixels nearer than r to the border are lost; the painted shape exceeds the disc (r=4, sqrt 17)."
 },
 "C33": {
  "status": "proved",
  "note": "Total: terminates without undefined behaviour for every image of at most 32768 rows and columns; on SUCCESS exact. C33_success_refuted shows a 6x6 image for which the queue is too small, FAILURE is returned and the marker is left too high (cloud-ll.c:843 ignores the return code)."
 },
 "C42": {
  "status": "partial",
  "note": "Proved for every image: no access outside of the arrays, background 0, labels within 1..n, equal labels imply 8-connected; object sizes are exact. Missing: termination of the contour following and connected implies equal labels."
 },
 "C43": {
  "status": "partial",
  "note": "Every interleaving of single reads and writes: monotone, filled pixels have five TRUE neighbours in the result, unfilled ones had fewer in the input, no out-of-bounds access. Schedule independence is refuted."
 },
 "C36": {
  "status": "proved",
  "note": "For sensor sets with distinct band names and at least one needed band; C36_removal holds for every flag vector without that restriction. C36_nothing records that the program ends when no band is needed (reallocation to zero bytes)."
 },
 "C40": {
  "status": "partial",
  "note": "False in full: the empty path and paths of slashes only read in front of the string (C40_root_refuted); with a trailing slash directory and basename do not belong together (C40_directory_refuted). Proved for every path that names something; recombination for paths without trailing slash."
 },
 "C41": {
  "status": "partial",
  "note": "No out-of-bounds write of the log for any content behind the separator array, complete log if the text fits. False in full: vectors with several values print an array without NUL (C41_vector_refuted), overflow by the last value is cut silently (C41_cut_refuted)."
 },
 "C39": {
  "status": "partial",
  "note": "Round trip exact for one-word projections and numbers with six decimals (atof axiomatised by a hypothesis, instance given). Refuted: a projection with a blank is cut at it (so the file written from real WKT reads back cut), more decimals are rounded, copying an old-format definition cuts it, a duplicate tag hides a missing one."
 },
 "C44": {
  "status": "partial",
  "note": "Regular tables read completely for every size (C44_regular), irregular rows rejected, lookup by name, mean/sd/sum exact (real arithmetic). Refuted: a header with another number of names is accepted with names dropped or left empty; minimum (maximum) of columns entirely above 32767 (below -32768) is the constant."
 },
 "C37": {
  "status": "partial",
  "note": "Windows, NUM, the gaps and MIN/MAX/RNG/AVG are right; the remaining metrics are right when every window has a clear observation on its first day and none on the same day. Refuted: the last month is dropped whenever MONTH_STEP divides the month difference; STD/SKW/KRT/quantiles use the number of observations instead of the number of gaps."
 },
 "C38": {
  "status": "partial",
  "note": "As written the property is false: get_brick_y adds the row offset, so the bounding box of every chunk is empty and no sample is ever extracted, with projected (C38_projected_refuted) or geographic coordinates (C38_geographic_refuted); positions exactly on tile borders right of / below the origin belong to no chunk (C38_border_refuted). What holds for arbitrary bounding boxes and warpers: located pixels contain the position, uniquely and, off the borders, completely (C38_pixel_partial); each row is recorded at most once, with the values of its pixel, and deactivated, and rows that stay active were reachable from no unit (C38_run_partial). Missing: exactly-once extraction, which is false."
 },
 "C47": {
  "status": "partial",
  "note": "Exact for the chunk and all its margin for every cube, except the margin to the left unless the tile has one column of chunks or the chunk is in the second one. C47_left says what the left margin shows in general (always the first column of chunks), C47_left_margin_refuted: with two columns of chunks the left margin of the first chunk comes from the middle of the tile to the left. Cause: read-ard-hl.c line 1000 does not add the position of the chunk."
 },
 "C48": {
  "status": "partial",
  "note": "Exact for short values and undoes the margin of C47. C48_types_refuted: for every other pixel type every crop writes out of bounds (C48_other_types; brick_base-cl.c:467-507 swap the indices). The output bricks of the repository are short."
 },
 "C49": {
  "status": "partial",
  "note": "Days exact for every season whose first and last day differ; periods and fold dates exact for every season. C49_one_day_refuted: a season of one day uses the whole year (C49_one_day, param-hl.c:1056 tests < and not <=)."
 },
 "C50": {
  "status": "partial",
  "note": "C50_selection and C50_chronological are exact for every directory in which the images of the product and sensors start with a date, where product and sensor match anywhere in the name. C50_regular_names_partial: for regular names that is equality of product and sensor. C50_product_refuted: a longer product name is taken as well. C50_other_names_exit: one file with the product and sensor in its name but without a date ends the program."
 },
 "C51": {
  "status": "proved",
  "note": "Sensor definitions are a map from names to band names (JSON parsing not modelled)."
 },
 "C52": {
  "status": "partial",
  "note": "False: retrieve_sensor allocates its tables before it appends SEN2A to the sensors, so every run with spectral adjustment writes behind both tables (C52_adjusted_refuted). The union itself is right (C52_union_partial)."
 },
 "C53": {
  "note": "Floats are real numbers, the fit of the sigmoids (GSL) is a parameter. The scores are specified in BapSpec.v by closed formulas."
 },
 "C54": {
  "note": "As C53; for declines and rises only range and zero outside the season are stated since the sigmoids are fitted by GSL."
 },
 "C55": {
  "status": "partial",
  "note": "False for accepted files: DOY_SCORE with the smallest score in the middle gives NaN scores and index -1 (C55_valley_refuted), Y_FACTOR = 0 converts infinity to int (C55_zero_factor_refuted), SELECT = FALSE with OUTPUT_BAP = FALSE writes through NULL (C55_average_without_output_refuted). Holds for the parameters described by sane in BapSpec.v."
 },
 "C56": {
  "note": "As C53."
 },
 "C57": {
  "note": "As C53; for first target years before 1901 targets before 1900 would keep stale scores."
 },
 "C58": {
  "note": "Floats are real numbers."
 },
 "C59": {
  "status": "partial",
  "note": "False for the DOY score: with SCORE_DOY_WEIGHT = 0 and OFF_SEASON = FALSE no observation is ever used (C59_zero_doy_weight_refuted)."
 },
 "C60": {
  "status": "proved",
  "note": "Floating-point operations are modelled as correctly rounded real operations. Wavelength constants and tasseled cap coefficients are float constants."
 },
 "C61": {
  "status": "partial",
  "note": "False for NDVIre1n: the program compares with NDVIren, the shipped list has NDVIre1n (C61_ndvire1n_refuted); kNDVI stores nodata when one reflectance is zero though the formula is defined (C61_kndvi_of_zero_refuted). Holds for all other names."
 },
 "C62": {
  "status": "partial",
  "note": "False: EVI, ARVI, SARVI with a tiny denominator, TC-DI of bright pixels with dark near infrared, and MSRre with negative reflectances convert out of range numbers (C62_*_refuted). All other indices are proved defined."
 },
 "C63": {
  "status": "proved",
  "note": "For the function computing one value; the series is covered by C60."
 },
 "C64": {
  "status": "partial",
  "note": "False for TC-WET: a valid observation is stored as -9999 (C64_wetness_refuted). Holds for normalized differences of reflectances between 0 and 1 and for kNDVI."
 },
 "C65": {
  "status": "proved",
  "note": "Illumination is excluded from the worst-of-all statement because the code takes the minimum there (C08_merge_illumination_refuted); the order statement covers all flags."
 },
 "C66": {
  "status": "proved",
  "note": "Consequence of C14 for well-formed list files; tile numbers that need more than four characters are misread (C14_wide_tile_number_refuted)."
 },
 "C67": {
  "status": "proved",
  "note": "Joins C17 and C18; more than 2^24 units are excluded because of C18_many_units_refuted."
 },
 "C68": {
  "status": "proved",
  "note": "The calendar has 365-day years, 29 February is not a day of it (C03_leap_day_refuted)."
 },
 "C69": {
  "status": "proved",
  "note": "Joins C23 and C24 for the text of a file; the numeric conversions atof are parameters. NaN and incomplete dates are excluded (C23_nan_refuted, C24_short_date_refuted)."
 },
 "C70": {
  "status": "proved",
  "note": "Consequence of C22, whose overflow cannot occur for 16-bit values."
 },
 "C71": {
  "status": "proved",
  "note": "C32 without its refuted part: restoring needs BELOW_NOISE > 0. The result is shown to be independent of the fuel of the model."
 },
 "C72": {
  "status": "proved",
  "note": "C25 for realistic series; the bound on the gap excludes C25_long_gap_refuted."
 },
 "C73": {
  "status": "proved",
  "note": "Against definitions over the set of foreground pixels; float arithmetic as reals."
 },
 "C74": {
  "status": "partial",
  "note": "Ranges proved. Refuted: effective mesh size squares the total area; maximum starts at 0, so negative values give 0."
 },
 "C75": {
  "status": "partial",
  "note": "Proved for MPA, EDD, EMS, AVG, MAX, ARE. Refuted for STD, GEO, FDI in degenerate windows, and for tiles without any patch; binary32 single-pixel test depends on the radius."
 },
 "C76": {
  "status": "proved",
  "note": "Over the reals; path reflectance only for single scattering."
 },
 "C77": {
  "status": "partial",
  "note": "Over the reals. Inversion, uniqueness, flags and clamping hold; refuted: the two branches apply the gas transmittance differently (to the path reflectance in one, not in the other), so a uniform scene gives two different reflectances; refuted: reflectance between -1 and -0.9999 is stored as -9999 without switching the pixel off."
 },
 "C78": {
  "status": "partial",
  "note": "Holds away from the left and right border, and everywhere if all cells around are valid; refuted at the left and right border, where a cell without data keeps half of the weight."
 },
 "C79": {
  "status": "partial",
  "note": "The value is off by at most 1; refuted: 1 becomes 0 (half of all values lose 1)."
 },
 "C80": {
  "status": "partial",
  "note": "Holds for clear pixels (and nodata gives 0); refuted for clouds in columns without clear pixels, which are mixed with 0. Over the reals; the reflectance without adjacency correction is the input."
 },
 "C81": {
  "status": "partial",
  "note": "Flat terrain, sign, monotony and shadow hold; refuted: the ratio of the band itself is read instead of that of SWIR2, so the C factor is not carried."
 },
 "C82": {
  "status": "partial",
  "note": "Every event is an observation of the series; refuted: the date is one day early for the day numbers listed in PolSpec.lost_days, because the day is cut, not rounded, after a trip through radians."
 },
 "C83": {
  "status": "partial",
  "note": "Holds when the series begins no later than one step after the start day; refuted: a later series has no first season and the metrics are undefined."
 },
 "C84": {
  "status": "proved",
  "note": "For series of up to 88 years, step widths 1 to 364 days and thresholds in order (the order is not checked when the parameter file is read)."
 },
 "C85": {
  "status": "proved",
  "note": "The amplitude for series without nodata inside."
 },
 "C86": {
  "status": "partial",
  "note": "The sum holds for step widths up to 255 days; refuted: the integral of the rising rates overflows the stored 16 bits for a series that swings between extremes."
 },
 "C87": {
  "status": "partial",
  "note": "Refuted: polar coordinates requested alone are cancelled; refuted: their series is 0, not nodata, for pixels without data."
 },
 "C88": {
  "status": "partial",
  "note": "Lengths and vector dates hold; the shift is bounded for adaptive seasons; refuted: for fixed seasons the shift is minus the start date instead of 0."
 },
 "C89": {
  "status": "partial",
  "note": "Refuted: a pixel that is never positive has no season with a peak and its metrics are undefined. A pixel that gets metrics has a positive or missing observation."
 },
 "C90": {
  "status": "proved",
  "note": "All scenes, radii and positions in real arithmetic; the weights are given by the specification; also what happens without candidates or coarse data."
 },
 "C91": {
  "status": "partial",
  "note": "Seasons without a year, and ascending breakpoints with a year; the last day of the year with the default breakpoints, and windows that cross the turn of the year for a given year, are refuted."
 },
 "C92": {
  "status": "partial",
  "note": "Level 2 ImproPhe for pixels with all bands; refuted: without fine data the mask is ignored, a pixel lacking a band becomes 0, continuous fields are 0 instead of nodata off the mask and after a year without data."
 },
 "C93": {
  "status": "partial",
  "note": "Texture in full; standardization for images with at least two different values, constant images become not a number (refuted)."
 },
 "C94": {
  "status": "partial",
  "note": "Smallest distances, exact match; the monotony only without rescaling (refuted with it); a constant feature with rescaling voids the library (refuted)."
 },
 "C95": {
  "status": "partial",
  "note": "Laws for all images; blocks overlap by half of what opening and closing need (refuted), missing values take part (refuted), the mask is unused without exclusion (refuted)."
 },
 "C96": {
  "status": "proved",
  "note": "All images of 16-bit integers; the counters do not wrap in the model."
 },
 "C97": {
  "status": "partial",
  "note": "Proved: every point is the centre of a pixel of its class, no pixel twice, never more than requested, exact size and smallest numbers when the preselected pixels fit the memory (with a corollary free of the preselection). Refuted: a draw of zero samples classes that were not requested; the size is not guaranteed although there are enough pixels; when more pixels are preselected than fit, another class can lose its points; the output format option is always refused."
 },
 "C98": {
  "status": "partial",
  "note": "Grid proved for the projected box, finder for points inside of tiles. Refuted: the geographic box need not be covered; on tile borders right of or below the origin the pixel lies outside of the tile."
 },
 "C99": {
  "status": "partial",
  "note": "Completeness, order and the tests of directory and size proved. Refuted: images at different positions are stacked."
 },
 "C100": {
  "status": "partial",
  "note": "Proved for every set of at least one model when no uncertainty is written, or of at least two; number of models is unique, and all of them with threshold 0. Refuted: with one model the uncertainty is 0/0 converted to a short."
 },
 "C101": {
  "status": "partial",
  "note": "Proved for labels within 16 bit and for forests whose models all have the number of columns of the set. Refuted: models of a set with different numbers of classes read outside of the vote table."
 },
 "C102": {
  "status": "partial",
  "note": "Probability within one unit of the rounded-down share of the pooled votes, exact unless the share is an integer; sum at most 10000; margin within one unit if the two largest differ by two units. Refuted: unanimous forest of three trees gets 9999; equal votes give a margin of 5000; bands mix classes if models have different labels. Pooled share differs from the mean of the models."
 },
 "C103": {
  "status": "proved",
  "note": "Nodata in all products, number of bands kept; otherwise 1 to all models. Invalid features are used if not excluded."
 },
 "C104": {
  "status": "partial",
  "note": "Content, place, uniqueness and choice of the written tiles proved for images on the pixel grid; refuted: extent from four corners can miss bulging edges (C104_extent_refuted), images off the grid are shifted by less than a pixel (C104_unaligned_partial, _refuted), the quicklook tiles get the pixel size of the first product (C104_pixel_size_refuted)."
 },
 "C105": {
  "status": "partial",
  "note": "Colours, bounds and monotony proved; refuted: the colours of nodata and clouds are not reserved (C105_unambiguous_refuted)."
 },
 "C106": {
  "status": "partial",
  "note": "Holds when sizes and resolution are multiples of a unit above the tolerance (metres); refuted in degrees, where the absolute tolerance of 0.005 accepts anything fine."
 },
 "C107": {
  "status": "proved",
  "note": "All flags in order and lossless for words with the sign bit unset (it is never set by the quality functions)."
 },
 "C108": {
  "status": "partial",
  "note": "Final flags proved pixel by pixel for detections at least one buffer away from the image border; refuted at the border: a shadow there is not flagged, a confident cloud there becomes cirrus."
 },
 "C109": {
  "status": "partial",
  "note": "Minimum of the two bands proved for more than one thread; refuted for NTHREAD = 1, where only the shortwave infrared counts."
 },
 "C110": {
  "status": "partial",
  "note": "Exact up to 0.8 times the threshold; refuted above: 65% clouds are skipped with a threshold of 75%."
 },
 "C111": {
  "note": "Whole pixels rounded down times the resolution, and the image without clouds."
 },
 "C112": {
  "status": "partial",
  "note": "Defined for non-negative reflectances with a visible sum above 0; water and snow tests agree with exact ratios; refuted: pixels black in the visible (NaN) and ratios above 1 from negative reflectance are undefined conversions."
 },
 "C113": {
  "note": "Region growing by queue, refinement, saturation and brightness."
 },
 "C114": {
  "status": "partial",
  "note": "Even sizes; refuted for odd numbers of rows (write behind the end)."
 },
 "C115": {
  "status": "proved",
  "note": "Whole bricks with values of the data type; names under 1024 characters, no stale locks."
 },
 "C116": {
  "status": "partial",
  "note": "Sequences follow the pixel rule, merged values lie between, repeating an image changes nothing, two images commute, quality images commute in any number; refuted: three averaged reflectance images depend on the order."
 },
 "C117": {
  "status": "partial",
  "note": "Holds if the first chunk (0,0) is written first, in any order of the others; refuted when the first chunk has no data and is skipped (content of an earlier run stays, or cells stay unwritten) or is written late (erases the others)."
 },
 "C118": {
  "status": "partial",
  "note": "Serializability, mutual exclusion, absence of deadlock without failure; refuted: a failing writer keeps its lock file and blocks all later writers."
 },
 "C119": {
  "status": "partial",
  "note": "Reported bytes are those of all requested products; refuted: a product that failed to be written is counted and the run is reported as successful."
 },
 "C120": {
  "status": "partial",
  "note": "One line per file for whole bricks and for chunked tiles that begin with chunk (0,0); refuted: a tile whose first chunk is skipped has a file without a line."
 },
 "C121": {
  "status": "partial",
  "note": "Driver, extension and all options in order if there is at least one option; refuted: driver and extension alone end the program."
 },
 "C122": {
  "status": "partial",
  "note": "Missing: zeros behind a saturated band are not seen (C122_hidden_zero_refuted); with the buffer, void pixels at the image border become valid (C122_buffered_border_refuted)."
 },
 "C123": {
  "status": "partial",
  "note": "Exact except where blue is the noisiest band (C123_blue_refuted: noise missed) or red lies between blue and green (C123_two_bands_refuted: false detection). Standard deviations in exact arithmetic."
 },
 "C124": {
  "status": "partial",
  "note": "The stored value is the number or one closer to zero (C124_unchanged_refuted: 7 is stored as 6); above 32767 undefined (C124_defined_refuted)."
 },
 "C125": {
  "status": "partial",
  "note": "Within 1.1 units in the usual range, monotone, nodata rule; reflectance above 3.2767 is undefined (C125_bright_refuted), earlier bands of a nodata pixel keep their values (C125_all_bands_refuted)."
 },
 "C126": {
  "status": "partial",
  "note": "Every pixel has its cell; a cell may be without pixels (C126_empty_cell_refuted)."
 },
 "C127": {
  "status": "partial",
  "note": "Whole numbered ratios up to 1000: nodata rule and bounds, cut towards zero. Refuted: a uniform area of 1 becomes 0, 10000 is lost when nodata is 1, chunk borders change values."
 },
 "C128": {
  "status": "proved",
  "note": "Search and kernel over the reals, entries rounded to float."
 },
 "C129": {
  "status": "partial",
  "note": "proved: the bands are the step days whose whole step lies in the period; refuted: the last, shorter step has no band"
 },
 "C130": {
  "status": "partial",
  "note": "proved for images in chronological order; refuted for other orders (labels are taken from the end of the list)"
 },
 "C131": {
  "status": "partial",
  "note": "files, sources in memory and completeness proved; refuted: an empty near real time product suppresses all products; an index given twice gives the same file twice"
 },
 "C132": {
  "status": "partial",
  "note": "proved for any regression, doubles as reals; refuted: near real time residual of pixels without fit is 0, not nodata. Missing: quality of the regression"
 },
 "C133": {
  "status": "proved",
  "note": "labels and dates of the bands for all seasons"
 },
 "C134": {
  "status": "partial",
  "note": "Angles in rounded doubles, predictions in real numbers. Full statement up to: undefined if a mean does not fit into 16 bits, or if the pixel is at 15 degrees (within 1e-10) from the global centre and no cluster is similar, where the weights may sum up to zero."
 },
 "C135": {
  "status": "partial",
  "note": "Holds if the nearest centre is neither the tenth nor the global one, or if nothing is similar. Refuted otherwise with the centres of the code."
 },
 "C136": {
  "status": "proved",
  "note": "real arithmetic for angles and gradients"
 },
 "C137": {
  "status": "partial",
  "note": "sea and borders proved for column-then-row runs; sea connected otherwise stays nodata (refuted); slope flag at borders refuted"
 },
 "C138": {
  "status": "proved",
  "note": "with single and double precision rounding"
 },
 "C139": {
  "status": "proved",
  "note": "regression is a parameter; real arithmetic"
 },
 "C140": {
  "status": "partial",
  "note": "Refuted: pixels missing in some bands shift the mean (C140_centred_refuted); the data are projected on rows of the eigenvector matrix, so the kept components need not hold the requested variance (C140_variance_refuted). The eigen decomposition (GSL) is an input."
 },
 "C141": {
  "status": "proved",
  "note": "Real arithmetic; the standard sun zenith is an input."
 },
 "C142": {
  "status": "proved",
  "note": "Rounded arithmetic on finite numbers. Beyond 2^23 neighbouring integers count as equal (C142_large_refuted)."
 },
 "C143": {
  "status": "partial",
  "note": "Positions in real numbers. Refuted: the search ends (C143_night_refuted: endless with the sun below the horizon; C143_sun_up and C143_ends: it ends otherwise), the similarity is a fraction (C143_fraction_refuted), every cloud gets a shadow (C143_sampling_refuted)."
 },
 "C144": {
  "status": "partial",
  "note": "Angles in real numbers; geographic coordinates of the midpoints taken to scale. Masked cells proved for 10 m pixels; refuted: no pixel of another cell is masked (C144_masked_only_refuted)."
 },
 "C145": {
  "status": "partial",
  "note": "Times in real numbers, Julian date in floats. Refuted: the day on 1 January east of 150 degrees (C145_new_year_refuted), telling hours apart (C145_time_refuted: quarter of a day)."
 },
 "C146": {
  "status": "partial",
  "note": "Real numbers. Refuted in double arithmetic: a pixel without similar neighbours keeps its value (C146_kept_refuted: 3 becomes 2)."
 },
 "C147": {
  "status": "partial",
  "note": "Real numbers; the width of the similarity classes is an input. Blocks proved for images without nodata; refuted with nodata elsewhere (C147_blocks_refuted: the number of the block is taken for the pixel)."
 },
 "C148": {
  "status": "partial",
  "note": "The fit is any solution of least squares; shown for uniform fine bands. Refuted: independence of the order of the rows (C148_order_refuted)."
 },
 "C149": {
  "status": "partial",
  "note": "All assignments of dates to threads; clear sky observations without quality product follow a null pointer (C149_no_quality_refuted)."
 },
 "C150": {
  "status": "partial",
  "note": "Holds for masks of 8 bits; a 16 bit mask value of 257 counts as 1 (C150_wide_mask_refuted)."
 },
 "C151": {
  "status": "partial",
  "note": "Modules with one set of sensors: accepted exactly when the sensors suit the target. Level 2 ImproPhe never is, because no parameter sets the target of its second sensors (C151_second_input_refuted)."
 },
 "C152": {
  "status": "partial",
  "note": "Proved for granules whose pixels all have a block of locations; refuted for the sizes of MODIS granules, and across the date line."
 },
 "C153": {
  "status": "proved",
  "note": "Choice per coordinate, commissioning of Aqua, when a table is written."
 },
 "C154": {
  "status": "partial",
  "note": "Proved for existing days in order; refuted: two kinds of accepted periods that never end. Climatology proved in full."
 },
 "C155": {
  "status": "partial",
  "note": "Nearest value of the day, then of the month, failure without any; refuted: strict mode, 9999 in both tables, blank lines."
 },
 "C156": {
  "status": "proved",
  "note": "Unwrapping, ring order and selection of granules."
 },
 "C157": {
  "status": "partial",
  "note": "C157_mask_partial needs one configured thread or a team of two; C157_team_refuted: with a team of one the water part is never computed. The other theorems settle decision, formulas, quantiles and monotony for every image. Quantiles of GSL are exact reals."
 },
 "C158": {
  "status": "partial",
  "note": "C158_mask: from the ratios to the mask; doubles exact, the index rounded to float, ratios are numbers. The last part of the statement is false: C158_flat_refuted, cells where neither ratio varies have the index 0/0."
 },
 "C159": {
  "status": "partial",
  "note": "Map, table and threads are proved; the transmittance of a pixel is that of its water vapour only if the first pixel of its block is valid (C159_gas_partial, C159_gas_edge), refuted otherwise (C159_gas_edge_refuted)."
 },
 "C160": {
  "status": "partial",
  "note": "Proved for images that exist and plain paths none of which is the end of another; cleaning and jobs in full. Refuted: missing images stay QUEUED, paths that end like another, QUEUED in a directory name, '+' in a path, images queued during the cleaning are lost."
 },
 "C161": {
  "status": "partial",
  "note": "True for different base names (up to the extension); refuted for equal names in different directories, and for an archive and its directory."
 },
 "C162": {
  "status": "partial",
  "note": "Proved per tile and day, for Landsat with path numbers of fixed width. Refuted: two sensing times of one tile and day; path and row are joined without separator. The text filters of sensor, tile and tier are an input."
 },
 "C163": {
  "status": "partial",
  "note": "Only complete scenes are queued, whatever the interruptions; all are queued if interruptions fall into a transfer or behind the queueing. Refuted: interruption between two files, or between last file and queue."
 },
 "C164": {
  "status": "partial",
  "note": "Split and drawing for all samples and draws; the number is exact for whole percentages, and in range for any, of up to 167772 samples. Refuted: 100 % of 671089 samples leave one out, of 16777219 samples are more than there are, and if no sample is left for training the first row is read nevertheless."
 },
 "C165": {
  "status": "partial",
  "note": "Weights as exact reals, for classes whose differences fit an int. Refuted: classes without training sample get a weight, so that there are more weights than trained classes; overflow of the comparison."
 },
 "C166": {
  "status": "partial",
  "note": "Sets that differ in one citation have different files, and a new file has exactly the marked entries. Refuted: the name has eight bits; NDVI, and NDVIre1 with NDVIre2, share a file, so that the citations of the second run are lost."
 },
 "C167": {
  "status": "partial",
  "note": "Proved for vectors of at least two values (all) or one value (paired). Refuted: with 'all' a vector of one value keeps its braces; with 'paired' an empty vector takes the values of the next one. Characters with a meaning for shell or sed are left out."
 },
 "C168": {
  "status": "partial",
  "note": "Proved without column or row 0. Refuted: zeros are stripped, so that for every datacube with a tile in column 0 the minimum is empty, and 0 is never the maximum."
 },
 "C169": {
  "status": "partial",
  "note": "The total is settled for all listings (each file once per sensor in its name), units as well, with exact numbers. Refuted: products like LNDLG are not counted, names with two sensors are counted twice."
 }
}