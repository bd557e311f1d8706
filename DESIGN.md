# Formal model of davidfrantz/force: design

## Approach

The code in /repo is read as text; it is neither built nor run here. Each C function that
carries one of the properties in `properties.jsonl` is transcribed by hand into a small total
Gallina function (files `*Model.v`), with a comment citing file and lines and naming every
simplification. Specifications (`*Spec.v`) are written without using the model's helpers.
Proofs live in `*Proofs.v`; the final statements are in `*Props.v`, each with `Print Assumptions`
and next to `Example`s showing that the hypotheses are met by concrete non-trivial data.

Conventions:

* C integers are `Z`. Where the property is about width, the wrap is explicit (`to_short`,
  `to_int`). Signed overflow, out-of-bounds access, use of NULL, and conversion of an
  unrepresentable floating value are modelled as the distinct outcome `UB`; `exit(1)` as the
  distinct outcome `Exit`.
* Loops are structural recursions or fuelled recursions whose exhaustion is a distinct outcome
  that the theorems exclude.
* If a property does not hold of the code as written, `..._refuted` gives a concrete witness and
  the strongest true part is proved as `..._partial`.

## Trusted base

* Coq 8.16.1 kernel (and coqchk).
* What `Print Assumptions` lists for each theorem (see the section "Assumptions" below).
* The hand transcription from C to Gallina. Nothing ties the model to the binary.

## Plan per property

* **C01 Coordinate queue is a bounded FIFO** - QueueModel.v: record (size, slots, head, tail) with explicit out-of-bounds outcome and (short) wrap; refinement to a bounded list for every operation history.
* **C02 Day-of-year and month/day are inverse on the 365-day calendar** - DateModel.v: the 13-way comparison cascades as Z functions; finite sweep lifted with forallb plus interval lemmas for the default branches.
* **C03 Continuous days round-trip and order dates** - DateModel.v: ce arithmetic on Z (double-precision floor of ce/365.0 modelled as exact integer floor; justified for |ce|<2^50); proofs by lia.
* **C04 Date setters keep all fields of a date consistent** - DateModel.v: date record, every setter as record update; invariant by induction over setter sequences.
* **C05 File-name dates: text round trip and validation** - DateTextModel.v: printf %04d%02d%02d, strtok and atoi on lists of bytes; round trip and rejection theorems, refutations for the year 2100 and for the undefined behaviour on strings without token.
* **C06 Elapsed seconds are decomposed without loss** - DateModel.v set_secs: successive divisions by the literal constants; refuted for durations above a year, proved below.
* **C07 Quality flags are independent bit fields** - QaiModel.v: Z with 16-bit two-complement wrap; finite sweeps over 2^16 avoided by bit lemmas (Z.testbit).
* **C08 Merging quality words is most restrictive** - QaiModel.v: merge; semilattice laws per field; refutation for illumination.
* **C09 Quality screening removes exactly the selected states** - QaiModel.v: use_this_pixel as boolean; independent specification as a table of (state, flag, value).
* **C10 String copies never overflow and never truncate silently** - StringModel.v: byte buffers (list of bytes with index checks, UB outcome); strncpy/snprintf semantics from the C standard.
* **C11 Substring replacement** - StringModel.v: strstr, memcpy with bounds.
* **C12 String vectors grow without losing entries** - StringModel.v: vector of strings, growth rule.
* **C13 Reallocation keeps the overlapping content and zeroes the rest** - AllocModel.v: memory blocks as lists of Z; 2D arrays as list of lists, contiguous 2DC as flat list.
* **C14 Active tiles are exactly the allow-listed tiles of the requested range** - TileModel.v: double loop over range; allow-list scan; NoDup/In/sortedness theorem.
* **C15 Every map coordinate belongs to exactly one tile that contains it** - CubeModel.v: coordinates as rationals scaled to Z (exact arithmetic); while loops with fuel, out-of-fuel distinct.
* **C16 Image origin alignment** - CubeModel.v as C15.
* **C17 Each processing unit is read, computed and written exactly once, in order** - ProgressModel.v: state machine (last, now, next); trace of read/compute/write events, streaming = arbitrary interleaving of the three stage events of an iteration; array bounds explicit.
* **C18 Processing units enumerate all (tile, chunk) pairs** - ProgressModel.v: float32 rounding of the quotient modelled by integer round-to-nearest-even to 24 bits; bijection below 2^24 units, refutation above.
* **C19 A run that read and wrote data is not reported as empty** - ProgressModel.v: byte accounting in both modes.
* **C20 One-pass moments equal their definitions** - StatsModel.v over Coq reals (exact arithmetic instead of doubles).
* **C21 Trend lines are least-squares fits** - StatsModel.v and TrendModel.v over Coq reals.
* **C22 Mode, unique count and histogram** - ModeModel.v: qsort as any sorted permutation (stdlib mergesort), scan loops.
* **C23 Accepted parameter files satisfy every declared constraint** - ParamModel.v: registered parameters, parse, check. Floats as an inductive with NaN, infinities and rationals.
* **C24 Parameter values are the blank/equals separated words before a comment** - ParamModel.v: strtok tokenizer on byte lists.
* **C25 Linear interpolation is exact at observations and bounded by its neighbours** - InterpModel.v: double loop with carried index; binary32/binary64 arithmetic with Flocq.
* **C26 Moving average interpolation uses exactly the observations in the window** - InterpModel.v.
* **C27 RBF interpolation stays inside its kernel and between data values** - RbfModel.v over Coq reals.
* **C28 Folding aggregates exactly the observations of each period** - AggModel.v over Coq reals (GSL by its documentation).
* **C29 Spectral temporal metrics** - AggModel.v with 16-bit stores.
* **C30 Standardization** - StdzModel.v over reals with explicit division by zero outcome.
* **C31 Change detection (CAT) finds the largest drop** - CatModel.v integer differences.
* **C32 Noise screening terminates and only removes observations** - NoiseModel.v: loop with fuel = number of observations.
* **C33 Greyscale reconstruction computes the flooding fixpoint** - RecoModel.v: raster/anti-raster scans + queue; invariant proof.
* **C34 Distance transform is the exact Euclidean distance** - DistModel.v: Meijster two-phase algorithm on Z.
* **C35 Buffering never removes pixels** - BufferModel.v.
* **C36 Band subsetting keeps names and numbers aligned** - BandModel.v: in-place shifting loop.
* **C37 Clear-sky observation windows tile the time range** - CsoModel.v.
* **C38 Every sample point is extracted exactly once** - SampleModel.v on top of CubeModel.
* **C39 Datacube definition survives being written and read** - CubeDefModel.v: writer/reader on byte lists.
* **C40 Path decomposition** - PathModel.v: byte lists, explicit UB for index -1.
* **C41 Parameter log never overflows its buffer** - ParLogModel.v: cursor arithmetic with snprintf return values.
* **C42 Connected components** - CclModel.v: contour tracing with fuel; soundness (labels only merge connected pixels).
* **C43 Majority fill** - MajorModel.v: sequential and arbitrary-order (schedule) semantics.
* **C44 Tables are read completely and regularly** - TableModel.v.
* **C45 Layout of the spectral temporal metrics** - AggModel.v: parse_sta and the band each metric is written to.
* **C46 Noise of a line is zero** - NoiseModel.v: the triplet residual in binary32.
* **C47 A chunk is read with its margin** - ChunkModel.v: the window of each of the nine tiles/chunks around, the paste position; compared with a mosaic of the whole cube.
* **C48 Cropping** - ChunkModel.v: crop_brick for each pixel type.
* **C49 Season and folding periods** - SeasonModel.v: flag vectors by first and last day; the dates of the folded series.
* **C50 Listing the images of a tile** - ListingModel.v: the filter chain of list_ard on directory entries.
* **C51 Common bands, C52 union of bands** - SensorModel.v: tables with their allocated size, so that a write behind them is an outcome of its own.
* **C53-C59 Best available pixel** - BapModel.v: scores, temporal targets, correlation, water, haze statistics, selection and averaging of one pixel, with NaN as None; BapSpec.v: closed formulas for the scores, eligibility and first best observation. Not expressible: the values of sigmoids fitted by GSL (a parameter).
* **C60-C64 Spectral indices** - IndexModel.v: every function of index-compute-hl.c but the unmixing, in single precision (RoundModel.v: real numbers rounded after each operation by Flocq's rounding to nearest even); IndexSpec.v: the formulas of the documentation over the reals. Error bounds by interval arguments.
* **C65-C72 Consequences on legal inputs** - what holds without exception where C08, C14, C18, C05, C23/C24, C22, C32 and C25 are only partly true: order-free merging of quality words (QaiProps.v), list files to processed tiles (TileProps.v), whole cube processed once (ProgressProps.v), print/read of dates (DateTextProps.v), acceptance of the text of a parameter file (ParamProps.v), image statistics (ModeProps.v), noise filter without restoring (NoiseProps.v), interpolation of reflectances (InterpProps.v).
* **C73-C75 Landscape metrics** - lsm-hl.c modelled with the private arrays of each thread and a schedule (LsmModel.v; real arithmetic). C73 proved against definitions over the set of foreground pixels in the kernel (LsmSpec.v). C74: ranges proved; the effective mesh size is that of one merged patch and the maximum of negative values is 0 (refuted). C75: proved for mean patch area, edge density, mesh size, mean, maximum and area; refuted for standard deviation (one pixel), geometric mean (no positive value), fractal dimension (single pixels; patch that fills the window; border: -40000), tiles without patches, and the binary32 test for single pixels (radius 5).
* **C76-C81 Radiative transfer and atmospheric correction** - radtran-ll.c, ozone_amount, the interpolation of coarse grids, surface and background reflectance of atmo-ll.c (RadModel.v; real arithmetic, C79 with binary32/64 rounding). Specifications in RadSpec.v: directions as unit vectors, phase functions by their integral, the apparent reflectance of a uniform scene and of a target in a background, neighbouring cells by distance. C76 proved; C77-C81 partial with refutations (see below).
* **C82-C89 Land surface phenology from polar coordinates** - polar-hl.c (PolModel.v) in bit-exact binary32/64 arithmetic; sin, cos and atan2 are parameters of which only the range and the treatment of NaN are assumed. Specifications in PolSpec.v: which observation a date belongs to, calendar seasons, the order of the events, which date differences are lengths. C84 and C85 proved; the others partial with refutations (see below).
* **C90-C93 ImproPhe** - improphe-hl.c and the per-pixel part of l2-improphe-hl.c and cf-improphe-hl.c (ImpModel.v), in real arithmetic apart from the kernel distance and the final conversion. Specification in ImpSpec.v: circle, limits of similarity, weighted mean, stretched weights, seasons, sample standard deviation. C90 and C93 hold (C93 up to constant images), C91 and C92 partial.
* **C94 Library completeness** - lib-hl.c and the rescaling of read_libraries (LibModel.v) in real arithmetic; specification: smallest distance over a table.
* **C95 Texture** - texture-hl.c (TxtModel.v) on integers; OpenCV's erode, dilate and morphologyEx follow their documentation; specification: minimum and maximum over the pixels reached in a number of steps.
* **C96-C99 Auxiliary programs** - force-hist.c, force-stratified-sample.c, force-tabulate-grid.c, force-tile-finder.c, force-stack.c (ToolModel.v): what GDAL reads, and the projected corners, are inputs, what it is told to write is the result; random numbers are an arbitrary sequence; coordinates exact. Specification in ToolSpec.v. C96 holds; C97, C98 and C99 partial with witnesses for what fails.
* **C100-C103 Machine learning** - higher-level/ml-hl.c, machine_learning per pixel (MlModel.v): what the OpenCV models answer (prediction, votes per column) is an input; mean and variance of the regression are exact, the shares of votes are doubles (rnd64). Specification in MlSpec.v. C103 holds; C100-C102 partial with witnesses for what fails.
* **C104-C107 Level 2 output** - lower-level/cube-ll.c (start_datacube, tile_level2), quicklook of atmo-ll.c, force-qai-inflate (L2tModel.v): coordinates are integers of a common unit, the projected corners are inputs, the cloud share and the stretch are doubles (rnd64). Specification in L2tSpec.v. C107 holds; the others partial with witnesses for what fails.
* **C108-C114 Cloud module** - lower-level/cloud-ll.c (CldModel.v): the tests of single pixels with floats and doubles (rnd32, rnd64), the final mask with its buffers, the cloud cover threshold, the flooding for shadows, the cloud distance and the Sentinel-2 region growing. The cloud probability, the parallax index (candidates are inputs) and the matching of shadows are not modelled. Specification in CldSpec.v. C111 and C113 hold; the others partial with witnesses for what fails.
* **C115-C121 Image output** - cross-level/brick_io-cl.cpp write_brick, higher-level/tasks-hl.c output_higher_level, gdalopt-cl.c (WrtModel.v): the disk is a map from names to rasters, lock files are a list of names, the provenance file a list of lines; GDAL reads and writes windows of rasters and never fails except where the layout does not fit; integer data types only (no metadata, no projection). Concurrent writers are a transition system whose steps are take the lock, read, write, release. Specification in WrtSpec.v. C115 holds; the others partial with witnesses for what fails.
* **C122-C126 Level 1 images** - lower-level/read-ll.c (masks, impulse noise, conversion to reflectance and temperature), atc-ll.c init_atc_xy and convert_brick_p2p (L1Model.v): digital numbers are given, band numbers of the domains are inputs; the standard deviations of the noise filter are exact real numbers (the code uses double), the in-place pass over the pixels is modelled as it is; conversions round every float operation. Specification in L1Spec.v. All partial with witnesses for what fails.
* **C127-C128 Point spread function** - higher-level/read-ard-hl.c reduce_psf with cross-level/imagefuns-cl.c find_sigma and gauss_kernel (PsfModel.v): all float and double operations of the two passes are rounded as in the code; the search of the width and the entries of the kernel are real numbers (entries rounded to float once). Error of running weighted means in PsfProofs.v, bounds of the kernel in PsfKernel.v. Specification in PsfSpec.v.
* **C129-C131, C133 Products of the time series analysis** - higher-level/tsa-hl.c (TsaModel.v): the table of products with their numbers of bands and options, labels of the bands, file names, and the result for all indices. Pixels, wavelengths and directories are left out. Specification in TsaSpec.v; lemmas in TsaProofs.v and TsaLabels.v. Refuted: the last, shorter step (C129), images that are not in chronological order (C130), an index given twice and an empty near real time product that suppresses all other products (C131).
* **C132 Harmonic models** - higher-level/interpolate-hl.c interpolate_harmonic for one pixel (HarmModel.v): terms, choice of observations, prediction and residuals; the robust regression of GSL is a parameter of the model, so the theorems hold for any regression; doubles are real numbers. Refuted: pixels without fit are not nodata but 0 in the near real time product.
* **C134-C135 Spectral adjustment** - higher-level/spec-adjust-hl.c (AdjModel.v; the cluster centres of the code in AdjTable.v): spectral angles in rounded doubles (square root and arc cosine rounded correctly), weights, choice of the clusters, weighted predictions (real numbers, the coefficients are a parameter) and the loop over the images. Specification in AdjSpec.v; lemmas in AdjAngle.v (the rounded cosine never exceeds 1), AdjChoose.v, AdjProofs.v and AdjNum.v. Refuted with the centres of the code: the first choice leaves out the tenth cluster instead of the global one, so a pixel whose only similar cluster is the tenth gets the global model alone, and a pixel nearest to the global centre gets clusters that are not similar.
* **C136-C139 Topography** - lower-level/topo-ll.c (TopModel.v): sea, smoothing, slope and aspect with the borders, illumination, elevation classes (rounded floats), sampling offsets and factors of the topographic correction. Slopes, illumination and factors in real numbers. Specification in TopSpec.v (connected sea, plane, normal vector); lemmas in TopProofs.v, TopGeo.v, TopNum.v. Refuted: sea that is reached along a row first and then along a column stays nodata; the slope flag is not taken over at the borders.
* **C140 Principal components** - cross-level/pca-cl.c (PcaModel.v, real numbers): mask, centring, projection, number of components. The eigenvectors and eigenvalues are an input of which the specification (PcaSpec.v) asks what GSL promises (orthonormal, sorted, of the covariance matrix). Refuted: components are centred (a pixel that is missing in some bands only counts in the mean of the others), and the share of the variance (the code projects on the rows of the matrix of eigenvectors instead of its columns).
* **C141 BRDF correction** - lower-level/brdf-ll.c (BrdfModel.v, real numbers): kernels, forward model, factor per band. The standard sun zenith is an input. BrdfSpec.v, BrdfProofs.v.
* **C142 Helpers** - cross-level/utils-cl.c (UtilModel.v): comparison in rounded float and double arithmetic with subnormal numbers, digits, sizes. UtilSpec.v, UtilProofs.v. Refuted beyond 2^23: neighbouring integers count as equal.
* **C143 Cloud shadows** - lower-level/cloud-ll.c shadow_position, shadow_matching (ShmModel.v): positions in real numbers, the search over heights with fuel, similarity over sampled pixels. ShmSpec.v, ShmProofs.v. Refuted: it ends (not with the sun below the horizon), the similarity is a fraction (it can exceed 1), every cloud gets a shadow (at 10 m only every other pixel is sampled).
* **C144-C145 View angles and time** - lower-level/sunview-ll.c, cross-level/sun-cl.c sunJC (ViewModel.v): corners as the scan of the image; distance, zenith, azimuth and times in real numbers; cell borders and Julian date in rounded floats. ViewSpec.v (corners, foot of the perpendicular, compass, Gregorian calendar), ViewProofs.v. Refuted: only cells without angles are masked; the right day on 1 January; telling hours apart.
* **C146-C148 Sharpening of Sentinel-2** - lower-level/resmerge-ll.c (ResModel.v): ImproPhe and STARFM in real numbers, the fit of the regression as any solution of least squares, threads as any order of pixels. ResSpec.v (similarity, limits, fair weights, convex means), ResProofs.v. Refuted: a lone pixel keeps its value in double arithmetic, averages of blocks with nodata elsewhere, independence of the order for the regression (bands change in place).
* **C149-C151 Reading of a chunk** - higher-level/read-ard-hl.c, tasks-hl.c, param-hl.c (ReadModel.v): files as data, threads as any assignment of dates with private error counters. ReadSpec.v, ReadProofs.v. Refuted: clear sky observations without quality product (null pointer), 16 bit masks (257 counts as 1), Level 2 ImproPhe (the second set of sensors has no target: no parameter file is accepted).
* **C152-C156 Water vapour tables** - lower-level/modwvp-ll.c, gas-ll.c, force-lut-modis.c, datesys-cl.c (WvpModel.v): granules and tables as the data read from them, sums of doubles exact, distances with their rounding. WvpSpec.v has its own calendar (day numbers), WvpProofs.v, WvpUse.v. Refuted: the sizes of MODIS granules (1354 x 2030 pixels, 270 x 406 blocks, offset 2) lead behind the array of locations or to the block of the next line; boxes across the date line lose pixels; periods that end on 29 February before they start, or on a day that does not exist, are accepted and never end; strict water vapour does not refuse scenes without a daily value; 9999 in both tables is used as a value; a blank line in a table is read through a null pointer.
* **C157 Cloud probability** - lower-level/cloud-ll.c, stats-cl.c (ClpModel.v): the masks of candidates, of clear, land and bright pixels are input, floats of the code rounded, GSL's quantile exact. ClpSpec.v states quantiles over a sorted permutation and the probabilities over the reals; ClpProofs.v bounds the rounding. Refuted: if OpenMP delivers one thread although more are configured, the water part is never computed and its threshold and array are used uninitialised.
* **C158 Displacement index** - lower-level/cloud-ll.c (CdiModel.v): ratios and probabilities of the coarse cells are input and are numbers, doubles are exact, the index is rounded to float. CdiSpec.v states windows as sets of cells, variances by their textbook definition (StatsSpec.v) and clouds inductively; the region growing is that of CldModel.v, so that C158_mask goes from the ratios to the final mask. Refuted: where neither ratio varies the index is 0/0 (C158_flat_refuted; such cells are no clouds and do not spoil their neighbours).
* **C159 Water vapour** - lower-level/gas-ll.c (VapModel.v): the minimiser of GSL is any function of its start, of reflectances, elevation class and block; cosines are floats, the table is read and filled with the roundings of double, sums are exact. VapSpec.v states used pixels as a set, estimates by the mean over any list of that set, the map by pixel. Refuted: the transmittance of a block is that of its first pixel, so where that one is invalid the block is treated as without water vapour (C159_gas_edge_refuted); images that are not made of whole blocks are read behind their end (C159_size_refuted; does not happen for Sentinel-2 tiles).
* **C160 Queue, C161 Files of parallel images** - bash/force-level2.sh (L2qModel.v): lines are texts; sed with the path as expression is modelled for letters and dots (other special characters give no result), the image processor and unpacking are any functions, updates under the lock are single steps, the cleaning, which takes no lock, is a reading and a later replacement. L2qSpec.v states what the queue should be as a table from paths to states. Refuted: images that do not exist stay QUEUED (the job ends before recording), a path that is the end of another one overwrites its status, QUEUED in a directory, a plus in the path, an image that is queued during the cleaning, equal base names.
* **C162 Choice of scenes, C163 Download and queue** - bash/force-level1-csd.sh (CsdModel.v): the catalogue is any list of rows, the greps for sensor, tile and tier are any test; a run is a list of steps (transfer begins, file is there, scene is queued) that may end anywhere. CsdSpec.v states the choice by membership and order only. Refuted: sensing times of one day, joined path and row, interruption between two files or between the last file and the queue.
* **C164 Split of samples, C165 Class weights** - main/aux-level/force-train.cpp, aux-level/train-aux.cpp (TrnModel.v): the number of training samples is computed in single precision, random numbers are any list (the loop that draws goes on where the list ends), weights are exact reals on top of the histogram of ModeModel.v. TrnSpec.v states the split as an interleaving. Refuted: 100 % that are not all samples or more than all, no training sample, a class that is not in the training, classes too far apart.
* **C166 Citations** - cross-level/cite-cl.c (CitModel.v): the checksum is transcribed bit by bit, the directory is any function from names to entries. One step of the checksum is shown to be injective on all bytes, from which follows that one citation more changes the name. Refuted: two sets with the same name.
* **C167 Magic parameters** - bash/force-magic-parameters.sh (MagModel.v): vectors and places are given as data, brace expansion as bash does it for zero, one and more values. MagSpec.v states files by choice functions from keys to values. Refuted: vectors of one value, empty vectors.
* **C168 Suggested extent, C169 Size of a datacube** - bash/force-tile-extent.sh (ExtModel.v): a stripped number is a number or empty, and awk compares empty ones as text; bash/force-datacube-size.sh (DcsModel.v): lines with sizes, a literal search for each sensor. Specifications are the smallest and largest member, and plain sums. Refuted: column 0, files of no or of two sensors.

## What is modelled and what is not

Modelled (the exact lines are cited above each definition):

| code | model |
|---|---|
| cross-level/queue-cl.c (all) | QueueModel.v |
| cross-level/date-cl.c (calendar, setters, text) | DateModel.v, DateTextModel.v |
| cross-level/quality-cl.c, higher-level/quality-hl.c (QAI screening, noise screening) | QaiModel.v, NoiseModel.v |
| cross-level/string-cl.c | StringModel.v, CStr.v |
| cross-level/alloc-cl.c (re_alloc*) | AllocModel.v |
| cross-level/tile-cl.c | TileModel.v |
| cross-level/cube-cl.c (tile_find, tile_align, definition file), read-cl.c (read_tagvalue) | CubeModel.v, CubeDefModel.v |
| cross-level/stats-cl.c (one-pass moments, regression, mode, unique count, histogram) | StatsModel.v, ModeModel.v |
| cross-level/imagefuns-cl.c (buffer, distance transform, majority fill, connected components, reconstruction) | BufferModel.v, DistModel.v, MajorModel.v, CclModel.v, RecoModel.v |
| cross-level/param-cl.c (parser, checks, log) | ParamModel.v, ParLogModel.v |
| cross-level/dir-cl.c (path functions) | PathModel.v |
| cross-level/table-cl.c (read_table, find_*) | TableModel.v |
| cross-level/brick_base-cl.c (crop_brick, get_brick_x/y/geo) | ChunkModel.v, SampleModel.v |
| higher-level/progress-hl.c, tasks-hl.c, main loop of force-higher-level.c | ProgressModel.v |
| higher-level/interpolate-hl.c (none, linear, moving, rbf) | InterpModel.v, RbfModel.v |
| higher-level/fold-hl.c, stm-hl.c, parse_sta | AggModel.v |
| higher-level/standardize-hl.c, trend-hl.c (trend, cat), cso-hl.c | StdzModel.v, TrendModel.v, CatModel.v, CsoModel.v |
| higher-level/sample-hl.c, index-parse-hl.c, sensor-hl.c | SampleModel.v, BandModel.v, SensorModel.v |
| higher-level/read-ard-hl.c (list_ard, chunk windows), param-hl.c/tsa-hl.c (season, folding) | ListingModel.v, ChunkModel.v, SeasonModel.v |
| bap-hl.c (all but compile_target_adaptive, bap_overview), level3-hl.c:308-342, param-hl.c:1125-1155 | BapModel.v (floats are reals; the GSL fit is a parameter) |
| index-compute-hl.c (all but index_unmixed), misc/runtime-data/indices.json | IndexModel.v, RoundModel.v (float and double operations are rounded reals: no overflow to infinity; exp is correctly rounded) |
| lsm-hl.c (landscape_metrics and its compile step) | LsmModel.v (float arithmetic of the metrics is real; the single-pixel test also in binary32) |
| lower-level/radtran-ll.c; gas-ll.c: ozone_amount; atc-ll.c:55-63; atmo-ll.c: interpolation_weights, interpolate_coarse, surface_reflectance (per pixel), background_reflectance | RadModel.v (real arithmetic, stored_toa machine arithmetic; the coarse grids and the reflectance without adjacency correction are inputs) |
| higher-level/polar-hl.c | PolModel.v (libm functions are parameters; dates of the interpolated series are inputs) |
| higher-level/improphe-hl.c, l2-improphe-hl.c, cf-improphe-hl.c | ImpModel.v (per pixel; principal components are inputs; real arithmetic) |
| higher-level/lib-hl.c, read-aux-hl.cpp (rescaling of libraries) | LibModel.v |
| higher-level/texture-hl.c | TxtModel.v (OpenCV morphology by its documentation) |
| main/aux-level/force-hist.c, force-stratified-sample.c, force-stack.c, force-tabulate-grid.c, force-tile-finder.c | ToolModel.v (input and output of GDAL are data) |
| higher-level/ml-hl.c: machine_learning (206-409) | MlModel.v (answers of the OpenCV models are data) |
| lower-level/cube-ll.c: tile_level2 (44-227), start_datacube (319-427; projection of the corners is data) | L2tModel.v |
| lower-level/atmo-ll.c: compile_l2_ovv (1306-1404) | L2tModel.v |
| main/higher-level/force-qai-inflate.c: main (204-217) | L2tModel.v |
| lower-level/cloud-ll.c: finalize_cloud (61-211), potential_cloud (228-408), shadow_probability (763-878; background and distance are inputs), region growing and changes of resolution of cloud_parallax (979-1027, 1205-1316), detect_clouds (1741-1855), cloud_distance (1865-1920) | CldModel.v |
| cross-level/brick_io-cl.cpp: write_brick (46-518; without metadata and geotransform), brick_base-cl.c: set_brick (2429-2454), get_brick_size (1283-1301), higher-level/tasks-hl.c: output_higher_level (254-318), cross-level/gdalopt-cl.c: parse_gdaloptions (118-186) | WrtModel.v |
| lower-level/read-ll.c: bounds_level1 (148-245), impulse_noise_level1 (247-329), convert_level1 (353-457), atc-ll.c: init_atc_xy (173-176), cross-level/brick_base-cl.c: convert_brick_p2p (678-689) | L1Model.v |
| higher-level/read-ard-hl.c: reduce_psf (58-171), cross-level/imagefuns-cl.c: find_sigma (36-58), gauss_kernel (68-97) | PsfModel.v |
| higher-level/tsa-hl.c: info_* (52-395), compile_tsa (564-824), compile_tsa_brick (836-895), time_series_analysis (912-1024) without pixels | TsaModel.v |
| higher-level/interpolate-hl.c: interpolate_harmonic (470-706) | HarmModel.v |
| higher-level/spec-adjust-hl.c: constants and centres (39-118), spectral_predict (776-970), spectral_adjust (977-1040), without the regression coefficients | AdjModel.v, AdjTable.v |
| lower-level/topo-ll.c: ocean_topography (75-152), smooth_topography (160-238), exposition_topography (247-420), stats_topography (431-503), illumination_topography (542-571), cfactor_topography (803-814, 870-935, 948-982; not the regression) | TopModel.v |
| cross-level/pca-cl.c: pca (not the eigen decomposition) | PcaModel.v |
| lower-level/brdf-ll.c: brdf_factor (70-133), brdf_forward (147-167), LiKernel, GetPhaang, GetpAngles, GetDistance, GetOverlap (174-254) | BrdfModel.v |
| cross-level/utils-cl.c: num_decimal_places (123-134), fequal, dequal, print_humanreadable_bytes (196-255) | UtilModel.v |
| lower-level/cloud-ll.c: shadow_position (1364-1385), shadow_matching (1408-1712) | ShmModel.v |
| lower-level/sunview-ll.c: localtime2gmt (41-77), standard_sunzenith (89-126), viewgeo (245-312), view_angle (342-421); cross-level/sun-cl.c: sunJC (66-80) | ViewModel.v |
| lower-level/resmerge-ll.c: resolution_merge_1 (91-231), resolution_merge_2 (255-325), resolution_merge_3 (339-505, blocks and prediction; not the Gaussian filter), rescale_weight_resmerge (517-530), improphe_resmerge (553-698), starfm (716-945) | ResModel.v |
| higher-level/read-ard-hl.c: read_mask (480-557), read_features (569-661), read_ard (771-935); tasks-hl.c (60-118, 159-176); param-hl.c (857-915, 986-996, 1015-1025) | ReadModel.v |
| lower-level/modwvp-ll.c: int2bit (98-108), read_modis_geometa (281-284, 317-349), compile_modis_wvp (582-584, 806-852), choose_modis_wvp, create_wvp_lut (without downloads), read_wvp_lut; gas-ll.c: water_vapor_from_lut (623-749); force-lut-modis.c: loops over days and months (226-336); datesys-cl.c: date_plus | WvpModel.v |
| lower-level/cloud-ll.c: land_probability, water_probability, cloud_probability (411-713, without majorfill); stats-cl.c: quantile (669-677) | ClpModel.v |
| lower-level/cloud-ll.c: cloud_parallax, index, smallest probability and first clouds (1040-1203) | CdiModel.v |
| lower-level/gas-ll.c: wvp_transmitt_lut, table of fun_wvp, water_vapor, gas_transmittance (45-102, 144-167, 198-455, 468-537) | VapModel.v |
| bash/force-level2.sh: process_this_image, cleaning of the queue, jobs (99-271, 351-376, 397-399); misc/force-bash-library.sh: exits | L2qModel.v |
| bash/force-level1-csd.sh: choice of scenes, download loop, queue (521-527, 613-659) | CsdModel.v |
| main/aux-level/force-train.cpp: split of samples (188-238, 251); aux-level/train-aux.cpp: class_priors (232-279) | TrnModel.v |
| cross-level/cite-cl.c: cite_crc8, cite_me, cite_push (403-504) | CitModel.v |
| bash/force-magic-parameters.sh: combination and replacement (112-201) | MagModel.v |
| bash/force-tile-extent.sh: ranges and allow-list (152-183); misc/force-bash-library.sh: is_lt, is_gt | ExtModel.v |
| bash/force-datacube-size.sh: pretty_size, sums (63-99, 149-179) | DcsModel.v |
<!-- more-modelled -->

Not modelled: everything that goes through GDAL, GSL, curl, jansson, OpenCV and Python (image
decoding and warping, the machine learning models themselves, JSON parsing); in the lower level the estimation of aerosol,
the minimiser and the radiative transfer of the water vapour, the warping of elevation models, the smoothing and the ratios of the parallax index; the
auxiliary command line programs not listed above.

Common simplifications: parallel loops whose iterations touch different cells are run in order
(MajorModel.v models the interleavings because there they do not); running out of memory ends the
program and is left out; libc and GSL functions follow their documentation; where a model computes
with exact numbers instead of floats its header says so.

## Results

<!-- results -->
* **C01 Coordinate queue is a bounded FIFO** (partial). FIFO behaviour for every operation history proved for 16-bit coordinates, and with explicit truncation for all ints; images wider than 32768 pixels and size-0 queues are refuted by witnesses.
  Theorems: C01_queue_is_bounded_fifo, C01_queue_any_coordinates, C01_queue_capacity, C01_size_zero_ub. Refuted: C01_large_coordinates_refuted.
* **C02 Day-of-year and month/day are inverse on the 365-day calendar** (proved). All days of the 365-day calendar, both directions, against month lengths.
  Theorems: C02_doy2md_correct, C02_md2doy_correct, C02_separate_lookups_agree, C02_invalid_month_is_zero.
* **C03 Continuous days round-trip and order dates** (proved). Round trip, surjectivity and order for all existing days of the 365-day calendar (the documented domain); the collision of 29 February with 1 March is shown separately.
  Theorems: C03_round_trip, C03_every_ce_is_a_date, C03_order, C03_doy_and_year, C03_doy2ce_agrees, C03_date_order, C03_no_overflow. Refuted: C03_leap_day_refuted.
* **C04 Date setters keep all fields of a date consistent** (proved). Every sequence of setter calls with legal arguments after one full set_date.
  Theorems: C04_setters_consistent, C04_setters_effect, C04_setters_keep_clock, C04_copy_date.
* **C05 File-name dates: text round trip and validation** (partial). Round trip, ranges and totality proved; acceptance of non-existing days / non-numbers and the missing dummy date refuted by witnesses.
  Theorems: C05_compact_text, C05_long_text, C05_round_trip, C05_accepted_in_range_partial, C05_out_of_range_refused, C05_wrong_length_refused, C05_defined_iff_not_blank. Refuted: C05_nonexistent_day_refuted, C05_not_a_number_refuted, C05_no_dummy_date_refuted.
* **C06 Elapsed seconds are decomposed without loss** (partial). Holds below one year; from one year on the unit thresholds are wrong (witnesses).
  Theorems: C06_durations_partial. Refuted: C06_years_refuted, C06_sum_refuted.
* **C07 Quality flags are independent bit fields** (partial). Set/get independence for all words and flags; over-wide values corrupt neighbouring flags (witness), see refuted theorem.
  Theorems: C07_read_flag, C07_write_flag, C07_write_flag_in_image, C07_flags_disjoint. Refuted: C07_overwide_value_refuted.
* **C08 Merging quality words is most restrictive** (partial). Per-flag merge law and semilattice laws as far as they hold; counterexamples as refuted theorems.
  Theorems: C08_merge_worst_partial, C08_merge_commutative, C08_merge_associative, C08_merge_idempotent. Refuted: C08_merge_illumination_refuted.
* **C09 Quality screening removes exactly the selected states** (proved). Screening decision against an independent table of states, monotone in the selection.
  Theorems: C09_pixel_used_iff, C09_keywords, C09_more_screening_excludes_more, C09_screen_qai.
* **C10 String copies never overflow and never truncate silently** (proved). Buffer-level: result is the full string with NUL or the program exits, no out-of-bounds write.
  Theorems: C10_copy_string, C10_concat_string_2, C10_concat_string_3.
* **C11 Substring replacement** (partial). First occurrence replaced exactly; strings without occurrence may terminate the program (size_t wrap), refuted by witness.
  Theorems: C11_replace_first_partial, C11_no_occurrence_partial, C11_overwrite_part, C11_overwrite_rejects. Refuted: C11_leaves_others_alone_refuted.
* **C12 String vectors grow without losing entries** (partial). All histories on allocated vectors; zeroed vectors need a non-empty first string (witness of exit otherwise).
  Theorems: C12_fill_history, C12_fill_history_unallocated_partial, C12_fill_string, C12_lookup. Refuted: C12_empty_first_refuted.
* **C13 Reallocation keeps the overlapping content and zeroes the rest** (partial). 1D, 2D and 3D resizing for all shapes; the contiguous 2D variant scrambles rows when the row length changes (witness).
  Theorems: C13_re_alloc, C13_re_alloc_2D, C13_re_alloc_3D, C13_re_alloc_2DC_partial, C13_shrink_to_zero_exits. Refuted: C13_re_alloc_2DC_refuted.
* **C14 Active tiles are exactly the allow-listed tiles of the requested range** (partial). Selection proved for every range and list; reading the list file back is proved for tile numbers of at most four digits with complete lines, witnesses of wrong results otherwise.
  Theorems: C14_active_tiles, C14_selection_unique, C14_allow_list_file_partial. Refuted: C14_wide_tile_number_refuted, C14_short_line_refuted.
* **C15 Every map coordinate belongs to exactly one tile that contains it** (partial). Coordinates in exact integers. Containment and uniqueness for interior points proved; the half-open boundary rule holds only left of/above the origin, refuted elsewhere.
  Theorems: C15_tile_contains_partial, C15_interior_unique_partial, C15_half_open_partial. Refuted: C15_half_open_refuted.
* **C16 Image origin alignment** (partial). Exact integers. Result is on the grid, covers the image and moves at most one pixel; an aligned coordinate always moves by one pixel (refuted).
  Theorems: C16_align_partial, C16_align_any_size_partial. Refuted: C16_aligned_moves_refuted.
* **C17 Each processing unit is read, computed and written exactly once, in order** (proved). All unit counts, all interleavings of the three threads.
  Theorems: C17_each_unit_once_in_order, C17_run_exists, C17_threads_disjoint, C17_same_result_for_every_schedule, C17_write_order.
* **C18 Processing units enumerate all (tile, chunk) pairs** (partial). Up to 2^24 units with binary32 arithmetic; beyond that the bijection fails (witness).
  Theorems: C18_bijection_partial, C18_in_range_partial, C18_chunk_layout. Refuted: C18_many_units_refuted.
* **C19 A run that read and wrote data is not reported as empty** (partial). Streaming mode proved; without streaming the last unit overwrites the totals (witness of FAILURE for a run with data).
  Theorems: C19_streaming_partial, C19_exit_code. Refuted: C19_serial_refuted.
* **C20 One-pass moments equal their definitions** (proved). All sequences of reals; recurrences against the textbook definitions.
  Theorems: C20_mean_variance, C20_skew, C20_kurt, C20_covariance, C20_covar, C20_variance, C20_standdev, C20_sample_covariance, C20_skewness, C20_kurtosis.
* **C21 Trend lines are least-squares fits** (partial). Optimality over all lines, zero residual sum, R-squared; the trend product of a pixel. Constant series give 0/0 (refuted).
  Theorems: C21_least_squares, C21_residuals_sum_to_zero, C21_rsquared_partial, C21_correlation, C21_trend_values, C21_trend_few_values. Refuted: C21_constant_series_refuted.
* **C22 Mode, unique count and histogram** (partial). All arrays whose pairwise differences fit int; overflowing comparison and the empty array refuted.
  Theorems: C22_mode_partial, C22_n_uniq_partial, C22_histogram_partial. Refuted: C22_overflow_refuted, C22_empty_refuted.
* **C23 Accepted parameter files satisfy every declared constraint** (partial). Acceptance characterised for every file and registration without NaN values; NaN, garbage text and INT_MAX enumerations refuted.
  Theorems: C23_accept_iff_partial. Refuted: C23_nan_refuted, C23_garbage_refuted, C23_int_max_refuted.
* **C24 Parameter values are the blank/equals separated words before a comment** (partial). One line, line sequences, totality and the fgets loop, for complete dates; short dates read beyond their word (refuted).
  Theorems: C24_line_partial, C24_first_definition_partial, C24_total_partial, C24_file_lines. Refuted: C24_short_date_refuted.
* **C25 Linear interpolation is exact at observations and bounded by its neighbours** (partial). Full for series whose neighbouring clear observations satisfy gap*value < 2^24 (single precision exactness); refuted beyond (constant series loses one count) and for values blending to nodata.
  Theorems: C25_linear_partial, C25_bounded, C25_masked. Refuted: C25_long_gap_refuted, C25_nodata_refuted.
* **C26 Moving average interpolation uses exactly the observations in the window** (partial). Value at each grid day proved for every series; refuted: a mean may equal the nodata value.
  Theorems: C26_moving. Refuted: C26_nodata_refuted.
* **C27 RBF interpolation stays inside its kernel and between data values** (partial). Exact arithmetic (no float rounding); holds for every series and kernel set whose central weight is at most half the cutoff (every sigma for cutoff >= 0.84); refuted for smaller cutoffs (division by zero weight, undefined conversion).
  Theorems: C27_rbf_partial, C27_bounded, C27_constant, C27_cutoff. Refuted: C27_small_cutoff_refuted.
* **C28 Folding aggregates exactly the observations of each period** (partial). Exact arithmetic; values within +-16383 and periods for which the statistic exists; refuted: standard deviation of one value and skewness of a constant period are NaN (undefined conversion).
  Theorems: C28_fold_partial, C28_masked. Refuted: C28_single_std_refuted, C28_constant_skew_refuted.
* **C29 Spectral temporal metrics** (partial). Exact arithmetic; distinct metrics, values within +-16383, statistic exists; refuted: range wraps beyond 32767, binary64 running mean of 0,1,6,1 truncates to 1 instead of 2.
  Theorems: C29_stm_partial, C29_masked. Refuted: C29_range_refuted, C29_mean_refuted.
* **C30 Standardization** (partial). Exact arithmetic; all series; refuted for normalising constant series (NaN converted to short).
  Theorems: C30_standardize_partial, C30_unchanged, C30_range. Refuted: C30_constant_refuted.
* **C31 Change detection (CAT) finds the largest drop** (partial). Largest drop, first attained, total and after parts for all series with 16-bit drops; the before part lacks its last value, over-wide drops and the penalty order are refuted.
  Theorems: C31_largest_drop_partial. Refuted: C31_before_part_refuted, C31_range_refuted, C31_penalty_refuted.
* **C32 Noise screening terminates and only removes observations** (partial). Proved for every series: the filter ends within one round per observation, drops only observations of non-interpolated triplets, leaves at least three clear observations if it drops any, is idempotent and monotone with BELOW_NOISE = 0. Refuted as stated: BELOW_NOISE > 0 un-masks QAI-screened observations, and the outermost observation can be dropped.
  Theorems: C32_terminates_partial, C32_only_removes_partial, C32_removed_partial, C32_restored_partial, C32_idempotent. Refuted: C32_unmask_refuted, C32_outermost_refuted.
* **C33 Greyscale reconstruction computes the flooding fixpoint** (proved). Total: terminates without undefined behaviour for every image of at most 32768 rows and columns; on SUCCESS exact. C33_success_refuted shows a 6x6 image for which the queue is too small, FAILURE is returned and the marker is left too high (cloud-ll.c:843 ignores the return code).
  Theorems: C33_flooding, C33_never_below. Refuted: C33_success_refuted.
* **C34 Distance transform is the exact Euclidean distance** (proved). Exact squared distance for all images that meet the int bound; the parallel loops are run sequentially.
  Theorems: C34_exact, C34_zero, C34_empty.
* **C35 Buffering never removes pixels** (partial). Proved: no out-of-bounds access; everything within r of a TRUE pixel that is at least r away from the border becomes TRUE; every TRUE pixel of the result is less than r+1 away from an input TRUE pixel; r=0 copies. Refuted: TRUE pixels nearer than r to the border are lost; the painted shape exceeds the disc (r=4, sqrt 17).
  Theorems: C35_safe_partial, C35_covers_partial, C35_reach_partial, C35_zero_partial. Refuted: C35_border_refuted, C35_radius_refuted.
* **C36 Band subsetting keeps names and numbers aligned** (proved). For sensor sets with distinct band names and at least one needed band; C36_removal holds for every flag vector without that restriction. C36_nothing records that the program ends when no band is needed (reallocation to zero bytes).
  Theorems: C36_removal, C36_selection, C36_adjusted, C36_nothing.
* **C37 Clear-sky observation windows tile the time range** (partial). Windows, NUM, the gaps and MIN/MAX/RNG/AVG are right; the remaining metrics are right when every window has a clear observation on its first day and none on the same day. Refuted: the last month is dropped whenever MONTH_STEP divides the month difference; STD/SKW/KRT/quantiles use the number of observations instead of the number of gaps.
  Theorems: C37_windows, C37_acquisitions, C37_simple_partial, C37_gaps, C37_spread_partial. Refuted: C37_last_month_refuted, C37_one_observation_refuted, C37_std_refuted, C37_quantile_refuted, C37_empty_quantile_refuted, C37_stale_refuted.
* **C38 Every sample point is extracted exactly once** (partial). As written the property is false: get_brick_y adds the row offset, so the bounding box of every chunk is empty and no sample is ever extracted, with projected (C38_projected_refuted) or geographic coordinates (C38_geographic_refuted); positions exactly on tile borders right of / below the origin belong to no chunk (C38_border_refuted). What holds for arbitrary bounding boxes and warpers: located pixels contain the position, uniquely and, off the borders, completely (C38_pixel_partial); each row is recorded at most once, with the values of its pixel, and deactivated, and rows that stay active were reachable from no unit (C38_run_partial). Missing: exactly-once extraction, which is false.
  Theorems: C38_pixel_partial, C38_run_partial. Refuted: C38_projected_refuted, C38_geographic_refuted, C38_border_refuted.
* **C39 Datacube definition survives being written and read** (partial). Round trip exact for one-word projections and numbers with six decimals (atof axiomatised by a hypothesis, instance given). Refuted: a projection with a blank is cut at it (so the file written from real WKT reads back cut), more decimals are rounded, copying an old-format definition cuts it, a duplicate tag hides a missing one.
  Theorems: C39_roundtrip_partial, C39_first_word, C39_existing, C39_old_format, C39_incomplete_rejected. Refuted: C39_projection_refuted, C39_decimals_refuted, C39_copy_refuted, C39_incomplete_refuted.
* **C40 Path decomposition** (partial). False in full: the empty path and paths of slashes only read in front of the string (C40_root_refuted); with a trailing slash directory and basename do not belong together (C40_directory_refuted). Proved for every path that names something; recombination for paths without trailing slash.
  Theorems: C40_basename_partial, C40_recombine_partial. Refuted: C40_root_refuted, C40_directory_refuted.
* **C41 Parameter log never overflows its buffer** (partial). No out-of-bounds write of the log for any content behind the separator array, complete log if the text fits. False in full: vectors with several values print an array without NUL (C41_vector_refuted), overflow by the last value is cut silently (C41_cut_refuted).
  Theorems: C41_bounds_partial, C41_complete_partial. Refuted: C41_vector_refuted, C41_cut_refuted.
* **C42 Connected components** (partial). Proved for every image: no access outside of the arrays, background 0, labels within 1..n, equal labels imply 8-connected; object sizes are exact. Missing: termination of the contour following and connected implies equal labels.
  Theorems: C42_labels_partial, C42_objects_partial.
* **C43 Majority fill** (partial). Every interleaving of single reads and writes: monotone, filled pixels have five TRUE neighbours in the result, unfilled ones had fewer in the input, no out-of-bounds access. Schedule independence is refuted.
  Theorems: C43_safe_partial, C43_fill_partial. Refuted: C43_schedule_refuted.
* **C44 Tables are read completely and regularly** (partial). Regular tables read completely for every size (C44_regular), irregular rows rejected, lookup by name, mean/sd/sum exact (real arithmetic). Refuted: a header with another number of names is accepted with names dropped or left empty; minimum (maximum) of columns entirely above 32767 (below -32768) is the constant.
  Theorems: C44_regular, C44_irregular, C44_find, C44_statistics_partial. Refuted: C44_header_refuted, C44_minimum_refuted, C44_maximum_refuted.
* **C45 Every requested metric gets its own output band** (partial). Positions of all metrics proved for at most 100 quantiles; refuted: duplicated metrics leave the observation count in the first band, a 101st quantile is written out of bounds.
  Theorems: C45_layout_partial. Refuted: C45_duplicate_refuted, C45_quantiles_refuted.
* **C46 Noise screening keeps a series without noise** (partial). Proved for whole-number slopes and distinct days. Refuted for other slopes (integer division of the slope) and for several observations on one day (residual taken from (right-left)/2).
  Theorems: C46_line_partial. Refuted: C46_line_refuted, C46_constant_refuted.
* **C47 The margin of a chunk is taken from the neighbouring chunks and tiles** (partial). Exact for the chunk and all its margin for every cube, except the margin to the left unless the tile has one column of chunks or the chunk is in the second one. C47_left says what the left margin shows in general (always the first column of chunks), C47_left_margin_refuted: with two columns of chunks the left margin of the first chunk comes from the middle of the tile to the left. Cause: read-ard-hl.c line 1000 does not add the position of the chunk.
  Theorems: C47_margin_partial, C47_left, C47_no_margin, C47_values_kept. Refuted: C47_left_margin_refuted.
* **C48 Cropping a product returns its inner part** (partial). Exact for short values and undoes the margin of C47. C48_types_refuted: for every other pixel type every crop writes out of bounds (C48_other_types; brick_base-cl.c:467-507 swap the indices). The output bricks of the repository are short.
  Theorems: C48_crop_partial, C48_undoes_margin, C48_other_types. Refuted: C48_types_refuted.
* **C49 The season and the folding periods follow DOY_RANGE** (partial). Days exact for every season whose first and last day differ; periods and fold dates exact for every season. C49_one_day_refuted: a season of one day uses the whole year (C49_one_day, param-hl.c:1056 tests < and not <=).
  Theorems: C49_days_partial, C49_one_day, C49_periods, C49_folds. Refuted: C49_one_day_refuted.
* **C50 Exactly the requested images of a tile are listed** (partial). C50_selection and C50_chronological are exact for every directory in which the images of the product and sensors start with a date, where product and sensor match anywhere in the name. C50_regular_names_partial: for regular names that is equality of product and sensor. C50_product_refuted: a longer product name is taken as well. C50_other_names_exit: one file with the product and sensor in its name but without a date ends the program.
  Theorems: C50_selection, C50_chronological, C50_other_names_exit, C50_regular_names_partial. Refuted: C50_product_refuted.
* **C51 Exactly the bands that all sensors share are processed** (proved). Sensor definitions are a map from names to band names (JSON parsing not modelled).
  Theorems: C51_common_bands, C51_incompatible_fails, C51_unknown_sensor_fails, C51_target_bands.
* **C52 With spectral adjustment all bands of all sensors are processed** (partial). False: retrieve_sensor allocates its tables before it appends SEN2A to the sensors, so every run with spectral adjustment writes behind both tables (C52_adjusted_refuted). The union itself is right (C52_union_partial).
  Theorems: C52_union_partial. Refuted: C52_adjusted_refuted.
* **C53 The best-available-pixel composite shows the best usable observation** (proved). Floats are real numbers, the fit of the sigmoids (GSL) is a parameter. The scores are specified in BapSpec.v by closed formulas.
  Theorems: C53_pixel_shows_best_observation.
* **C54 The scores follow the configured functions** (proved). As C53; for declines and rises only range and zero outside the season are stated since the sigmoids are fitted by GSL.
  Theorems: C54_scores_follow_the_parameters, C54_bell_through_configured_points, C54_closer_is_better, C54_sigmoid_half_way.
* **C55 Every accepted parameter file defines the composite** (partial). False for accepted files: DOY_SCORE with the smallest score in the middle gives NaN scores and index -1 (C55_valley_refuted), Y_FACTOR = 0 converts infinity to int (C55_zero_factor_refuted), SELECT = FALSE with OUTPUT_BAP = FALSE writes through NULL (C55_average_without_output_refuted). Holds for the parameters described by sane in BapSpec.v.
  Theorems: C55_composite_defined_partial. Refuted: C55_valley_refuted, C55_zero_factor_refuted, C55_average_without_output_refuted.
* **C56 Averaging weighs all usable observations by their score** (proved). As C53.
  Theorems: C56_pixel_averages_observations, C56_average_between_extremes.
* **C57 A composite pixel does not depend on the pixels before it** (proved). As C53; for first target years before 1901 targets before 1900 would keep stale scores.
  Theorems: C57_pixel_independent_of_history.
* **C58 The correlation score compares an observation with all others** (proved). Floats are real numbers.
  Theorems: C58_correlation_with_the_others.
* **C59 A weight of zero takes a score out of the ranking but keeps the observations** (partial). False for the DOY score: with SCORE_DOY_WEIGHT = 0 and OFF_SEASON = FALSE no observation is ever used (C59_zero_doy_weight_refuted).
  Theorems: C59_zero_weights_keep_observations_partial. Refuted: C59_zero_doy_weight_refuted.
* **C60 Spectral indices follow their documented formulas** (proved). Floating-point operations are modelled as correctly rounded real operations. Wavelength constants and tasseled cap coefficients are float constants.
  Theorems: C60_indices_follow_their_formulas, C60_outside_the_mask, C60_plain_band.
* **C61 Every index of the shipped list can be computed** (partial). False for NDVIre1n: the program compares with NDVIren, the shipped list has NDVIre1n (C61_ndvire1n_refuted); kNDVI stores nodata when one reflectance is zero though the formula is defined (C61_kndvi_of_zero_refuted). Holds for all other names.
  Theorems: C61_shipped_indices_accepted_partial, C61_missing_band. Refuted: C61_ndvire1n_refuted, C61_kndvi_of_zero_refuted.
* **C62 Index computation is defined for every valid observation** (partial). False: EVI, ARVI, SARVI with a tiny denominator, TC-DI of bright pixels with dark near infrared, and MSRre with negative reflectances convert out of range numbers (C62_*_refuted). All other indices are proved defined.
  Theorems: C62_ratios_always_defined_partial, C62_defined_within_range_partial. Refuted: C62_evi_overflow_refuted, C62_arvi_overflow_refuted, C62_sarvi_overflow_refuted, C62_tcdi_overflow_refuted, C62_msrre_of_negative_refuted.
* **C63 Normalized differences behave as such** (proved). For the function computing one value; the series is covered by C60.
  Theorems: C63_normalized_difference_within_one, C63_antisymmetric, C63_scale_invariant, C63_monotone.
* **C64 A valid index value is not mistaken for nodata** (partial). False for TC-WET: a valid observation is stored as -9999 (C64_wetness_refuted). Holds for normalized differences of reflectances between 0 and 1 and for kNDVI.
  Theorems: C64_normalized_difference_is_never_nodata_partial, C64_kernel_index_is_never_nodata_partial. Refuted: C64_wetness_refuted.
* **C65 Quality of a pixel merged from many images does not depend on their order** (proved). Illumination is excluded from the worst-of-all statement because the code takes the minimum there (C08_merge_illumination_refuted); the order statement covers all flags.
  Theorems: C65_merge_in_any_order, C65_merge_worst_of_all, C65_clear_only_if_all_clear.
* **C66 The tile list decides which tiles are processed** (proved). Consequence of C14 for well-formed list files; tile numbers that need more than four characters are misread (C14_wide_tile_number_refuted).
  Theorems: C66_listed_tiles_are_processed, C66_same_tiles_same_result.
* **C67 Every chunk of every tile is processed exactly once** (proved). Joins C17 and C18; more than 2^24 units are excluded because of C18_many_units_refuted.
  Theorems: C67_every_chunk_once.
* **C68 Printed dates are read back** (proved). The calendar has 365-day years, 29 February is not a day of it (C03_leap_day_refuted).
  Theorems: C68_printed_dates_are_read_back, C68_texts_differ.
* **C69 A parameter file is accepted exactly if all parameters are given correctly** (proved). Joins C23 and C24 for the text of a file; the numeric conversions atof are parameters. NaN and incomplete dates are excluded (C23_nan_refuted, C24_short_date_refuted).
  Theorems: C69_file_accepted_iff.
* **C70 Mode, number of classes and histogram of an image do not depend on the order of its pixels** (proved). Consequence of C22, whose overflow cannot occur for 16-bit values.
  Theorems: C70_statistics_of_images, C70_order_of_pixels.
* **C71 Noise removal without restoring ends and is stable** (proved). C32 without its refuted part: restoring needs BELOW_NOISE > 0. The result is shown to be independent of the fuel of the model.
  Theorems: C71_filter_without_restoring.
* **C72 Linear interpolation of reflectances is exact and monotone between observations** (proved). C25 for realistic series; the bound on the gap excludes C25_long_gap_refuted.
  Theorems: C72_reflectance_series, C72_monotone_between.
* **C73 Landscape metrics describe the patches around each pixel** (proved). Against definitions over the set of foreground pixels; float arithmetic as reals.
  Theorems: C73_metrics_of_the_window, C73_no_memory_of_other_pixels, C73_segmentation.
* **C74 Landscape metrics are in their range and follow the usual definitions** (partial). Ranges proved. Refuted: effective mesh size squares the total area; maximum starts at 0, so negative values give 0.
  Theorems: C74_ranges. Refuted: C74_effective_mesh_size_refuted, C74_maximum_refuted.
* **C75 Every requested landscape metric exists for every requested pixel** (partial). Proved for MPA, EDD, EMS, AVG, MAX, ARE. Refuted for STD, GEO, FDI in degenerate windows, and for tiles without any patch; binary32 single-pixel test depends on the radius.
  Theorems: C75_defined_partial. Refuted: C75_standard_deviation_refuted, C75_geometric_mean_refuted, C75_fractal_dimension_refuted, C75_fractal_range_refuted, C75_all_pixels_refuted, C75_single_pixels_refuted.
* **C76 The terms of the radiative transfer are physical** (proved). Over the reals; path reflectance only for single scattering.
  Theorems: C76_transmittances, C76_more_aerosol_less_light, C76_spherical_albedo, C76_surroundings, C76_scattering_angle, C76_illumination, C76_phase_functions, C76_single_scattering, C76_water_vapour, C76_ozone, C76_ozone_amount, C76_fresnel, C76_elevation.
* **C77 Atmospheric correction undoes the effect of the atmosphere** (partial). Over the reals. Inversion, uniqueness, flags and clamping hold; refuted: the two branches apply the gas transmittance differently (to the path reflectance in one, not in the other), so a uniform scene gives two different reflectances; refuted: reflectance between -1 and -0.9999 is stored as -9999 without switching the pixel off.
  Theorems: C77_inverts_uniform_scene, C77_inverts_target, C77_brighter_is_brighter, C77_pixel, C77_pixel_in_background, C77_off_pixel. Refuted: C77_branches_agree_refuted, C77_nodata_means_off_refuted.
* **C78 Values between the cells of a coarse grid come from its valid cells** (partial). Holds away from the left and right border, and everywhere if all cells around are valid; refuted at the left and right border, where a cell without data keeps half of the weight.
  Theorems: C78_between_valid_cells_partial, C78_no_valid_cell, C78_linear_fields. Refuted: C78_border_refuted.
* **C79 Without atmospheric correction the reflectance is passed through** (partial). The value is off by at most 1; refuted: 1 becomes 0 (half of all values lose 1).
  Theorems: C79_off_by_at_most_one_partial. Refuted: C79_unchanged_refuted.
* **C80 Background reflectance is an average of the scene** (partial). Holds for clear pixels (and nodata gives 0); refuted for clouds in columns without clear pixels, which are mixed with 0. Over the reals; the reflectance without adjacency correction is the input.
  Theorems: C80_within_clear_pixels_partial, C80_uniform_scene. Refuted: C80_clouds_refuted.
* **C81 Topographic correction leaves flat terrain alone** (partial). Flat terrain, sign, monotony and shadow hold; refuted: the ratio of the band itself is read instead of that of SWIR2, so the C factor is not carried.
  Theorems: C81_flat_terrain, C81_positive_and_decreasing, C81_no_direct_light, C81_factor_partial. Refuted: C81_carried_refuted.
* **C82 Phenological dates and values are those of observations** (partial). Every event is an observation of the series; refuted: the date is one day early for the day numbers listed in PolSpec.lost_days, because the day is cut, not rounded, after a trip through radians.
  Theorems: C82_events_are_observations_partial, C82_day_of_observation_partial. Refuted: C82_day_lost_refuted.
* **C83 Phenological seasons begin on the same day of every year** (partial). Holds when the series begins no later than one step after the start day; refuted: a later series has no first season and the metrics are undefined.
  Theorems: C83_seasons_by_date_partial. Refuted: C83_late_series_refuted.
* **C84 Phenological dates are in order** (proved). For series of up to 88 years, step widths 1 to 364 days and thresholds in order (the order is not checked when the parameter file is read).
  Theorems: C84_dates_in_order.
* **C85 The peak is the highest value of the season** (proved). The amplitude for series without nodata inside.
  Theorems: C85_peak_is_highest, C85_peak_amplitude.
* **C86 Integrals of a season add up** (partial). The sum holds for step widths up to 255 days; refuted: the integral of the rising rates overflows the stored 16 bits for a series that swings between extremes.
  Theorems: C86_integrals_add_up. Refuted: C86_rising_integral_refuted.
* **C87 Phenology is written for the years that are complete and nodata stays nodata** (partial). Refuted: polar coordinates requested alone are cancelled; refuted: their series is 0, not nodata, for pixels without data.
  Theorems: C87_years, C87_no_data. Refuted: C87_coordinates_alone_refuted, C87_coordinates_of_no_data_refuted.
* **C88 Lengths of phenological periods are differences of dates** (partial). Lengths and vector dates hold; the shift is bounded for adaptive seasons; refuted: for fixed seasons the shift is minus the start date instead of 0.
  Theorems: C88_lengths, C88_vector_dates, C88_start_shift_partial. Refuted: C88_start_shift_fixed_refuted.
* **C89 Phenology is computed for all pixels with data** (partial). Refuted: a pixel that is never positive has no season with a peak and its metrics are undefined. A pixel that gets metrics has a positive or missing observation.
  Theorems: C89_seasons_have_values_partial. Refuted: C89_never_positive_refuted.
* **C90 ImproPhe predictions are weighted means of similar pixels nearby** (proved). All scenes, radii and positions in real arithmetic; the weights are given by the specification; also what happens without candidates or coarse data.
  Theorems: C90_prediction, C90_within_neighbours, C90_uniform, C90_similar_weigh_more, C90_no_similar_pixel, C90_missing_coarse.
* **C91 Seasonal averages use the observations of the season** (partial). Seasons without a year, and ascending breakpoints with a year; the last day of the year with the default breakpoints, and windows that cross the turn of the year for a given year, are refuted.
  Theorems: C91_season_average_partial, C91_masked. Refuted: C91_last_day_refuted, C91_year_refuted.
* **C92 ImproPhe products hold predictions, originals or nodata** (partial). Level 2 ImproPhe for pixels with all bands; refuted: without fine data the mask is ignored, a pixel lacking a band becomes 0, continuous fields are 0 instead of nodata off the mask and after a year without data.
  Theorems: C92_product_partial, C92_fields_partial. Refuted: C92_no_fine_refuted, C92_missing_band_refuted, C92_missing_first_band_refuted, C92_fields_refuted.
* **C93 ImproPhe texture and standardization** (partial). Texture in full; standardization for images with at least two different values, constant images become not a number (refuted).
  Theorems: C93_largest_deviation, C93_uniform, C93_standardized. Refuted: C93_constant_refuted.
* **C94 Library completeness is the distance to the closest library entry** (partial). Smallest distances, exact match; the monotony only without rescaling (refuted with it); a constant feature with rescaling voids the library (refuted).
  Theorems: C94_closest_entry, C94_nothing_to_compare, C94_exact_match, C94_more_entries. Refuted: C94_more_entries_refuted, C94_constant_feature_refuted.
* **C95 Texture is grey-scale morphology** (partial). Laws for all images; blocks overlap by half of what opening and closing need (refuted), missing values take part (refuted), the mask is unused without exclusion (refuted).
  Theorems: C95_structuring_element, C95_erosion_dilation, C95_order, C95_idempotent, C95_monotone, C95_written, C95_strips_partial, C95_mask_unused. Refuted: C95_strips_refuted, C95_only_valid_pixels_refuted, C95_mask_refuted.
* **C96 force-hist counts every class** (proved). All images of 16-bit integers; the counters do not wrap in the model.
  Theorems: C96_histogram, C96_counts, C96_no_nodata.
* **C97 force-stratified-sample draws the requested sample** (partial). Proved: every point is the centre of a pixel of its class, no pixel twice, never more than requested, exact size and smallest numbers when the preselected pixels fit the memory (with a corollary free of the preselection). Refuted: a draw of zero samples classes that were not requested; the size is not guaranteed although there are enough pixels; when more pixels are preselected than fit, another class can lose its points; the output format option is always refused.
  Theorems: C97_points_are_pixels, C97_at_most, C97_size_partial, C97_only_requested_partial, C97_size_large_share_partial, C97_output_without_format. Refuted: C97_unrequested_refuted, C97_size_refuted, C97_overflow_refuted, C97_format_refuted.
* **C98 Tile grid and tile finder agree with the data cube** (partial). Grid proved for the projected box, finder for points inside of tiles. Refuted: the geographic box need not be covered; on tile borders right of or below the origin the pixel lies outside of the tile.
  Theorems: C98_covers_box, C98_touch_box, C98_tiles_disjoint, C98_finder_partial. Refuted: C98_geographic_box_refuted, C98_finder_border_refuted.
* **C99 force-stack stacks all bands in a defined order** (partial). Completeness, order and the tests of directory and size proved. Refuted: images at different positions are stacked.
  Theorems: C99_all_bands, C99_order, C99_refuses. Refuted: C99_position_refuted.
* **C100 Regression blends the models of its own model set** (partial). Proved for every set of at least one model when no uncertainty is written, or of at least two; number of models is unique, and all of them with threshold 0. Refuted: with one model the uncertainty is 0/0 converted to a short.
  Theorems: C100_regression, C100_no_threshold, C100_stop_unique. Refuted: C100_single_model_refuted.
* **C101 Classification takes the majority of the models** (partial). Proved for labels within 16 bit and for forests whose models all have the number of columns of the set. Refuted: models of a set with different numbers of classes read outside of the vote table.
  Theorems: C101_label, C101_forest_label. Refuted: C101_classes_differ_refuted.
* **C102 Random forest probabilities and margin reflect the votes** (partial). Probability within one unit of the rounded-down share of the pooled votes, exact unless the share is an integer; sum at most 10000; margin within one unit if the two largest differ by two units. Refuted: unanimous forest of three trees gets 9999; equal votes give a margin of 5000; bands mix classes if models have different labels. Pooled share differs from the mean of the models.
  Theorems: C102_probability_partial, C102_margin_partial, C102_pooled. Refuted: C102_unanimous_refuted, C102_tie_refuted, C102_labels_differ_refuted.
* **C103 Pixels without valid input have no prediction** (proved). Nodata in all products, number of bands kept; otherwise 1 to all models. Invalid features are used if not excluded.
  Theorems: C103_nodata, C103_predicted, C103_invalid_ignored.
* **C104 Tiling a Level 2 image loses and moves no pixel** (partial). Content, place, uniqueness and choice of the written tiles proved for images on the pixel grid; refuted: extent from four corners can miss bulging edges (C104_extent_refuted), images off the grid are shifted by less than a pixel (C104_unaligned_partial, _refuted), the quicklook tiles get the pixel size of the first product (C104_pixel_size_refuted).
  Theorems: C104_tile_content, C104_written, C104_every_pixel, C104_unaligned_partial. Refuted: C104_extent_refuted, C104_unaligned_refuted, C104_pixel_size_refuted.
* **C105 The quicklook has the documented colours** (partial). Colours, bounds and monotony proved; refuted: the colours of nodata and clouds are not reserved (C105_unambiguous_refuted).
  Theorems: C105_colour, C105_monotone. Refuted: C105_unambiguous_refuted.
* **C106 Level 2 tiles hold whole pixels** (partial). Holds when sizes and resolution are multiples of a unit above the tolerance (metres); refuted in degrees, where the absolute tolerance of 0.005 accepts anything fine.
  Theorems: C106_multiples_accepted, C106_only_multiples_partial. Refuted: C106_degrees_refuted, C106_fine_resolution_refuted.
* **C107 Inflated quality information is complete** (proved). All flags in order and lossless for words with the sign bit unset (it is never set by the quality functions).
  Theorems: C107_bands, C107_lossless.
* **C108 The cloud, shadow and snow flags cover the buffered detections** (partial). Final flags proved pixel by pixel for detections at least one buffer away from the image border; refuted at the border: a shadow there is not flagged, a confident cloud there becomes cirrus.
  Theorems: C108_flags_partial, C108_snow_partial. Refuted: C108_border_shadow_refuted, C108_border_cloud_refuted.
* **C109 The shadow detection uses both infrared bands and does not depend on the number of threads** (partial). Minimum of the two bands proved for more than one thread; refuted for NTHREAD = 1, where only the shortwave infrared counts.
  Theorems: C109_two_bands_partial. Refuted: C109_threads_refuted.
* **C110 MAX_CLOUD_COVER_FRAME skips exactly the images above the threshold** (partial). Exact up to 0.8 times the threshold; refuted above: 65% clouds are skipped with a threshold of 75%.
  Theorems: C110_skip_partial. Refuted: C110_threshold_refuted.
* **C111 The cloud distance is the distance to the nearest cloud, shadow or snow** (proved). Whole pixels rounded down times the resolution, and the image without clouds.
  Theorems: C111_distance, C111_clear.
* **C112 The tests for potential cloud, water and snow are defined and exact** (partial). Defined for non-negative reflectances with a visible sum above 0; water and snow tests agree with exact ratios; refuted: pixels black in the visible (NaN) and ratios above 1 from negative reflectance are undefined conversions.
  Theorems: C112_defined_partial, C112_water, C112_snow, C112_saturated, C112_cloud_is_bright. Refuted: C112_black_refuted, C112_negative_refuted.
* **C113 Sentinel-2 clouds grow into exactly the linked candidates** (proved). Region growing by queue, refinement, saturation and brightness.
  Theorems: C113_region_growing.
* **C114 Changing the resolution stays within the image** (partial). Even sizes; refuted for odd numbers of rows (write behind the end).
  Theorems: C114_even_partial. Refuted: C114_odd_refuted.
* **C115 A written product holds exactly the selected bands** (proved). Whole bricks with values of the data type; names under 1024 characters, no stale locks.
  Theorems: C115_files_hold_bands, C115_not_requested, C115_other_layout_refused.
* **C116 Several images of one day are combined pixel by pixel, whatever their order** (partial). Sequences follow the pixel rule, merged values lie between, repeating an image changes nothing, two images commute, quality images commute in any number; refuted: three averaged reflectance images depend on the order.
  Theorems: C116_sequence, C116_average_between, C116_again, C116_two_images_commute, C116_quality_any_order. Refuted: C116_three_images_refuted.
* **C117 A tile written in chunks is complete** (partial). Holds if the first chunk (0,0) is written first, in any order of the others; refuted when the first chunk has no data and is skipped (content of an earlier run stays, or cells stay unwritten) or is written late (erases the others).
  Theorems: C117_chunks_in_place_partial. Refuted: C117_skipped_first_chunk_refuted, C117_first_chunk_late_refuted.
* **C118 Processes that write the same file do not lose each other's data** (partial). Serializability, mutual exclusion, absence of deadlock without failure; refuted: a failing writer keeps its lock file and blocks all later writers.
  Theorems: C118_one_after_the_other, C118_all_data_arrive, C118_mutual_exclusion, C118_no_deadlock_partial. Refuted: C118_failure_blocks_refuted, C118_failed_write_refuses_next_refuted.
* **C119 A higher level product that could not be written is reported** (partial). Reported bytes are those of all requested products; refuted: a product that failed to be written is counted and the run is reported as successful.
  Theorems: C119_reported_bytes_partial. Refuted: C119_failure_reported_refuted.
* **C120 The provenance file lists every written file once per run with its inputs** (partial). One line per file for whole bricks and for chunked tiles that begin with chunk (0,0); refuted: a tile whose first chunk is skipped has a file without a line.
  Theorems: C120_one_line_per_file, C120_one_line_per_tile_partial. Refuted: C120_skipped_first_chunk_refuted.
* **C121 All GDAL options of the options file are used** (partial). Driver, extension and all options in order if there is at least one option; refuted: driver and extension alone end the program.
  Theorems: C121_options_kept_partial. Refuted: C121_no_options_refuted.
* **C122 Nodata and saturated pixels of a Level 1 image are found** (partial). Missing: zeros behind a saturated band are not seen (C122_hidden_zero_refuted); with the buffer, void pixels at the image border become valid (C122_buffered_border_refuted).
  Theorems: C122_masks_partial, C122_buffer_partial, C122_thermal_partial. Refuted: C122_hidden_zero_refuted, C122_buffered_border_refuted.
* **C123 The impulse noise filter removes exactly the pixels where one visible band stands out** (partial). Exact except where blue is the noisiest band (C123_blue_refuted: noise missed) or red lies between blue and green (C123_two_bands_refuted: false detection). Standard deviations in exact arithmetic.
  Theorems: C123_only_on_request, C123_screening_partial. Refuted: C123_blue_refuted, C123_two_bands_refuted.
* **C124 Sentinel-2 digital numbers are stored as reflectance without loss** (partial). The stored value is the number or one closer to zero (C124_unchanged_refuted: 7 is stored as 6); above 32767 undefined (C124_defined_refuted).
  Theorems: C124_stored_partial. Refuted: C124_unchanged_refuted, C124_defined_refuted.
* **C125 Landsat digital numbers become reflectance and temperature** (partial). Within 1.1 units in the usual range, monotone, nodata rule; reflectance above 3.2767 is undefined (C125_bright_refuted), earlier bands of a nodata pixel keep their values (C125_all_bands_refuted).
  Theorems: C125_nodata, C125_reflectance_monotone, C125_reflectance_partial, C125_temperature_monotone, C125_temperature_close. Refuted: C125_bright_refuted, C125_all_bands_refuted.
* **C126 Every pixel has its cell in the coarse grid of the atmospheric correction** (partial). Every pixel has its cell; a cell may be without pixels (C126_empty_cell_refuted).
  Theorems: C126_cell_in_grid. Refuted: C126_empty_cell_refuted.
* **C127 Reducing the resolution with a point spread function gives weighted means** (partial). Whole numbered ratios up to 1000: nodata rule and bounds, cut towards zero. Refuted: a uniform area of 1 becomes 0, 10000 is lost when nodata is 1, chunk borders change values.
  Theorems: C127_values_partial, C127_valid_where_data, C127_inside, C127_inside_any_ratio. Refuted: C127_uniform_refuted, C127_nodata_refuted, C127_chunks_refuted.
* **C128 The point spread function is a Gaussian as wide as the coarse pixel** (proved). Search and kernel over the reals, entries rounded to float.
  Theorems: C128_half_width, C128_kernel.
* **C129 The interpolated series covers the period in steps of INT_DAY** (partial). proved: the bands are the step days whose whole step lies in the period; refuted: the last, shorter step has no band
  Theorems: C129_days_partial, C129_filled. Refuted: C129_last_step_refuted.
* **C130 The bands of the near real time product carry the dates of the recent images** (partial). proved for images in chronological order; refuted for other orders (labels are taken from the end of the list)
  Theorems: C130_labels_partial. Refuted: C130_order_refuted.
* **C131 The time series analysis writes exactly the requested products** (partial). files, sources in memory and completeness proved; refuted: an empty near real time product suppresses all products; an index given twice gives the same file twice
  Theorems: C131_files_partial, C131_sources, C131_complete_partial, C131_nothing. Refuted: C131_nothing_refuted, C131_same_index_refuted.
* **C132 Harmonic interpolation follows a harmonic curve fitted to the observations of the fit period** (partial). proved for any regression, doubles as reals; refuted: near real time residual of pixels without fit is 0, not nodata. Missing: quality of the regression
  Theorems: C132_curve_partial, C132_fit_range, C132_season, C132_too_few. Refuted: C132_nrt_nodata_refuted.
* **C133 The bands of the folded series are labelled with the periods they summarise** (proved). labels and dates of the bands for all seasons
  Theorems: C133_seasonal, C133_years.
* **C134 Spectral adjustment replaces each band with a weighted mean of regression predictions and touches nothing else** (partial). Angles in rounded doubles, predictions in real numbers. Full statement up to: undefined if a mean does not fit into 16 bits, or if the pixel is at 15 degrees (within 1e-10) from the global centre and no cluster is similar, where the weights may sum up to zero.
  Theorems: C134_angle, C134_value_partial, C134_between, C134_untouched, C134_image.
* **C135 Spectral adjustment uses the most similar clusters** (partial). Holds if the nearest centre is neither the tenth nor the global one, or if nothing is similar. Refuted otherwise with the centres of the code.
  Theorems: C135_clusters_partial, C135_far_partial. Refuted: C135_nine_refuted, C135_global_refuted.
* **C136 Slope, aspect and illumination are those of the terrain** (proved). real arithmetic for angles and gradients
  Theorems: C136_plane, C136_defined, C136_illumination.
* **C137 Missing elevations: sea is filled, everything else is masked, borders take over from inside** (partial). sea and borders proved for column-then-row runs; sea connected otherwise stays nodata (refuted); slope flag at borders refuted
  Theorems: C137_ocean_partial, C137_smooth, C137_borders. Refuted: C137_ocean_refuted, C137_flag_refuted.
* **C138 Elevation classes are valid rows of the correction tables** (proved). with single and double precision rounding
  Theorems: C138_classes, C138_refused.
* **C139 The topographic correction factor stays in range and is never below the theoretical factor** (proved). regression is a parameter; real arithmetic
  Theorems: C139_sample, C139_factor, C139_stored.
* **C140 Principal components are a centred, isometric image of the bands that keeps the requested variance** (partial). Refuted: pixels missing in some bands shift the mean (C140_centred_refuted); the data are projected on rows of the eigenvector matrix, so the kept components need not hold the requested variance (C140_variance_refuted). The eigen decomposition (GSL) is an input.
  Theorems: C140_missing, C140_count, C140_distance, C140_centred_partial, C140_total. Refuted: C140_centred_refuted, C140_variance_refuted.
* **C141 The BRDF correction normalises to nadir view and the standard sun** (proved). Real arithmetic; the standard sun zenith is an input.
  Theorems: C141_reciprocal, C141_mirror, C141_turn, C141_positive, C141_length, C141_unknown, C141_standard, C141_normalised, C141_published, C141_same_nir, C141_second.
* **C142 Floating point comparison, digit count and readable sizes** (proved). Rounded arithmetic on finite numbers. Beyond 2^23 neighbouring integers count as equal (C142_large_refuted).
  Theorems: C142_reflexive, C142_symmetric, C142_zero, C142_integers, C142_close, C142_digits, C142_digits_unique, C142_size. Refuted: C142_large_refuted.
* **C143 Cloud shadows lie where sun and sensor put them** (partial). Positions in real numbers. Refuted: the search ends (C143_night_refuted: endless with the sun below the horizon; C143_sun_up and C143_ends: it ends otherwise), the similarity is a fraction (C143_fraction_refuted), every cloud gets a shadow (C143_sampling_refuted).
  Theorems: C143_position, C143_hidden, C143_on_the_ground, C143_shadow_of_cloud, C143_excellent, C143_best, C143_none, C143_ends, C143_sun_up. Refuted: C143_night_refuted, C143_fraction_refuted, C143_sampling_refuted.
* **C144 View angles point to the nadir line of the image** (partial). Angles in real numbers; geographic coordinates of the midpoints taken to scale. Masked cells proved for 10 m pixels; refuted: no pixel of another cell is masked (C144_masked_only_refuted).
  Theorems: C144_corners, C144_zenith, C144_azimuth, C144_masked_partial. Refuted: C144_masked_only_refuted.
* **C145 The time of the sun position is the time of the overpass** (partial). Times in real numbers, Julian date in floats. Refuted: the day on 1 January east of 150 degrees (C145_new_year_refuted), telling hours apart (C145_time_refuted: quarter of a day).
  Theorems: C145_gmt_partial, C145_overpass, C145_overpass_time, C145_julian, C145_float. Refuted: C145_new_year_refuted, C145_time_refuted.
* **C146 Sharpening with ImproPhe averages similar neighbours** (partial). Real numbers. Refuted in double arithmetic: a pixel without similar neighbours keeps its value (C146_kept_refuted: 3 becomes 2).
  Theorems: C146_mean, C146_range, C146_masked. Refuted: C146_kept_refuted.
* **C147 Sharpening with STARFM predicts every pixel from similar pixels** (partial). Real numbers; the width of the similarity classes is an input. Blocks proved for images without nodata; refuted with nodata elsewhere (C147_blocks_refuted: the number of the block is taken for the pixel).
  Theorems: C147_mean, C147_blocks_partial. Refuted: C147_blocks_refuted.
* **C148 Sharpening with regression does not depend on the order of processing** (partial). The fit is any solution of least squares; shown for uniform fine bands. Refuted: independence of the order of the rows (C148_order_refuted).
  Theorems: C148_masked_partial, C148_uniform_partial. Refuted: C148_order_refuted.
* **C149 All images of a chunk are read with their quality, or an error is reported** (partial). All assignments of dates to threads; clear sky observations without quality product follow a null pointer (C149_no_quality_refuted).
  Theorems: C149_read, C149_modules. Refuted: C149_no_quality_refuted.
* **C150 The processing mask and the features select the pixels** (partial). Holds for masks of 8 bits; a 16 bit mask value of 257 counts as 1 (C150_wide_mask_refuted).
  Theorems: C150_mask, C150_no_mask, C150_input, C150_features. Refuted: C150_wide_mask_refuted.
* **C151 Every higher level module can be configured** (partial). Modules with one set of sensors: accepted exactly when the sensors suit the target. Level 2 ImproPhe never is, because no parameter sets the target of its second sensors (C151_second_input_refuted).
  Theorems: C151_one_input_partial. Refuted: C151_second_input_refuted.
* **C152 The water vapour of a coordinate is the mean of its clear pixels** (partial). Proved for granules whose pixels all have a block of locations; refuted for the sizes of MODIS granules, and across the date line.
  Theorems: C152_average_partial, C152_bits. Refuted: C152_modis_size_refuted, C152_wrong_block_refuted, C152_date_line_refuted.
* **C153 The table of a day holds the better sensor for each coordinate** (proved). Choice per coordinate, commissioning of Aqua, when a table is written.
  Theorems: C153_choice, C153_aqua, C153_table.
* **C154 Daily tables are made for each day of a period, monthly tables hold the statistics of their days** (partial). Proved for existing days in order; refuted: two kinds of accepted periods that never end. Climatology proved in full.
  Theorems: C154_days_partial, C154_climatology, C154_mismatch. Refuted: C154_order_refuted, C154_end_refuted.
* **C155 A Landsat scene uses the nearest water vapour of its day** (partial). Nearest value of the day, then of the month, failure without any; refuted: strict mode, 9999 in both tables, blank lines.
  Theorems: C155_constant, C155_daily, C155_climatology, C155_none. Refuted: C155_strict_refuted, C155_nodata_refuted, C155_blank_refuted.
* **C156 Outlines of granules keep their corners across the date line** (proved). Unwrapping, ring order and selection of granules.
  Theorems: C156_unwrap, C156_datum, C156_reorder, C156_kept.
* **C157 Clouds of Landsat scenes are the bright candidates that are cold enough** (partial). C157_mask_partial needs one configured thread or a team of two; C157_team_refuted: with a team of one the water part is never computed. The other theorems settle decision, formulas, quantiles and monotony for every image. Quantiles of GSL are exact reals.
  Theorems: C157_quantile, C157_denominator, C157_monotone, C157_colder, C157_warm, C157_land, C157_water, C157_decision, C157_sure, C157_only, C157_no_clear_water, C157_no_land, C157_mask_partial. Refuted: C157_team_refuted.
* **C158 The Sentinel-2 mask follows the displacement index** (partial). C158_mask: from the ratios to the mask; doubles exact, the index rounded to float, ratios are numbers. The last part of the statement is false: C158_flat_refuted, cells where neither ratio varies have the index 0/0.
  Theorems: C158_index, C158_bounds, C158_sign, C158_mask. Refuted: C158_flat_refuted.
* **C159 Water vapour of Sentinel-2 is complete and consistent** (partial). Map, table and threads are proved; the transmittance of a pixel is that of its water vapour only if the first pixel of its block is valid (C159_gas_partial, C159_gas_edge), refuted otherwise (C159_gas_edge_refuted).
  Theorems: C159_table, C159_map, C159_threads, C159_gas_partial, C159_gas_edge. Refuted: C159_gas_edge_refuted, C159_size_refuted.
* **C160 Bulk processing treats every queued image once and records it** (partial). Proved for images that exist and plain paths none of which is the end of another; cleaning and jobs in full. Refuted: missing images stay QUEUED, paths that end like another, QUEUED in a directory name, '+' in a path, images queued during the cleaning are lost.
  Theorems: C160_layout, C160_jobs, C160_history_partial, C160_recorded_partial, C160_resume_partial, C160_complete_partial. Refuted: C160_missing_refuted, C160_suffix_refuted, C160_name_refuted, C160_plus_refuted, C160_unlocked_refuted.
* **C161 Images that are processed at the same time do not share files** (partial). True for different base names (up to the extension); refuted for equal names in different directories, and for an archive and its directory.
  Theorems: C161_log, C161_directories_partial. Refuted: C161_same_name_refuted, C161_kinds_refuted.
* **C162 Exactly the newest version of each matching scene is downloaded** (partial). Proved per tile and day, for Landsat with path numbers of fixed width. Refuted: two sensing times of one tile and day; path and row are joined without separator. The text filters of sensor, tile and tier are an input.
  Theorems: C162_sentinel2_partial, C162_landsat_partial, C162_landsat_padded_partial. Refuted: C162_same_day_refuted, C162_concatenated_refuted.
* **C163 Every downloaded scene is queued once, across interruptions** (partial). Only complete scenes are queued, whatever the interruptions; all are queued if interruptions fall into a transfer or behind the queueing. Refuted: interruption between two files, or between last file and queue.
  Theorems: C163_queued_complete, C163_resume_partial. Refuted: C163_unqueued_refuted, C163_truncated_refuted.
* **C164 Samples are split into training and validation without loss** (partial). Split and drawing for all samples and draws; the number is exact for whole percentages, and in range for any, of up to 167772 samples. Refuted: 100 % of 671089 samples leave one out, of 16777219 samples are more than there are, and if no sample is left for training the first row is read nevertheless.
  Theorems: C164_split, C164_ends, C164_ordered, C164_percent_partial, C164_number_partial. Refuted: C164_all_refuted, C164_more_refuted, C164_none_refuted.
* **C165 Class weights follow the number of samples** (partial). Weights as exact reals, for classes whose differences fit an int. Refuted: classes without training sample get a weight, so that there are more weights than trained classes; overflow of the comparison.
  Theorems: C165_proportional_partial, C165_antiproportional_partial, C165_custom_partial, C165_none. Refuted: C165_training_refuted, C165_overflow_refuted.
* **C166 Every run leaves the citations it asks for** (partial). Sets that differ in one citation have different files, and a new file has exactly the marked entries. Refuted: the name has eight bits; NDVI, and NDVIre1 with NDVIre2, share a file, so that the citations of the second run are lost.
  Theorems: C166_one_citation_partial, C166_written_partial, C166_kept, C166_marks. Refuted: C166_collision_refuted.
* **C167 Magic parameters generate every combination** (partial). Proved for vectors of at least two values (all) or one value (paired). Refuted: with 'all' a vector of one value keeps its braces; with 'paired' an empty vector takes the values of the next one. Characters with a meaning for shell or sed are left out.
  Theorems: C167_all_partial, C167_paired_partial, C167_none. Refuted: C167_single_refuted, C167_shift_refuted.
* **C168 The suggested extent spans all tiles** (partial). Proved without column or row 0. Refuted: zeros are stripped, so that for every datacube with a tile in column 0 the minimum is empty, and 0 is never the maximum.
  Theorems: C168_range_partial, C168_allow_list. Refuted: C168_zero_refuted, C168_maximum_refuted.
* **C169 The size of a datacube counts every file once** (partial). The total is settled for all listings (each file once per sensor in its name), units as well, with exact numbers. Refuted: products like LNDLG are not counted, names with two sensors are counted twice.
  Theorems: C169_total, C169_all_bytes_partial, C169_unit. Refuted: C169_uncounted_refuted, C169_twice_refuted.
<!-- /results -->

## Assumptions

What `Print Assumptions` reports (collected by tools/assumptions.py). The reals of the standard
library rest on the first three, Flocq's binary floats add `Classical_Prop.classic`; there are no
axioms of our own.

<!-- assumptions -->
* Closed under the global context: all theorems of MANIFEST.json but the following (333 of 752).
* `ClassicalDedekindReals.sig_forall_dec`: C102_pooled.
* `ClassicalDedekindReals.sig_forall_dec`, `FunctionalExtensionality.functional_extensionality_dep`: C20_mean_variance, C20_skew, C20_kurt, C20_covariance, C20_covar, C20_variance, C20_sample_covariance, C20_kurtosis, C21_least_squares, C21_residuals_sum_to_zero, C21_rsquared_partial, C23_nan_refuted, C77_inverts_uniform_scene, C77_inverts_target, C77_brighter_is_brighter, C77_branches_agree_refuted, C77_nodata_means_off_refuted, C78_between_valid_cells_partial, C78_no_valid_cell, C78_linear_fields, C78_border_refuted, C83_seasons_by_date_partial, C91_season_average_partial, C99_position_refuted, C100_no_threshold, C100_stop_unique, C134_between, C137_ocean_partial, C137_ocean_refuted, C137_smooth, C139_factor, C139_stored, C140_missing, C140_count, C140_distance, C140_centred_partial, C140_total, C140_centred_refuted, C140_variance_refuted, C141_published, C143_hidden, C143_on_the_ground, C145_gmt_partial, C145_new_year_refuted, C145_julian, C147_blocks_partial, C147_blocks_refuted, C148_masked_partial, C148_order_refuted, C148_uniform_partial, C152_average_partial, C152_modis_size_refuted, C152_wrong_block_refuted, C152_date_line_refuted, C154_mismatch, C156_unwrap, C156_datum, C156_reorder, C156_kept, C165_proportional_partial, C165_antiproportional_partial, C165_custom_partial, C165_none, C165_overflow_refuted.
* `ClassicalDedekindReals.sig_forall_dec`, `ClassicalDedekindReals.sig_not_dec`, `FunctionalExtensionality.functional_extensionality_dep`: C20_standdev, C20_skewness, C21_correlation, C21_trend_values, C21_trend_few_values, C21_constant_series_refuted, C27_rbf_partial, C27_bounded, C27_constant, C27_small_cutoff_refuted, C28_fold_partial, C28_masked, C28_single_std_refuted, C28_constant_skew_refuted, C29_stm_partial, C29_masked, C30_standardize_partial, C30_unchanged, C30_range, C30_constant_refuted, C37_simple_partial, C37_spread_partial, C37_one_observation_refuted, C37_std_refuted, C37_quantile_refuted, C37_empty_quantile_refuted, C37_stale_refuted, C44_statistics_partial, C44_minimum_refuted, C44_maximum_refuted, C45_duplicate_refuted, C58_correlation_with_the_others, C76_scattering_angle, C76_illumination, C76_single_scattering, C76_ozone_amount, C77_pixel, C77_pixel_in_background, C77_off_pixel, C81_flat_terrain, C81_positive_and_decreasing, C81_no_direct_light, C81_factor_partial, C81_carried_refuted, C93_largest_deviation, C93_uniform, C93_standardized, C93_constant_refuted, C94_closest_entry, C94_nothing_to_compare, C94_exact_match, C94_more_entries, C94_more_entries_refuted, C94_constant_feature_refuted, C98_geographic_box_refuted, C104_extent_refuted, C122_masks_partial, C122_buffer_partial, C122_thermal_partial, C122_hidden_zero_refuted, C122_buffered_border_refuted, C123_only_on_request, C123_screening_partial, C123_blue_refuted, C123_two_bands_refuted, C132_curve_partial, C132_fit_range, C132_season, C132_too_few, C132_nrt_nodata_refuted, C139_sample, C143_position, C147_mean, C154_climatology.
* `ClassicalDedekindReals.sig_forall_dec`, `ClassicalDedekindReals.sig_not_dec`, `Classical_Prop.classic`, `FunctionalExtensionality.functional_extensionality_dep`: C18_bijection_partial, C18_in_range_partial, C18_many_units_refuted, C23_accept_iff_partial, C25_linear_partial, C25_bounded, C25_masked, C25_long_gap_refuted, C25_nodata_refuted, C26_moving, C26_nodata_refuted, C27_cutoff, C29_mean_refuted, C32_terminates_partial, C32_only_removes_partial, C32_removed_partial, C32_restored_partial, C32_idempotent, C32_unmask_refuted, C32_outermost_refuted, C34_exact, C34_zero, C34_empty, C39_roundtrip_partial, C39_first_word, C39_projection_refuted, C39_decimals_refuted, C39_copy_refuted, C46_line_partial, C46_line_refuted, C46_constant_refuted, C53_pixel_shows_best_observation, C54_scores_follow_the_parameters, C54_bell_through_configured_points, C54_closer_is_better, C54_sigmoid_half_way, C55_composite_defined_partial, C55_valley_refuted, C55_zero_factor_refuted, C55_average_without_output_refuted, C56_pixel_averages_observations, C56_average_between_extremes, C57_pixel_independent_of_history, C59_zero_weights_keep_observations_partial, C59_zero_doy_weight_refuted, C60_indices_follow_their_formulas, C60_outside_the_mask, C61_shipped_indices_accepted_partial, C61_missing_band, C61_ndvire1n_refuted, C61_kndvi_of_zero_refuted, C62_ratios_always_defined_partial, C62_defined_within_range_partial, C62_evi_overflow_refuted, C62_arvi_overflow_refuted, C62_sarvi_overflow_refuted, C62_tcdi_overflow_refuted, C62_msrre_of_negative_refuted, C63_normalized_difference_within_one, C63_antisymmetric, C63_scale_invariant, C63_monotone, C64_normalized_difference_is_never_nodata_partial, C64_kernel_index_is_never_nodata_partial, C64_wetness_refuted, C67_every_chunk_once, C69_file_accepted_iff, C71_filter_without_restoring, C72_reflectance_series, C72_monotone_between, C73_metrics_of_the_window, C73_no_memory_of_other_pixels, C74_ranges, C74_effective_mesh_size_refuted, C74_maximum_refuted, C75_defined_partial, C75_standard_deviation_refuted, C75_geometric_mean_refuted, C75_fractal_dimension_refuted, C75_fractal_range_refuted, C75_all_pixels_refuted, C75_single_pixels_refuted, C76_transmittances, C76_more_aerosol_less_light, C76_spherical_albedo, C76_surroundings, C76_phase_functions, C76_water_vapour, C76_ozone, C76_fresnel, C76_elevation, C79_off_by_at_most_one_partial, C79_unchanged_refuted, C80_within_clear_pixels_partial, C80_uniform_scene, C80_clouds_refuted, C82_events_are_observations_partial, C82_day_lost_refuted, C83_late_series_refuted, C84_dates_in_order, C85_peak_is_highest, C85_peak_amplitude, C86_integrals_add_up, C86_rising_integral_refuted, C87_years, C87_no_data, C87_coordinates_of_no_data_refuted, C88_lengths, C88_vector_dates, C88_start_shift_partial, C88_start_shift_fixed_refuted, C89_seasons_have_values_partial, C89_never_positive_refuted, C90_prediction, C90_within_neighbours, C90_uniform, C90_similar_weigh_more, C90_no_similar_pixel, C90_missing_coarse, C92_product_partial, C92_no_fine_refuted, C97_points_are_pixels, C97_at_most, C97_size_partial, C97_only_requested_partial, C97_size_large_share_partial, C97_unrequested_refuted, C97_size_refuted, C97_overflow_refuted, C100_regression, C100_single_model_refuted, C101_label, C101_forest_label, C101_classes_differ_refuted, C102_probability_partial, C102_unanimous_refuted, C102_margin_partial, C102_tie_refuted, C102_labels_differ_refuted, C103_nodata, C103_predicted, C103_invalid_ignored, C104_tile_content, C104_written, C104_unaligned_partial, C104_pixel_size_refuted, C105_colour, C105_monotone, C105_unambiguous_refuted, C108_flags_partial, C108_snow_partial, C108_border_shadow_refuted, C108_border_cloud_refuted, C110_skip_partial, C110_threshold_refuted, C111_distance, C111_clear, C112_defined_partial, C112_water, C112_snow, C112_saturated, C112_cloud_is_bright, C112_black_refuted, C112_negative_refuted, C124_stored_partial, C124_unchanged_refuted, C124_defined_refuted, C125_nodata, C125_reflectance_monotone, C125_reflectance_partial, C125_bright_refuted, C125_all_bands_refuted, C125_temperature_monotone, C125_temperature_close, C126_cell_in_grid, C126_empty_cell_refuted, C127_values_partial, C127_valid_where_data, C127_uniform_refuted, C127_nodata_refuted, C127_chunks_refuted, C127_inside, C127_inside_any_ratio, C128_half_width, C128_kernel, C134_angle, C134_value_partial, C134_untouched, C134_image, C135_clusters_partial, C135_far_partial, C135_nine_refuted, C135_global_refuted, C136_plane, C136_defined, C136_illumination, C137_borders, C137_flag_refuted, C138_classes, C138_refused, C141_reciprocal, C141_mirror, C141_turn, C141_positive, C141_length, C141_unknown, C141_standard, C141_normalised, C141_same_nir, C141_second, C142_reflexive, C142_symmetric, C142_zero, C142_integers, C142_close, C142_large_refuted, C142_size, C143_shadow_of_cloud, C143_excellent, C143_best, C143_none, C143_ends, C143_sun_up, C143_night_refuted, C143_fraction_refuted, C143_sampling_refuted, C144_zenith, C144_azimuth, C144_masked_partial, C144_masked_only_refuted, C145_overpass, C145_overpass_time, C145_float, C145_time_refuted, C146_mean, C146_range, C146_masked, C146_kept_refuted, C153_choice, C153_table, C155_daily, C155_climatology, C155_none, C155_strict_refuted, C155_nodata_refuted, C157_quantile, C157_denominator, C157_monotone, C157_colder, C157_warm, C157_land, C157_water, C157_decision, C157_sure, C157_only, C157_no_clear_water, C157_no_land, C157_mask_partial, C157_team_refuted, C158_index, C158_bounds, C158_sign, C158_flat_refuted, C158_mask, C159_table, C159_map, C159_threads, C159_gas_partial, C159_gas_edge, C159_gas_edge_refuted, C159_size_refuted, C164_split, C164_ends, C164_ordered, C164_percent_partial, C164_number_partial, C164_all_refuted, C164_more_refuted, C164_none_refuted, C165_training_refuted.
<!-- /assumptions -->
