{"id": "C01", "title": "Version strings parse exactly and are totally ordered", "statement": "version.Parse accepts a string iff it is three dot-separated decimal integers, none negative, and returns exactly those integers. version.Later(a, b) returns an error iff either argument does not parse; otherwise it is the strict lexicographic order on (major, minor, patch): irreflexive, transitive, total on distinct versions, and Later and Later-with-arguments-swapped are never both true.", "quantifier": "all strings (any length, any bytes) and all pairs/triples of valid versions", "why_tests_cant": "The set of version strings is infinite; transitivity/totality quantify over triples of versions, and the accepted language is an iff over every string.", "anchors": ["version/version.go:Parse", "version/version.go:Later"]}
{"id": "C02", "title": "A config file's Version is accepted only if it is not from the future", "statement": "GlobalConfig validation rejects a configuration whose Version is later than the running source version and accepts any version of a compatible older release (same or earlier minor/patch in the lexicographic order documented by version.Later).", "quantifier": "all triples (major, minor, patch) of config and source version", "why_tests_cant": "The comparison is over an infinite set of version pairs; tests sample a handful near the current version.", "anchors": ["cmd/cmd.go:GlobalConfig.validate", "version/version.go:Later", "version/version.go:SourceVersion"]}
{"id": "C03", "title": "ReadConfig sets exactly the variables the file assigns", "statement": "If ReadConfig succeeds on a file, every registered variable that has an assignment line in the file holds the conversion of that line's value, and every registered variable without one still holds its registered default; the set of variables is not otherwise changed.", "quantifier": "all config texts, all lists of registered variables of the eight kinds (int, float, string, bool and their list forms)", "why_tests_cant": "Universally quantified over file contents and registered variable sets; a test can check only chosen keys of chosen files.", "anchors": ["parse/config.go:ReadConfig", "parse/config.go:associationList", "parse/config.go:convertAssoc", "parse/config.go:ConfigVars"]}
{"id": "C04", "title": "Misspelled, duplicated or malformed config lines are rejected before anything is set", "statement": "If the file's header does not match, a line contains no '=' or has an empty name, a name is not a registered variable (case-insensitively), or one name is assigned twice, ReadConfig returns an error and no registered variable has been modified. Conversely ReadConfig fails only for one of these reasons or because a value does not convert.", "quantifier": "all config texts and all lists of registered variables", "why_tests_cant": "Both directions are universally quantified over texts; in particular 'no duplicate slips through' concerns all pairs of lines at any distance.", "anchors": ["parse/config.go:ReadConfig", "parse/config.go:checkValidNames", "parse/config.go:checkDuplicateNames"]}
{"id": "C05", "title": "Comments, blank lines, indentation and key case do not change a configuration", "statement": "Adding or removing '#' comments, empty or all-space lines, spaces around lines, names, '=' and values, or changing the letter case of names never changes what ReadConfig returns or what it stores.", "quantifier": "all config texts and all insertions of comments, blank lines, spaces and case changes", "why_tests_cant": "Metamorphic relation over all texts and all edits of them.", "anchors": ["parse/config.go:removeComments", "parse/config.go:trim", "parse/config.go:associationList"]}
{"id": "C06", "title": "Command line flags are equivalent to config lines", "statement": "ReadFlags on '--Name v1 v2 ... vk' groups has the same effect as ReadConfig on a file with lines 'Name = v1,v2,...,vk' in the same order; variables with no flag keep their previous value, so flags override the config file and nothing else.", "quantifier": "all argument vectors and all lists of registered variables", "why_tests_cant": "The equivalence is between two parsers for all argument vectors.", "anchors": ["parse/config.go:ReadFlags", "parse/config.go:isFlag", "shellfish.go:main"]}
{"id": "C07", "title": "Config and flag errors are reported, never a crash", "statement": "ReadConfig and ReadFlags terminate with nil or an error for every input and never panic; when a value fails to convert, the error names the offending variable and shows the offending value.", "quantifier": "all config texts / argument vectors and all registered variable lists", "why_tests_cant": "Panic freedom over every input combination of assignment order and registration order is a universal claim.", "anchors": ["parse/config.go:ReadConfig", "parse/config.go:ReadFlags", "parse/config.go:convertAssoc"]}
{"id": "C08", "title": "Catalog text: comments and blank lines are ignored, columns are exact", "statement": "catalog.Parse returns, for each requested column, the value of that whitespace-separated field on every data line in file order; text after '#' and lines with only spaces contribute nothing, so inserting comments or blank lines never changes the result.", "quantifier": "all byte buffers whose data lines have equal field counts, all requested column index lists, all comment/blank line insertions", "why_tests_cant": "Quantifies over all buffers and all insertions; the byte-shifting uncomment pass must be right at every offset.", "anchors": ["cmd/catalog/catalog.go:Parse", "cmd/catalog/catalog.go:uncomment", "cmd/catalog/catalog.go:trim", "cmd/catalog/catalog.go:split"]}
{"id": "C09", "title": "Catalog output can be read back", "statement": "For any rectangular table of integer columns, parsing the output of catalog.FormatCols (with any preceding CommentString header) with the identity column list returns exactly the original columns, so that one shellfish stage can feed the next without loss.", "quantifier": "all non-empty rectangular integer tables with values in int64, all column orders that are permutations", "why_tests_cant": "Round trip over all tables: padding, negative numbers and column widths interact for unboundedly many shapes.", "anchors": ["cmd/catalog/catalog.go:FormatCols", "cmd/catalog/catalog.go:Parse", "cmd/catalog/catalog.go:CommentString"]}
{"id": "C10", "title": "Malformed catalogs produce an error, not a crash", "statement": "catalog.Parse never panics: a data line with a different number of fields from the first line, a field that is not a number, or a requested column index outside the table is reported as an error that identifies the line.", "quantifier": "all byte buffers and all column index lists", "why_tests_cant": "Panic freedom is over every ragged table.", "anchors": ["cmd/catalog/catalog.go:Parse", "cmd/catalog/catalog.go:parse", "cmd/catalog/catalog.go:fields"]}
{"id": "C11", "title": "Shell sort and Quick sort sort", "statement": "sort.Shell and sort.Quick terminate on every slice and leave it an ascending permutation of its original contents, touching no index outside the slice.", "quantifier": "all finite slices of non-NaN float64 (any strict weak order), any length, with duplicates", "why_tests_cant": "Sortedness, permutation and in-bounds access for every length and every arrangement, including sentinel-based loops with no explicit bound checks.", "anchors": ["math/sort/quick.go:Quick", "math/sort/shell.go:Shell", "math/sort/quick.go:partition"]}
{"id": "C12", "title": "NthLargest selects the right order statistic", "statement": "For 1 <= n <= len(xs), sort.NthLargest(xs, n) returns the element that has index len(xs)-n in the ascending sort of xs, and xs is unchanged; with a supplied scratch buffer the result is the same.", "quantifier": "all slices of non-NaN floats, all n in range, all scratch buffers of the same length", "why_tests_cant": "Universal over slices and ranks; quickselect's partition can fail only for particular arrangements.", "anchors": ["math/sort/median.go:NthLargest", "math/sort/median.go:nthLargestImpl"]}
{"id": "C13", "title": "Median and Percentile return order statistics", "statement": "sort.Median(xs) returns a median of xs (an element with at least half of the values on either side), and sort.Percentile(xs, p) is the p-quantile, monotone in p.", "quantifier": "all non-empty slices, all p in [0,1]", "why_tests_cant": "Universal over slices; small lengths are special-cased in the code.", "anchors": ["math/sort/median.go:Median", "math/sort/median.go:Percentile"]}
{"id": "C14", "title": "Interpolation search brackets the query point", "statement": "For a table of at least two strictly increasing abscissae (arbitrary or uniform) and any x within their range, the search used by the linear interpolators returns i with x between xs[i] and xs[i+1] (and 0 <= i <= n-2), for any starting guess; for x outside the range it panics rather than extrapolating. The search of splines does so for increasing and decreasing tables. (Decreasing tables of linear interpolators: C89.)", "quantifier": "all such tables, all x, all initial guesses", "why_tests_cant": "Quantifies over tables, queries and cached guess state left by earlier queries.", "anchors": ["math/interpolate/search.go:searcher.search", "math/interpolate/search.go:searcher.init", "math/interpolate/search.go:searcher.unifInit"]}
{"id": "C15", "title": "Linear interpolators interpolate", "statement": "Linear and BiLinear return the table value at every grid node, are exact for functions that are (bi-)affine, and always return a value between the smallest and largest value of the surrounding cell, for tables of arbitrary and of uniform abscissae. (TriLinear: C90.)", "quantifier": "all tables, all query points inside the grid", "why_tests_cant": "Universal over tables and query points.", "anchors": ["math/interpolate/linear_interpolators.go:Linear", "math/interpolate/linear_interpolators.go:BiLinear", "math/interpolate/linear_interpolators.go:TriLinear"]}
{"id": "C16", "title": "Cubic splines are C2 natural interpolants", "statement": "A Spline built from at least three strictly increasing abscissae passes through every table point, has continuous value, first and second derivative at every interior knot and zero second derivative at both ends; Diff of order 0, 1, 2 agrees with the derivatives of Eval, Eval panics outside the table, and Integrate(lo,hi) is the integral of Eval when the smaller bound is a table point. (All other uses: C91.)", "quantifier": "all tables of at least three strictly increasing abscissae, all query points (exact arithmetic)", "why_tests_cant": "Universal over tables; depends on the tridiagonal solve being right for every size.", "anchors": ["math/interpolate/spline.go:Spline", "math/interpolate/spline.go:TriDiagAt"]}
{"id": "C17", "title": "TriDiag solves tridiagonal systems", "statement": "If TriDiagAt returns without panicking, the output vector satisfies every one of the n equations of the tridiagonal system it was given; it panics on a zero pivot instead of returning garbage.", "quantifier": "all n >= 1 and all coefficient vectors (exact arithmetic)", "why_tests_cant": "Universal over sizes and coefficients.", "anchors": ["math/interpolate/spline.go:TriDiagAt", "math/interpolate/spline.go:TriDiag"]}
{"id": "C18", "title": "Matrix-vector products and transposes are those of linear algebra", "statement": "MultVec, VecMult and Transpose compute the matrix-vector products and the transpose for every compatible shape, write every output cell exactly once and nothing outside it; incompatible shapes panic. (Mult: C92.)", "quantifier": "all shapes and all entries (exact arithmetic)", "why_tests_cant": "Index arithmetic over all rectangular shapes.", "anchors": ["math/mat/mat.go:MultAt", "math/mat/mat.go:TransposeAt", "math/mat/mat.go:MultVecAt", "math/mat/mat.go:VecMultAt"]}
{"id": "C19", "title": "LU factorisation and determinant", "statement": "For every non-singular A, LU() is a factorisation P A = L U with a unit lower triangular L and an upper triangular U with non-zero diagonal, and Determinant is the determinant; a zero row panics. (Solving: C93.)", "quantifier": "all sizes, all non-singular matrices, all right-hand sides (exact arithmetic)", "why_tests_cant": "Pivoting paths depend on the matrix; only a universal statement covers all pivot sequences.", "anchors": ["math/mat/mat.go:LUFactors", "math/mat/mat.go:LUFactorsAt", "math/mat/mat.go:SolveVector"]}
{"id": "C20", "title": "Random generators stay in [0,1) and batch equals one-at-a-time", "statement": "Every generator's Next returns a value in [0,1), the sequence form fills a slice with exactly the values successive Next calls would have returned, and Uniform/UniformInt return values within the requested half-open range.", "quantifier": "all seeds, all generator states reachable from them, all lengths and ranges", "why_tests_cant": "2^128-size state space and unbounded sequence lengths.", "anchors": ["math/rand/xorshift.go", "math/rand/tausworthe.go", "math/rand/rand.go:Generator"]}
{"id": "C21", "title": "Sobol sequences stay in the unit cube", "statement": "Each coordinate of SobolSequence.Next/NextAt is in [0,1) whatever calls came before; when all calls ask for the same number of dimensions, distinct calls before exhaustion never repeat a value in a dimension, and exhaustion and more than 6 dimensions panic. Init of a used sequence does not restart it. (Mixed dimensions: C94.)", "quantifier": "all dimensions 1..6, all positions in the sequence", "why_tests_cant": "2^30 positions per dimension and all interleavings.", "anchors": ["math/rand/sobol.go:SobolSequence"]}
{"id": "C22", "title": "Filter files round trip", "statement": "ReadFilter(WriteFilter(ids, snaps, particle lists)) returns exactly the snapshots, ids and per-halo particle IDs that were written, for either byte order on any machine; the particle data of each halo follow the header in order; WriteFilter panics only for data that cannot be stored. (StartByte: C95.)", "quantifier": "all numbers of halos, all particle list lengths (including empty), all IDs, both byte orders", "why_tests_cant": "Universal over contents; offsets accumulate over arbitrarily many halos.", "anchors": ["io/filter_data.go:WriteFilter", "io/filter_data.go:ReadFilter", "cmd/stats.go"]}
{"id": "C23", "title": "The halo grid partitions points into cells", "statement": "After Insert into a new grid of points whose coordinates are less than one box width outside the box, reading every cell's list returns each inserted point's index exactly once, in the cell that geometrically contains it, and Length/ReadIndexes agree; MaxLength is the largest cell length.", "quantifier": "all point sets in the box, all grid sizes >= 1 (exact arithmetic)", "why_tests_cant": "Linked lists threaded through arrays for every insertion order.", "anchors": ["cmd/halo/grid.go:Grid.Insert", "cmd/halo/grid.go:Grid.ReadIndexes", "cmd/halo/grid.go:Grid.Length", "cmd/halo/grid.go:Grid.MaxLength"]}
{"id": "C24", "title": "Subhalo finders find every pair within the host radius, once", "statement": "Over a grid of a non-empty catalogue in the box whose scaled radii are at most a quarter of the box less a cell, FindSubhalos leaves the radii unchanged and Intersects(i) lists, in increasing order and once each, exactly those halos j for which the nearest periodic image of one centre is within the scaled radius of whichever of i and j comes first in the catalogue; the relation is symmetric, and Hosts/Subhalos (and their counts) are the entries before and after i. The split finder returns exactly the halos within the given radius of the target (up to half of the box less a cell), each once, with the squared distance to the nearest image.", "quantifier": "all halo positions/radii, all grid sizes, all overlap multipliers (exact arithmetic)", "why_tests_cant": "All pairs at all positions, including those across periodic boundaries and cell boundaries.", "anchors": ["cmd/halo/finder.go:SubhaloFinder.FindSubhalos", "cmd/halo/finder.go:SubhaloFinder.Intersects"]}
{"id": "C25", "title": "Snapshot file-name interleaving enumerates each block exactly once", "statement": "The catalog environment built from SnapshotFormat and its meanings contains, for each snapshot, every combination of the per-block values exactly once with snapshot-aligned values of that snapshot, in a deterministic order, and ParticleCatalog(snap, block) is the corresponding name.", "quantifier": "all numbers of columns, all snapshot ranges and block ranges", "why_tests_cant": "Mixed-radix enumeration over arbitrary column counts and sizes.", "anchors": ["cmd/env/env.go:interleave", "cmd/env/env.go:Catalogs.ParticleCatalog", "cmd/cmd.go"]}
{"id": "C26", "title": "id mode prints exactly the requested halos", "statement": "For an explicit list of IDs or mass ranks (from the config or stdin), id mode prints the corresponding halos in the requested order, each repeated Mult times: all of them with strategy none, those without a host halo with overlap, each followed by its neighbours with neighbor; IDs not in the catalogue are an error when the catalogue is consulted.", "quantifier": "all request lists, catalogues, host relations and multiplicities", "why_tests_cant": "Request lists and catalogues are unbounded and the output combines selection, filtering and repetition.", "anchors": ["cmd/id.go:IDConfig.Run", "cmd/id.go:convertSortedIDs", "cmd/id.go:findOverlapSubs", "cmd/id.go:readSubIDs"]}
{"id": "C27", "title": "Merger-tree histories are complete and ordered", "statement": "tree.HaloHistories returns for each requested root the chain of progenitors and descendants of that halo in snapshot order, one entry per snapshot, or an error if the halo is not in any tree file.", "quantifier": "all trees and all root lists", "why_tests_cant": "Unbounded trees and histories.", "anchors": ["los/tree/tree.go:HaloHistories"]}
{"id": "C28", "title": "Parallel particle counting is schedule independent and exhaustive", "statement": "Splitting the particle loop of stats/shell among W workers by striding processes every particle exactly once for any W >= 1, and the combined mass or ID list does not depend on the number of workers or on the order in which workers finish (up to order of IDs).", "quantifier": "all particle counts, worker counts and completion orders (exact sums)", "why_tests_cant": "All schedules of goroutines.", "anchors": ["cmd/stats.go:massContained", "cmd/stats.go:massContainedChan", "cmd/stats.go:appendShellParticles", "cmd/shell.go"]}
{"id": "C29", "title": "LockGroup.Synchronize waits for every worker", "statement": "LockGroup.Synchronize returns only after every worker's Lock of the group has been unlocked, and always returns once they all have, in any interleaving.", "quantifier": "all worker counts and interleavings", "why_tests_cant": "Concurrency: all interleavings.", "anchors": ["cmd/utils.go:LockGroup", "cmd/utils.go:Lock", "cmd/prof.go:384", "cmd/potential.go:191"]}
{"id": "C30", "title": "Profile rings accumulate densities linearly", "statement": "After any sequence of ProfileRing.Insert calls, Retrieve yields in each radial bin the sum over inserted intervals of rho times the fraction of that bin the interval covers; splitting the insertions over several worker rings (new ones, ones of another size, or ones last used with the same bin width) and joining them gives the same result as inserting all into one.", "quantifier": "all insertion sequences, all partitions of them over rings (exact arithmetic)", "why_tests_cant": "Unbounded insertion histories and all distributions over workers.", "anchors": ["los/profile_ring.go:ProfileRing.Insert", "los/profile_ring.go:ProfileRing.Retrieve", "los/profile_ring.go:ProfileRing.Join", "los/profile_ring.go:ProfileRing.Split"]}
{"id": "C31", "title": "Periodic distances use the nearest image", "statement": "wrapDist(x1, x2, L) is the displacement x1-x2 to the nearest periodic image, i.e. in [-L/2, L/2] and congruent to x1-x2 modulo L; after Halo.Transform has been applied in place for any sequence of halos, every particle is at its image nearest to the last of them, so results do not depend on where the box boundary is.", "quantifier": "all positions in the box and all box widths", "why_tests_cant": "Universal over positions; errors occur only across the boundary.", "anchors": ["cmd/stats.go:wrapDist", "los/halo.go:Transform"]}
{"id": "C32", "title": "Header memoisation is transparent", "statement": "memo.ReadHeaders returns the same headers on every call for a snapshot whatever the history of earlier calls and restarts: a cached answer equals the answer computed from the snapshot files. (Crashes: C96.)", "quantifier": "all histories of calls and restarts", "why_tests_cant": "Crash points and histories.", "anchors": ["cmd/memo/memoize.go:ReadHeaders"]}
{"id": "C33", "title": "Memoised Rockstar lookups are transparent", "statement": "ReadSortedRockstarIDs returns the maxID+1 most massive halo IDs in decreasing mass order, and ReadRockstar returns each requested ID's row, whether answered from the short cache, the full cache or the original catalogue and whatever calls came before; an ID that is not in the catalogue gives an error.", "quantifier": "all catalogues, all id lists, all maxID, all cache states", "why_tests_cant": "Cache states and catalogue contents are unbounded; the boundary maxID = length is a single point.", "anchors": ["cmd/memo/memoize.go:ReadSortedRockstarIDs", "cmd/memo/memoize.go:ReadRockstar"]}
{"id": "C34", "title": "Gadget particle blocks keep only dark matter, in order", "statement": "Reading a non-empty Gadget-2 snapshot (either byte order; mass block present, ids of 4 or 8 bytes, id block below 2 GiB) returns precisely the particles whose type is configured as dark matter, with position (brought into the box), velocity, mass and ID of the same particle at the same index, in file order; the header's count is their number if no type is listed twice. (Other files: C97.)", "quantifier": "all per-type particle counts and all DM type selections", "why_tests_cant": "Offsets over all counts of the six types.", "anchors": ["io/gadget2.go"]}
{"id": "C35", "title": "Byte order conversion is exact", "statement": "Reading a block of float32/float64/int32/int64 values written in either byte order returns the written values if one Read delivers the whole block; reading in the machine order and in the other order agree after byte swapping. (Short reads: C98.)", "quantifier": "all block lengths and all bit patterns", "why_tests_cant": "All bit patterns and sizes.", "anchors": ["io/io.go", "io/gadget2.go"]}
{"id": "C36", "title": "Penna shell orders are recovered from coefficient counts", "statement": "findOrder returns p for a coefficient list of length 2p^2 and panics for all other lengths; the least-squares fit of shell mode and the shell evaluated by stats and prof modes use the same basis functions in the same coefficient order.", "quantifier": "all list lengths", "why_tests_cant": "An infinite family of lengths.", "anchors": ["cmd/stats.go:findOrder", "los/analyze/penna.go"]}
{"id": "C37", "title": "Ring buffers return exactly the valid points", "statement": "RingBuffer.OkPlaneCoords and OkPolarCoords return, in index order, exactly the coordinates of the lines of sight flagged Ok; Clear empties it.", "quantifier": "all flag patterns and sizes", "why_tests_cant": "2^n flag patterns.", "anchors": ["los/analyze/ring_buffer.go"]}
{"id": "C38", "title": "Halos are grouped by snapshot without loss", "statement": "Grouping the input catalogue by snapshot puts every input line in exactly one group, with its original index, so that outputs are written back to the line they came from, and each snapshot is processed once.", "quantifier": "all snapshot columns", "why_tests_cant": "All arrangements of snapshots in the input.", "anchors": ["cmd/shell.go:binBySnap", "cmd/coord.go", "cmd/stats.go"]}
{"id": "C39", "title": "Kernel convolution continues signals by their end values or by zeros", "statement": "Kernel.ConvolveAt with Extension or ZeroPad returns a slice as long as the input in which entry i is the kernel-weighted sum of the neighbours of i, out-of-range neighbours being the nearest end value or zero; the old contents of the output slice do not matter. To the right of the kernel's centre this holds for all four boundary conditions. Normalised kernels map constants to themselves; Gaussian and top-hat kernels exist exactly for odd widths, have positive weights that add up to 1, and keep every signal within its bounds. A kernel longer than the signal panics.", "quantifier": "all signals, kernels no longer than the signal, positions, widths (exact arithmetic)", "why_tests_cant": "All lengths and positions near both ends.", "anchors": ["math/interpolate/filter.go:Kernel.ConvolveAt", "math/interpolate/filter.go:BoundaryCondition", "math/interpolate/filter.go:NewGaussianKernel", "math/interpolate/filter.go:NewTophatKernel"]}
{"id": "C40", "title": "Second-order numerical derivatives are exact on parabolas", "statement": "calc.Deriv with order 2 returns, at every sample including both ends, the exact derivative when the samples come from a polynomial of degree up to 2 on a uniform grid of at least 3 points; fewer points or slices of different lengths panic.", "quantifier": "all uniform grids, lengths and polynomials of degree up to 2 (exact arithmetic)", "why_tests_cant": "Universal over grids and coefficients, with special cases at both ends.", "anchors": ["math/calc/deriv.go:Deriv"]}
{"id": "C41", "title": "Cubic interpolators do not depend on the query history", "statement": "BiCubic and TriCubic, which cache one-dimensional splines for the last y (and z), return for every query what a freshly built interpolator returns, whatever queries (that did not panic) preceded it; in particular they return the table value at every grid node after any such history.", "quantifier": "all tables, all finite sequences of earlier queries, all query points (exact arithmetic)", "why_tests_cant": "The cache state depends on the whole history of queries.", "anchors": ["math/interpolate/cubic_interpolators.go:BiCubic.Eval", "math/interpolate/cubic_interpolators.go:TriCubic.Eval", "math/interpolate/cubic_interpolators.go:initSplines"]}
{"id": "C42", "title": "Damaged filter files are reported", "statement": "ReadFilter returns an error for a file that is not a complete filter file: a wrong byte-order flag or a file cut short at any point is reported and never yields data that differs from what was written.", "quantifier": "every data set written by WriteFilter in either byte order and every truncation point", "why_tests_cant": "Truncation points and data sets are unbounded; a test cuts one file at one place.", "anchors": ["io/filter_data.go:ReadFilter"]}
{"id": "C43", "title": "Halo catalogue files are matched to snapshots from the end of the directory", "statement": "With HaloDir holding at least SnapMax-SnapMin+1 files, the halo catalogue used for snapshot s in [SnapMin, SnapMax] is the file SnapMax-s places before the last one in name order, so extra early files are ignored and no snapshot outside the range has a catalogue; with fewer files initialisation returns an error.", "quantifier": "all directory listings and all snapshot ranges", "why_tests_cant": "All directory sizes and ranges; the off-by-one only shows at the ends.", "anchors": ["cmd/env/text_halos.go:InitTextHalo", "cmd/env/env.go:Halos.HaloCatalog"]}
{"id": "C44", "title": "Nil snapshots have a catalogue for every snapshot in range", "statement": "With SnapshotType = nil every snapshot from SnapMin to SnapMax has a (pseudo) catalogue name identifying it, as for all other snapshot types.", "quantifier": "all snapshot ranges", "why_tests_cant": "Tests use ranges starting at zero.", "anchors": ["cmd/env/nil_snapshot.go:InitNil", "cmd/env/env.go:Catalogs.ParticleCatalog"]}
{"id": "C45", "title": "Validated file-name formats start up", "statement": "A global config accepted by validation (SnapshotFormat, SnapshotFormatMeanings, BlockMins/Maxes, SnapMin/Max, Logging) can be turned into the list of snapshot files without a crash, and every meaning and the Logging variable has been checked.", "quantifier": "all values of the format variables", "why_tests_cant": "Infinitely many combinations of meanings; the validator returns early on some.", "anchors": ["cmd/cmd.go:validateFormat", "cmd/env/env.go:ParticleInfo.GetColumn", "shellfish.go:initCatalogs"]}
{"id": "C46", "title": "Halo values come from the column the user named", "statement": "For every value name with a meaning (a configured column, or an overdensity radius whose mass column is configured) the value reported for a halo is the entry of that column in the halo's row, or the radius computed from its mass. (Names without a meaning: C99.)", "quantifier": "all column configurations, catalogues and value names", "why_tests_cant": "Name/column combinations are unbounded, including duplicated and missing names.", "anchors": ["cmd/halo/io.go:NewVarColumns", "cmd/halo/io.go:GetColumn"]}
{"id": "C47", "title": "Asking for more halos than exist is an error", "statement": "ReadSortedRockstarIDs with a maxID that the catalogue cannot satisfy returns an error, it neither crashes nor returns fewer halos.", "quantifier": "all catalogues and all maxID not below the number of halos", "why_tests_cant": "The failing boundary is a single point for each catalogue size.", "anchors": ["cmd/memo/memoize.go:ReadSortedRockstarIDs"]}
{"id": "C48", "title": "A killed process does not make later halo look-ups wrong", "statement": "After any history of calls and of processes killed while writing a halo cache file, later look-ups that succeed return the values the catalogue holds; a short cache file that is cut off is harmless. (Availability: C100.)", "quantifier": "all histories, all crash points inside the writing of either cache file", "why_tests_cant": "Crash points are every byte offset of two files in every history.", "anchors": ["cmd/memo/memoize.go:readRockstar", "cmd/memo/memoize.go:ReadRockstar", "cmd/halo/io.go:RockstarConvert"]}
{"id": "C49", "title": "ID ranges include both end points", "statement": "id mode with IDStart and IDEnd set selects exactly the IDs from IDStart to IDEnd, both included, as the configuration file documents.", "quantifier": "all ranges", "why_tests_cant": "Boundary conditions over all ranges.", "anchors": ["cmd/id.go:getIDs", "cmd/id.go:IDConfig.ExampleConfig"]}
{"id": "C50", "title": "Mass ranges select exactly the halos in the range", "statement": "id mode with M200mMin and M200mMax selects exactly the halos whose mass lies in the range; if there are none, it prints none.", "quantifier": "all catalogues and mass ranges, including ranges above or below every halo", "why_tests_cant": "Catalogues and ranges are unbounded; the failures are at boundaries.", "anchors": ["cmd/id.go:getMassIDRange", "cmd/id.go:getIDs", "cmd/id.go:IDConfig.Run"]}
{"id": "C51", "title": "Parallel profiles and potentials are race free and equal the sequential result", "statement": "In prof and potential modes, whatever the number of worker threads and however they interleave, no array element is touched by two workers between the start of a worker group and Synchronize, and afterwards each profile (potential grid element) has exactly the value a single sequential pass would have given it, bit for bit.", "quantifier": "all numbers of particles, halos, grid cells and workers, and all interleavings", "why_tests_cant": "All schedules of goroutines; a data race shows up only occasionally.", "anchors": ["cmd/prof.go:384", "cmd/potential.go:191", "cmd/potential.go:insertPotentialPoints", "cmd/utils.go:LockGroup"]}
{"id": "C52", "title": "Shell containment is geometric", "statement": "Shell.Contains holds exactly for the points whose distance from the centre is below the shell radius in their direction, for every shell and in particular for those printed by shell mode. (The fast tests of stats: C101.)", "quantifier": "all shells, particle positions, radial bounds and widths (exact arithmetic)", "why_tests_cant": "Universal over positions and shells; wrong bounds only matter in rare configurations.", "anchors": ["los/analyze/shell.go:Contains", "cmd/stats.go:massContainedChan", "cmd/stats.go:appendShellParticlesChan", "cmd/stats.go:rangeSp"]}
{"id": "C53", "title": "Monte Carlo shell statistics are sane for every random stream", "statement": "Whatever random directions are drawn, the volume and mean radius of a shell lie between those of its inscribed and circumscribed spheres (so they are exact for spheres) and RadialRange and MaxDiff are the extremes over the drawn directions. (R_sp and DiffVolume: C102.)", "quantifier": "all shells and all sequences of drawn directions (exact arithmetic)", "why_tests_cant": "The outcome depends on an unbounded random stream.", "anchors": ["los/analyze/shell.go:Volume", "los/analyze/shell.go:MeanRadius", "los/analyze/shell.go:RadialRange", "los/analyze/shell.go:MaxDiff", "los/analyze/shell.go:DiffVolume", "cmd/stats.go:269"]}
{"id": "C54", "title": "Axis lengths are sorted", "statement": "trisort, used to order the axes of a shell, returns its three arguments in decreasing order together with the position of the largest.", "quantifier": "all triples of numbers", "why_tests_cant": "All orderings including ties.", "anchors": ["los/analyze/shell.go:trisort"]}
{"id": "C55", "title": "Angular fraction profiles are cumulative fractions", "statement": "AngularFractionProfile returns for each radial bin the fraction, among the drawn directions whose shell radius is within the profile's range, of those beyond the bin's inner edge: it starts at 1, never increases and stays within [0, 1]. (Directions outside the range: C103.)", "quantifier": "all shells, sample sequences, ranges and bin counts (exact arithmetic)", "why_tests_cant": "Unbounded sample sequences; boundary cases of binning.", "anchors": ["los/analyze/shell.go:AngularFractionProfile"]}
{"id": "C56", "title": "coord converts units", "statement": "In a catalogue of one snapshot, coord mode's values for a row are those of its halo, converted to comoving Mpc/h with the factor of the configured unit and the snapshot's cosmology; unknown units panic. With several snapshots the cosmology is that of the first line's snapshot. (C104.)", "quantifier": "all input catalogues, all units, all map enumeration orders", "why_tests_cant": "the wrong redshift factor only shows for physical units and mixed snapshots; tests use one snapshot", "anchors": ["cmd/coord.go:readHaloCoords", "cmd/halo/radius.go:UnitConversionFactor", "cmd/shell.go:loop", "cmd/shell.go:createHalos"]}
{"id": "C57", "title": "coord prints the requested columns under their own headings", "statement": "coord mode prints the ID, the snapshot and then the requested values in the order they were requested, so that every column is under its heading, whichever of them are integers.", "quantifier": "all lists of requested values and all integer/float markings of them", "why_tests_cant": "the order vector is its own inverse for most small tables, so a test with few columns passes", "anchors": ["cmd/coord.go:Run", "cmd/catalog/catalog.go:FormatCols"]}
{"id": "C58", "title": "Values accepted by coord's validation can be printed", "statement": "If coord mode's validation accepts the requested values (configured columns, and radii derivable from configured masses), the run does not crash while classifying them or making the heading.", "quantifier": "all configured column lists and all requested value lists", "why_tests_cant": "one particular derived radius is missing from one of three switch statements", "anchors": ["cmd/coord.go:validate", "cmd/coord.go:makeCommentString", "cmd/halo/io.go:NewVarColumns"]}
{"id": "C59", "title": "Placeholder rows are passed through", "statement": "Rows whose snapshot is -1 are not analysed and come out with the initial (zero) values, and their presence does not disturb the run.", "quantifier": "all input catalogues containing rows of snapshot -1", "why_tests_cant": "depends on where in the input the placeholder is and on the smallest snapshot of the input", "anchors": ["cmd/shell.go:loop", "cmd/stats.go:Run", "cmd/coord.go:readHaloCoords", "cmd/env/env.go:ParticleCatalog"]}
{"id": "C60", "title": "tree mode prints exactly the selected part of the histories", "statement": "tree mode prints, in order, exactly the (ID, snapshot) pairs of the halos' histories whose snapshot is between SnapMin and SnapMax and, if SelectSnaps is given without repetitions, in SelectSnaps; the separators it inserts between histories never appear in the output when SnapMin is not negative.", "quantifier": "all histories, snapshot ranges and selections", "why_tests_cant": "must hold for every history length and selection", "anchors": ["cmd/tree.go:Run"]}
{"id": "C61", "title": "Halo masses and radii are consistent", "statement": "For each spherical overdensity definition, Radius and Mass are inverse to each other, a sphere of the returned radius has exactly the definition's mean density at the header's redshift, higher thresholds give smaller radii, and names of radii are read back as written. (Names of masses: C105.)", "quantifier": "all masses, radii, cosmologies and redshifts (exact arithmetic)", "why_tests_cant": "an identity between real functions of five parameters", "anchors": ["cmd/halo/radius.go:Radius", "cmd/halo/radius.go:Mass", "cmd/halo/radius.go:MassString", "cosmo/param.go:RhoCritical", "cosmo/param.go:RhoAverage"]}
{"id": "C62", "title": "Coefficient tables are transposed without loss", "statement": "The helper that turns rows of coefficients into columns puts entry (i, j) at (j, i), for every rectangular table with at least one row, and applying it twice gives the table back when it has a column.", "quantifier": "all rectangular tables", "why_tests_cant": "must hold for every shape", "anchors": ["cmd/shell.go:transpose"]}
{"id": "C63", "title": "Files that hold contributing particles are never skipped", "statement": "When a halo's particles are gathered, a particle file is skipped only if none of its particles lies close enough to the halo to contribute to it.", "quantifier": "all halo positions and radii, all file extents and particle positions in the periodic box", "why_tests_cant": "depends on the relative position of file, halo and box boundary", "anchors": ["los/halo.go:inRange", "los/halo.go:SheetIntersect", "cmd/stats.go:inRange"]}
{"id": "C64", "title": "Densities along lines of sight are those of the particles", "statement": "From the halo coordinates and the particle files, with any number of threads, each bin of each line of sight of each halo ends up with the sum over the particles of the file's subsample of the density of the particle's ball weighted by the fraction of the bin it covers (or the background density, if larger); the bins' radii are their geometric centres.", "quantifier": "all halos, particle files, numbers of bins, rays, rings and threads (exact arithmetic)", "why_tests_cant": "end-to-end statement over unbounded particle sets and all geometric configurations", "anchors": ["cmd/shell.go:createHalos", "cmd/shell.go:sphereLoop", "cmd/shell.go:loadSphereVecs", "los/halo.go:Insert", "los/halo.go:GetRhos", "los/halo.go:GetRs"]}
{"id": "C65", "title": "Rotations between axes are isometries that take one axis to the other", "statement": "EulerMatrixBetween(v1, v2) is defined for all non-zero v1 and v2; rotating by it takes v1 to the direction of v2, keeps all inner products, and is undone by EulerMatrixBetween(v2, v1).", "quantifier": "all pairs of non-zero vectors (exact arithmetic)", "why_tests_cant": "a statement about all directions, including degenerate ones such as the z axis", "anchors": ["los/geom/rotation.go:EulerMatrixBetween", "los/geom/rotation.go:RotateVec"]}
{"id": "C66", "title": "Shell masses and profiles use nearest images", "statement": "When stats and prof measure the position of a particle relative to a halo, they use the displacement to the nearest periodic image.", "quantifier": "all displacements and box widths", "why_tests_cant": "errors occur only across the box boundary", "anchors": ["cmd/stats.go:wrap", "cmd/prof.go:insertPoints"]}
{"id": "C67", "title": "Loading particles does not depend on the number of threads", "statement": "However many workers share the loading of a file, the particles used are exactly every n-th one of the file, each used exactly once, and the densities of all lines of sight are those of inserting these particles one after the other.", "quantifier": "all numbers of threads, particle counts, subsampling factors and earlier uses of the workers", "why_tests_cant": "must hold for every split and history of worker buffers", "anchors": ["cmd/shell.go:loadSphereVecs", "cmd/shell.go:chanLoadSphereVec", "los/halo.go:Split", "los/halo.go:Join"]}
{"id": "C68", "title": "The halo's particle pre-selection rejects nothing that matters", "statement": "A ball not centred exactly on the halo that is rejected by Halo.Intersect covers no part of any radial bin of any line of sight. (Balls on the centre: C106.)", "quantifier": "all halos, ball positions and radii (exact arithmetic)", "why_tests_cant": "a geometric statement over all rays and positions", "anchors": ["los/halo.go:Intersect"]}
{"id": "C69", "title": "Periodic and mirrored signals are continued correctly at the left end", "statement": "Kernel.Convolve and BoundaryCondition.Get with Periodic or Reflection read, to the left of the data, the sample of the periodic or mirrored continuation.", "quantifier": "all signals and kernels (exact arithmetic)", "why_tests_cant": "concerns every kernel width and position near the left end", "anchors": ["math/interpolate/filter.go:Kernel.ConvolveAt", "math/interpolate/filter.go:Get"]}
{"id": "C70", "title": "Fourth-order numerical derivatives are exact on quartics", "statement": "calc.Deriv with order 4 returns, at every sample of a uniform grid, the exact derivative when the samples come from a polynomial of degree up to 4.", "quantifier": "all uniform grids, lengths and polynomials of degree up to 4 (exact arithmetic)", "why_tests_cant": "universal over grids and coefficients, with special cases at both ends", "anchors": ["math/calc/deriv.go:Deriv"]}
{"id": "C71", "title": "Savitzky-Golay kernels reproduce polynomials and their first derivatives", "statement": "Convolving samples of a polynomial of degree up to the kernel's order with NewSavGolKernel returns the samples, and with NewSavGolDerivKernel the first derivative (and for order 2 the second), at every position where the window fits; even widths, widths not above the order and derivatives above the order panic. (Other derivatives: C107.)", "quantifier": "all orders, odd widths, spacings, signal lengths and polynomials (exact arithmetic)", "why_tests_cant": "the kernel comes from an LU solve with pivoting that must behave for every order and width", "anchors": ["math/interpolate/filter.go:NewSavGolKernel", "math/interpolate/filter.go:NewSavGolDerivKernel", "math/interpolate/filter.go:savgol"]}
{"id": "C72", "title": "Smoothing a profile gives its logarithmic slope and leaves the input alone", "statement": "analyze.Smooth returns the smoothed density profile and its logarithmic slope, exact at all inner samples for profiles whose logarithm is a polynomial of degree up to 4 in log radius, whatever the output buffers held, if all profiles smoothed before with this window had the same bin width; it leaves the given densities unchanged; with no more samples than the window it reports failure and changes nothing. (Other bin widths: C108.)", "quantifier": "all profiles, odd windows above 4, bin widths and histories of earlier calls with that width (exact arithmetic)", "why_tests_cant": "kernels are kept between calls in package variables, so the result depends on the history", "anchors": ["los/analyze/smooth.go:Smooth", "los/analyze/smooth.go:getSmoothingKernel"]}
{"id": "C73", "title": "The splashback radius is the steepest qualifying minimum of the slope", "statement": "analyze.SplashbackRadius returns ok exactly if some inner sample has a density below all densities at smaller radii and a slope below the limit that is less than both neighbouring slopes; the radius is that of the steepest such sample, the innermost one among ties. Profiles and slopes of different lengths panic.", "quantifier": "all profiles, slopes and limits", "why_tests_cant": "unbounded profiles with arbitrary ties and plateaus", "anchors": ["los/analyze/splashback_radius.go:SplashbackRadius"]}
{"id": "C74", "title": "Rings hold one independent splashback point per line of sight", "statement": "RingBuffer.Splashback stores for every line of sight of the ring the splashback radius of its own smoothed profile, its angle, and the corresponding point in the ring's plane and in space (PlaneToVolume of the plane point), whatever the buffer held and whatever rings were processed before, provided the bins have the same logarithmic width; lines without a radius have Oks false and radius 0. Clear restores the state after Init; OkPlaneCoords and OkPolarCoords return exactly the entries with Oks, in order. With no more bins than the window no line has a radius.", "quantifier": "all halos with any particles, rings, buffers and histories (exact arithmetic)", "why_tests_cant": "depends on the history of the shared kernels and buffers", "anchors": ["los/analyze/ring_buffer.go:Splashback", "los/analyze/ring_buffer.go:Clear", "los/analyze/ring_buffer.go:OkPlaneCoords", "los/analyze/ring_buffer.go:OkPolarCoords"]}
{"id": "C75", "title": "Histories carry the right snapshot numbers", "statement": "tree.HaloHistories gives every halo of a history the number of the snapshot it belongs to, given env.Halos.SnapOffset() (HSnapMax minus the number of halo catalogues), for every tree file.", "quantifier": "all tree files, roots and offsets", "why_tests_cant": "depends on how many snapshots each file covers", "anchors": ["los/tree/tree.go:findHalo", "los/tree/tree.go:descTree", "cmd/env/text_halos.go:InitTextHalo"]}
{"id": "C76", "title": "Density estimates follow the points", "statement": "GaussianKDE(xs, h, low, high, n) with n >= 3, low < high, h > 0 never panics whatever the points. It is the natural spline through n evenly spaced points from low to high whose values are the sum of exp(-((x - xi)/h)^2) over the points, up to the truncation of kernels at three widths: never above the sum, below it by at most exp(-9) per point, and exact where all points are within three widths. Outside [low, high] evaluation panics.", "quantifier": "every list of points (in or out of range, empty, repeated), every width, interval and number of grid points", "why_tests_cant": "truncation windows depend on the fractional position of each point relative to the grid", "anchors": ["los/analyze/kde.go:GaussianKDE"]}
{"id": "C77", "title": "The filtering tree refines peak by peak", "statement": "NewKDETree on points with positive radii and angles in [0, 2pi) panics exactly if there is no point or the density of all points has no strict peak at an interior sample radius. Otherwise level 0 has one anchor: the innermost peak; level l+1 has one anchor per sector of 1/2^(l+1) turn, which is a peak of the density of that sector's own points within one kernel width of the enclosing sector's anchor or of the level's curve at the sector's centre (on the first level: the peak nearest to the root anchor), or else the enclosing sector's anchor; the level's curve is the natural spline through the anchors continued periodically, and can be evaluated at every angle of a turn.", "quantifier": "every set of points, kernel width and number of levels", "why_tests_cant": "the anchors depend recursively on every coarser level; ties, empty sectors and missing peaks give combinatorially many cases", "anchors": ["los/analyze/kde.go:NewKDETree", "los/analyze/kde.go:connectMaxes", "los/analyze/kde.go:GetConnMaxes", "los/analyze/kde.go:GetRFunc"]}
{"id": "C78", "title": "The filter keeps exactly the points near its curve", "statement": "FilterNearby returns, in order, the points (with indices) closer than dr/2 to the level's curve. FilterPoints reduces each ring to what the first of the kernel widths h, 1.1h, ..., 1.1^9 h that keeps any point keeps (or the tenth), as plane coordinates r cos, r sin of that ring's valid points; it panics exactly when a ring has no valid points or a tree of one of these widths cannot be built. (C109.)", "quantifier": "every list of rings with any pattern of valid lines of sight, all levels and widths", "why_tests_cant": "depends on the whole point set through the tree; retries only happen for special point sets", "anchors": ["los/analyze/penna.go:FilterPoints", "los/analyze/kde.go:FilterNearby"]}
{"id": "C79", "title": "The shell is the least-squares Penna-Dines fit", "statement": "For points off the z axis that determine the shell, PennaCoeffs returns the I*J*K coefficients whose shell has strictly the smallest sum of squared radial differences from the points among all shells of that order; points that lie on a shell return its coefficients. PennaVolumeFit does this (K = 2) for all plane points of all rings placed in the volume. No points: panic.", "quantifier": "every point set, every order, every block size of the transposition, every inversion routine that is right on symmetric positive definite matrices", "why_tests_cant": "optimality compares with infinitely many other shells", "anchors": ["los/analyze/penna.go:PennaCoeffs", "los/analyze/penna.go:PennaVolumeFit", "los/analyze/penna.go:pinv"]}
{"id": "C80", "title": "Shell rows are independent of each other", "statement": "The row of coefficients that shell mode prints for a halo is the row a run on that halo alone prints: it does not depend on the other halos of the catalogue, on the order of its lines, on which snapshots the other halos are in, on the number of threads, or on the order in which Go enumerates maps; and a run fails exactly if the run on one of its lines fails. (Smoothing kernels, ring buffers, worker halos and particle buffers are all reused from halo to halo and from snapshot to snapshot.) It requires an odd smoothing window of 5 or more and fewer points than radial bins, halos at most half as wide as the box, and the same mean density in all snapshots.", "quantifier": "all catalogues, snapshots, particle files, configurations, numbers of workers and map enumeration orders", "why_tests_cant": "the state carried between halos is only visible for particular combinations of halos, files and thread counts", "anchors": ["cmd/shell.go:loop", "cmd/shell.go:sphereLoop", "cmd/shell.go:haloAnalysis", "cmd/shell.go:calcCoeffs", "los/analyze/smooth.go:Smooth", "los/analyze/ring_buffer.go"]}
{"id": "C81", "title": "Shell configuration check", "statement": "shell mode accepts exactly the configurations in which SubsampleFactor, RadialBins, Spokes, Rings, Order, Levels, SmoothingWindow, RKernelMult and Eta are positive and 0 < RMinMult < RMaxMult, and otherwise names a variable at fault. An accepted configuration with an odd window above 4 and below RadialBins is one the analysis works with (the conditions of the independence of rows). But accepted configurations with any other window (even, although the documentation says it must be odd; 4 or less; RadialBins or more) never return a row: every run on every catalogue and all particle data panics in the first halo, after its particles were read.", "quantifier": "all configurations, catalogues, particle data, worker counts", "why_tests_cant": "a test tries a few windows; the claim is about all accepted configurations and all data", "anchors": ["cmd/shell.go:ShellConfig.validate", "cmd/shell.go:ShellConfig.ReadConfig", "los/analyze/smooth.go:Smooth", "los/analyze/penna.go:FilterPoints"]}
{"id": "C82", "title": "Lines shell mode cannot use do not stop the others", "statement": "A line of the catalogue with snapshot -1 (as tree and coord mode write for halos they did not find) or with a radius that is not positive gets a row of zeros and leaves the other rows as they are.", "quantifier": "all catalogues, configurations and particle data", "why_tests_cant": "needs catalogues mixing good and bad lines, with all orders and positions", "anchors": ["cmd/shell.go:loop", "cmd/shell.go:createHalos", "cmd/shell.go:binIntersections", "cmd/memo/memoize.go:ReadHeaders"]}
{"id": "C83", "title": "Percentile profiles", "statement": "With PercentileProfile set, shell mode returns for each halo 2*RadialBins numbers: the geometric centres of the radial bins, then for each radius one of the densities that the Rings*Spokes lines of sight have there, namely the one of rank max(1, floor(Percentile/100 * Rings*Spokes)) counted from the top. So Percentile = 100 selects the smallest density and Percentile = 0 the largest.", "quantifier": "all halos, particles, ring normals, bin counts and percentiles in [0, 100]", "why_tests_cant": "the selection must be right for all multisets of densities and all percentiles", "anchors": ["cmd/shell.go:calcPercentile", "math/sort/median.go:Percentile", "los/halo.go:GetRs", "los/halo.go:GetRhos"]}
{"id": "C84", "title": "Equal-area pixels", "statement": "geom.DiskPixel and geom.SpherePixel give every point of the disk (radius up to 1) and every direction the number of a cell that contains it; cells are numbered without gaps below DiskPixelNum / SpherePixelNum and all have the same area. Exceptions: at level 0 the edge of the disk, at level 1 directions in the plane z = 0, get a number that is not a pixel.", "quantifier": "all levels, points of the disk and directions", "why_tests_cant": "a pixel boundary is a set of measure zero; the claim is about every point", "anchors": ["los/geom/pixel.go:DiskPixel", "los/geom/pixel.go:SpherePixel", "los/geom/pixel.go:DiskPixelNum", "los/geom/pixel.go:SpherePixelNum"]}
{"id": "C85", "title": "Density profiles", "statement": "prof adds the mass of a particle to radial bin j of a halo's profile if and only if its distance to the centre lies strictly between R*RMinMult and R*RMaxMult and in bin j of Bins logarithmic bins, and the kind of profile counts it (density: all; contained-density: inside the shell; bound-density: slower than the NFW escape velocity); the density is the mass over the bin's volume and the radius the geometric mean of its edges. It never panics on the way. Exception: particles more than half the box away along an axis (the periodic wrap is wrong).", "quantifier": "all catalogues of particles, halos, bin numbers and radii", "why_tests_cant": "unbounded number of particles; boundaries of bins are exact", "anchors": ["cmd/prof.go:insertPoints", "cmd/prof.go:processProfile", "cmd/prof.go:wrap"]}
{"id": "C86", "title": "Median profiles", "statement": "prof with median-density adds a particle's mass (times the number of pixels) to exactly the radial bin and equal-area pixel that contain it, and reports per bin the value of the requested rank among the pixels divided by the bin's volume. Exception: at MedianPixelLevel = 1 a particle in the plane z = 0 of the halo.", "quantifier": "all particles, halos, levels, percentiles", "why_tests_cant": "every direction, including axis and boundaries", "anchors": ["cmd/prof.go:insertMedianPoints", "cmd/prof.go:processMedianProfile"]}
{"id": "C87", "title": "prof prints profiles", "statement": "shellfish prof prints for every line of the catalogue the profile of its halo.", "quantifier": "all catalogues and snapshots", "why_tests_cant": "depends on which files meet which halos", "anchors": ["cmd/prof.go:Run"]}
{"id": "C88", "title": "prof configuration is checked", "statement": "prof requires a known ProfileType and rejects values that cannot be used (no bins, RMinMult >= RMaxMult, Percentile outside 0..100, negative level), naming the variable that is wrong.", "quantifier": "all values of the variables", "why_tests_cant": "the values are unbounded", "anchors": ["cmd/prof.go:ReadConfig", "cmd/prof.go:validate"]}
{"id": "C89", "title": "Linear interpolators work with decreasing tables", "statement": "The searcher accepts strictly decreasing abscissae and brackets every x within their range.", "quantifier": "all strictly decreasing tables and all x", "why_tests_cant": "Quantifies over tables, queries and cached guess state left by earlier queries.", "anchors": ["math/interpolate/search.go:searcher.search", "math/interpolate/search.go:searcher.init", "math/interpolate/search.go:searcher.unifInit"]}
{"id": "C90", "title": "Trilinear interpolation interpolates", "statement": "TriLinear returns the table value at every grid node, is exact for tri-affine functions and always returns a value between the smallest and largest value of the surrounding cell.", "quantifier": "all tables, all query points inside the grid", "why_tests_cant": "Universal over tables and query points.", "anchors": ["math/interpolate/linear_interpolators.go:Linear", "math/interpolate/linear_interpolators.go:BiLinear", "math/interpolate/linear_interpolators.go:TriLinear"]}
{"id": "C91", "title": "Splines of decreasing and of two-point tables, integrals from inside a cell", "statement": "A Spline can be built from decreasing tables and from two points with the same guarantees as from increasing tables, and Integrate(lo,hi) is the integral of Eval for any bounds.", "quantifier": "all tables of at least three strictly increasing abscissae, all query points (exact arithmetic)", "why_tests_cant": "Universal over tables; depends on the tridiagonal solve being right for every size.", "anchors": ["math/interpolate/spline.go:Spline", "math/interpolate/spline.go:TriDiagAt"]}
{"id": "C92", "title": "Matrix products are those of linear algebra", "statement": "Mult and MultAt compute the matrix product for every compatible shape; incompatible shapes panic.", "quantifier": "all shapes and all entries (exact arithmetic)", "why_tests_cant": "Index arithmetic over all rectangular shapes.", "anchors": ["math/mat/mat.go:MultAt", "math/mat/mat.go:TransposeAt", "math/mat/mat.go:MultVecAt", "math/mat/mat.go:VecMultAt"]}
{"id": "C93", "title": "LU factors solve linear systems", "statement": "For every non-singular A, LU().SolveVector(b) returns x with A x = b, SolveMatrix does the same column by column and Invert returns the two-sided inverse.", "quantifier": "all sizes, all non-singular matrices, all right-hand sides (exact arithmetic)", "why_tests_cant": "Pivoting paths depend on the matrix; only a universal statement covers all pivot sequences.", "anchors": ["math/mat/mat.go:LUFactors", "math/mat/mat.go:LUFactorsAt", "math/mat/mat.go:SolveVector"]}
{"id": "C94", "title": "Sobol sequences with calls of different dimensions", "statement": "Calls of NextAt with different numbers of dimensions never repeat a value in a dimension.", "quantifier": "all sequences of calls with dimensions 1..6", "why_tests_cant": "2^30 positions per dimension and all interleavings.", "anchors": ["math/rand/sobol.go:SobolSequence"]}
{"id": "C95", "title": "Filter files say where a halo's particles start", "statement": "The StartByte field of each halo in a filter file is the file offset of its particle data.", "quantifier": "all numbers of halos, all particle list lengths (including empty), all IDs, both byte orders", "why_tests_cant": "Universal over contents; offsets accumulate over arbitrarily many halos.", "anchors": ["io/filter_data.go:WriteFilter", "io/filter_data.go:ReadFilter", "cmd/stats.go"]}
{"id": "C96", "title": "A crash does not break header memoisation", "statement": "After a process is killed at any point while it writes a header cache file, later calls of memo.ReadHeaders still return the headers of the snapshot's files.", "quantifier": "all histories of calls and restarts", "why_tests_cant": "Crash points and histories.", "anchors": ["cmd/memo/memoize.go:ReadHeaders"]}
{"id": "C97", "title": "All Gadget-2 files can be read", "statement": "Headers of either byte order are read, types listed twice count once, and files without particles, without a mass block or with id blocks of 2 GiB or more are read like others.", "quantifier": "all well-formed Gadget-2 files and configurations", "why_tests_cant": "Offsets over all counts of the six types.", "anchors": ["io/gadget2.go"]}
{"id": "C98", "title": "Short reads are noticed", "statement": "If a Read delivers only a part of a block, the reader either goes on reading or reports an error; it never returns values that are not in the file.", "quantifier": "all block lengths and all ways a reader can split a block", "why_tests_cant": "All bit patterns and sizes.", "anchors": ["io/io.go", "io/gadget2.go"]}
{"id": "C99", "title": "Names without a meaning are not answered", "statement": "A value name that is neither a configured column nor a radius with a configured mass column is an error.", "quantifier": "all column configurations, catalogues and value names", "why_tests_cant": "Name/column combinations are unbounded, including duplicated and missing names.", "anchors": ["cmd/halo/io.go:NewVarColumns", "cmd/halo/io.go:GetColumn"]}
{"id": "C100", "title": "A killed process does not make halos unavailable", "statement": "After a process was killed while writing a full halo cache file, later look-ups of halos of the catalogue succeed.", "quantifier": "all histories, all crash points inside the writing of either cache file", "why_tests_cant": "Crash points are every byte offset of two files in every history.", "anchors": ["cmd/memo/memoize.go:readRockstar", "cmd/memo/memoize.go:ReadRockstar", "cmd/halo/io.go:RockstarConvert"]}
{"id": "C101", "title": "stats counts exactly the particles of a shell", "statement": "stats mode counts in M_sp exactly the contained particles and writes to the shell particle file exactly the particles within ShellWidth*R of the shell (inside it, for a negative width), whatever radial bounds are used to speed up the test.", "quantifier": "all shells, particle positions, radial bounds and widths (exact arithmetic)", "why_tests_cant": "Universal over positions and shells; wrong bounds only matter in rare configurations.", "anchors": ["los/analyze/shell.go:Contains", "cmd/stats.go:massContainedChan", "cmd/stats.go:appendShellParticlesChan", "cmd/stats.go:rangeSp"]}
{"id": "C102", "title": "R_sp and DiffVolume", "statement": "R_sp is the radius of the sphere with the volume of the shell and DiffVolume the volume between two shells.", "quantifier": "all shells and all sequences of drawn directions (exact arithmetic)", "why_tests_cant": "The outcome depends on an unbounded random stream.", "anchors": ["los/analyze/shell.go:Volume", "los/analyze/shell.go:MeanRadius", "los/analyze/shell.go:RadialRange", "los/analyze/shell.go:MaxDiff", "los/analyze/shell.go:DiffVolume", "cmd/stats.go:269"]}
{"id": "C103", "title": "Angular fractions count all directions", "statement": "AngularFractionProfile returns the percentage of all lines of sight at a given radius which are inside the shell, as its documentation says.", "quantifier": "all shells, sample sequences, ranges and bin counts (exact arithmetic)", "why_tests_cant": "Unbounded sample sequences; boundary cases of binning.", "anchors": ["los/analyze/shell.go:AngularFractionProfile"]}
{"id": "C104", "title": "Every row is converted and analysed with its own snapshot's cosmology", "statement": "In a catalogue that mixes snapshots, coord mode's values for a row and shell mode's background density depend only on that row and its own snapshot, not on the other rows of the input.", "quantifier": "all input catalogues, all units, all map enumeration orders", "why_tests_cant": "the wrong redshift factor only shows for physical units and mixed snapshots; tests use one snapshot", "anchors": ["cmd/coord.go:readHaloCoords", "cmd/halo/radius.go:UnitConversionFactor", "cmd/shell.go:loop", "cmd/shell.go:createHalos"]}
{"id": "C105", "title": "The names of a radius and of its mass correspond", "statement": "For each spherical overdensity definition the name of the mass is that of the radius with M for R.", "quantifier": "all definitions", "why_tests_cant": "an identity between real functions of five parameters", "anchors": ["cmd/halo/radius.go:Radius", "cmd/halo/radius.go:Mass", "cmd/halo/radius.go:MassString", "cosmo/param.go:RhoCritical", "cosmo/param.go:RhoAverage"]}
{"id": "C106", "title": "Balls centred on the halo are not lost", "statement": "A ball centred exactly on the halo that is rejected by Halo.Intersect covers no part of any radial bin of any line of sight.", "quantifier": "all halos, ball positions and radii (exact arithmetic)", "why_tests_cant": "a geometric statement over all rays and positions", "anchors": ["los/halo.go:Intersect"]}
{"id": "C107", "title": "Savitzky-Golay kernels for higher derivatives", "statement": "Convolving samples of a polynomial of degree up to the kernel's order with NewSavGolDerivKernel gives the requested derivative of second or higher order at every position where the window fits.", "quantifier": "all orders, odd widths, spacings, signal lengths and polynomials (exact arithmetic)", "why_tests_cant": "the kernel comes from an LU solve with pivoting that must behave for every order and width", "anchors": ["math/interpolate/filter.go:NewSavGolKernel", "math/interpolate/filter.go:NewSavGolDerivKernel", "math/interpolate/filter.go:savgol"]}
{"id": "C108", "title": "Smoothing does not depend on earlier profiles", "statement": "The result of analyze.Smooth does not depend on the profiles smoothed before.", "quantifier": "all profiles, odd windows above 4, bin widths and histories of earlier calls with that width (exact arithmetic)", "why_tests_cant": "kernels are kept between calls in package variables, so the result depends on the history", "anchors": ["los/analyze/smooth.go:Smooth", "los/analyze/smooth.go:getSmoothingKernel"]}
{"id": "C109", "title": "Rings that cannot be filtered are reported", "statement": "FilterPoints reports a ring that cannot be filtered through its ok result.", "quantifier": "every list of rings with any pattern of valid lines of sight, all levels and widths", "why_tests_cant": "depends on the whole point set through the tree; retries only happen for special point sets", "anchors": ["los/analyze/penna.go:FilterPoints", "los/analyze/kde.go:FilterNearby"]}
{"id": "C110", "title": "Percentile returns a known rank", "statement": "sort.Percentile(xs, p) returns the value of rank max(1, floor(p n)) counted from the largest of the n values, with any buffer of the right length.", "quantifier": "all lists, all p in [0, 1] (p n computed exactly)", "why_tests_cant": "depends on the pivots of a recursive selection", "anchors": ["math/sort/median.go:Percentile"]}
{"id": "C111", "title": "Runs that share a memo directory agree on what matters", "statement": "Two runs that get past the start-up check with the same MemoDir, with no clearing of the directory in between, agree in every variable that main compares (Version, the snapshot file names and ranges, snapshot/halo types and directories, halo columns, position and mass units, byte order), whatever other runs, refused runs and runs killed while copying their config file happened; the first run in a clean directory passes, later ones pass exactly if their valid config file agrees with the copy.", "quantifier": "every history of runs with any config file texts, of runs killed after any number of copied bytes, and of clearings", "why_tests_cant": "The guarantee ranges over unbounded histories of config files and crash points.", "anchors": ["shellfish.go checkMemoDir, copyFile, configEqual", "cmd/cmd.go GlobalConfig.ReadConfig"]}
{"id": "C112", "title": "A killed run does not lock the memo directory", "statement": "After a run is killed (or runs out of disk space) while it copies its config file into MemoDir, a later run with the same config file is accepted.", "quantifier": "every config file and every number of bytes that reached the disk", "why_tests_cant": "Needs every crash point of the copy.", "anchors": ["shellfish.go checkMemoDir, copyFile"]}
{"id": "C113", "title": "Cached headers are those of the current configuration", "statement": "In every history of runs, killed copies and clearings, each header that a run gets (cached or not) is the one its own configuration gives, provided the headers depend only on variables that main compares.", "quantifier": "every history of runs with any config files and any snapshots asked for", "why_tests_cant": "Staleness depends on which earlier run with which configuration filled the cache.", "anchors": ["shellfish.go checkMemoDir", "cmd/memo/memoize.go ReadHeaders"]}
{"id": "C114", "title": "Changing a variable never leaves stale cache files in use", "statement": "If a variable that cached results depend on is changed, runs do not use results cached under the old value.", "quantifier": "every pair of config files", "why_tests_cant": "Quantifies over pairs of configurations; a test would try a few variables.", "anchors": ["shellfish.go configEqual", "io/nil.go NilBuffer.ReadHeader", "io/gadget2.go postprocess"]}
{"id": "C115", "title": "The memo directory check is safe for simultaneous runs", "statement": "Two runs started at the same time with conflicting config files do not both get past the check of a shared MemoDir.", "quantifier": "every interleaving of the steps of two runs", "why_tests_cant": "Depends on the schedule.", "anchors": ["shellfish.go checkMemoDir"]}
{"id": "C116", "title": "Which global config files are accepted", "statement": "Reading a global config file succeeds with a configuration g exactly if the file assigns only known variables, each at most once and with a value of its type, g has the assigned values or the defaults (units with spaces removed), and g satisfies the documented constraints on Version, types, directories, halo columns, units, byte order, block and snapshot ranges and format meanings.", "quantifier": "every file text, every conversion and lower-casing function", "why_tests_cant": "Acceptance ranges over all texts; unit tests try single files.", "anchors": ["cmd/cmd.go GlobalConfig.ReadConfig, validate, validateFormat, inStringSlice"]}
{"id": "C117", "title": "Nil snapshots need their cosmology", "statement": "A config file with SnapshotType = nil is accepted only if NilSnapOmegaM, NilSnapOmegaL, NilSnapH100, NilSnapTotalWidth and NilSnapScaleFactors are all set.", "quantifier": "every config file", "why_tests_cant": "Ranges over all files and all subsets of unset variables.", "anchors": ["cmd/cmd.go validate lines 302-326", "io/nil.go ReadHeader"]}
{"id": "C118", "title": "The failure of a stage reaches the end of a pipe", "statement": "In a pipe of shellfish commands, if a stage that names a mode returns an error (exit status 1; legal Logging value, particles not nil), every later stage exits with status 1 and passes on a line starting with Shellfish; input that does not start with that word is processed.", "quantifier": "every pipe of any length, every mode behaviour, every input", "why_tests_cant": "Depends on the composition of arbitrarily many processes.", "anchors": ["shellfish.go main"]}
{"id": "C119", "title": "A stage that ends abnormally fails the pipe", "statement": "In a pipe of shellfish commands, if any stage ends with a non-zero status (an error or a crash), the last stage ends with a non-zero status.", "quantifier": "every pipe, every mode behaviour including crashes", "why_tests_cant": "Depends on the composition of processes and on crashes.", "anchors": ["shellfish.go main"]}
{"id": "C120", "title": "tree needs a merger tree", "statement": "tree mode is refused if TreeType is nil, as documented in the example config file.", "quantifier": "every config file with TreeType = nil", "why_tests_cant": "Ranges over all configurations.", "anchors": ["shellfish.go initHalos", "cmd/cmd.go ExampleConfig"]}
{"id": "C121", "title": "The command line is split into config file and flags", "statement": "The word after the mode is the mode's config file unless it is absent, empty or starts with a minus sign; all other words are flag words, none is lost and their order is kept.", "quantifier": "every list of arguments", "why_tests_cant": "Ranges over all argument lists.", "anchors": ["shellfish.go getFlags, getConfig"]}
{"id": "C122", "title": "Modes that lack their input are refused", "statement": "With SnapshotType = nil the modes shell, stats, prof, check, phase and potential end with an error status, and with HaloType = nil the modes id, tree and coord do, unless their input is empty.", "quantifier": "every configuration, mode behaviour, argument list and input", "why_tests_cant": "Ranges over all configurations and inputs.", "anchors": ["shellfish.go main, initHalos"]}
{"id": "C123", "title": "Total-velocity phase profiles put every particle in its cell", "statement": "phase with ProfileType = total adds the mass of every particle inside RMax and slower than VMax to exactly one cell, the one whose radius and speed bins contain it, and adds nothing else.", "quantifier": "all particles within half a box of the halo, all halos, bin counts, radii and velocities", "why_tests_cant": "Ranges over all particle positions and velocities, including bin edges.", "anchors": ["cmd/phase.go insertPoints, Run"]}
{"id": "C124", "title": "Radial phase profiles put every particle in its cell", "statement": "phase with ProfileType = radial adds the mass of every particle inside RMax with radial velocity between -VMax and VMax to the cell whose bins contain it, and adds nothing else.", "quantifier": "all particles, halos, bin counts, radii and velocities", "why_tests_cant": "A truncation toward zero matters only for velocities just below -VMax.", "anchors": ["cmd/phase.go insertPoints"]}
{"id": "C125", "title": "The axes of phase profiles are the bin centres and densities integrate to the mass", "statement": "In phase output the R and V columns are the centres of the bins, and each density times the volume of its shell times the width of its velocity bin is the mass counted in the cell.", "quantifier": "all accumulated masses, bin counts, radii and velocities, both profile types", "why_tests_cant": "An identity over all real inputs.", "anchors": ["cmd/phase.go processPhase"]}
{"id": "C126", "title": "phase rows hold their own snapshot's particles", "statement": "Each row of phase output holds the masses of the particles of all files of its own snapshot around its own halo; rows with snapshot -1 hold zeros; the map iteration order does not matter.", "quantifier": "every catalogue, every assignment of snapshots, every map order, every set of files", "why_tests_cant": "Depends on map iteration order and on every input list.", "anchors": ["cmd/phase.go Run"]}
{"id": "C127", "title": "phase's header names its columns", "statement": "The header comment of phase output gives for each heading (R, V, Rho) the columns that hold the values of this heading.", "quantifier": "all bin counts", "why_tests_cant": "Must hold for every pair of bin counts; equal counts hide the error.", "anchors": ["cmd/phase.go Run (CommentString)"]}
{"id": "C128", "title": "Nil snapshots have the configured headers", "statement": "With SnapshotType = nil, the header of each snapshot of SnapMin..SnapMax holds the configured cosmology and box width, and the redshift of the scale factor listed for this snapshot.", "quantifier": "every accepted configuration with one scale factor per snapshot, every snapshot of the range", "why_tests_cant": "Ranges over all configurations; SnapMin = 0 hides the error.", "anchors": ["io/nil.go ReadHeader", "cmd/env/nil_snapshot.go InitNil", "cmd/env/env.go ParticleCatalog"]}
{"id": "C129", "title": "Potential maps give the potential at the printed coordinates", "statement": "In potential mode, the value of cell (i, j) of a map is the potential (in units of G Mvir / Rvir, divided by ParticleFraction) of the used particles at the point of the plane whose coordinates relative to the halo are the i-th and j-th printed R values.", "quantifier": "all particles, halos, random draws and grid sizes", "why_tests_cant": "An identity over all particle positions and grid points.", "anchors": ["cmd/potential.go insertPotentialPoints, processPotential"]}
{"id": "C130", "title": "potential rows hold their own snapshot's particles", "statement": "Each row of potential output is computed from the particles of all files of its own snapshot, between RMinMult and RMaxMult radii from its own halo and picked by a random number of at most ParticleFraction (all of them if ParticleFraction = 1); rows with snapshot -1 hold zeros; map order does not matter.", "quantifier": "every catalogue, map order, set of files and sequence of random numbers", "why_tests_cant": "Depends on map iteration order, random numbers and all inputs.", "anchors": ["cmd/potential.go Run"]}
{"id": "C131", "title": "potential's header names its columns", "statement": "The header comment of potential output gives for each heading the columns that hold its values.", "quantifier": "all grid sizes, all rows", "why_tests_cant": "Must hold for every grid size.", "anchors": ["cmd/potential.go Run (CommentString, FormatCols)"]}
{"id": "C132", "title": "Potential maps respect the periodic box", "statement": "In potential mode, particles that are near a halo across a face of the periodic box are used like others.", "quantifier": "all halos and particles", "why_tests_cant": "Only halos near a face show the difference.", "anchors": ["cmd/potential.go insertPotentialPoints"]}
{"id": "C133", "title": "check reports exactly the wrong fields", "statement": "A check run lists as failed exactly those fields of its config file that are set to a positive value and disagree by 10% or more with what the snapshot says (H0, OmegaM, OmegaL, BoxWidth, masses, particle count, mass of the example halo), and reports success exactly if there is no such field.", "quantifier": "all check configurations, snapshot headers, particle lists and file layouts (masses not -1, no particle exactly on the halo's sphere, no halo across the box edge)", "why_tests_cant": "A test fixes one configuration and one snapshot; completeness and soundness of the list of failures are statements over all of them.", "anchors": ["cmd/check.go: CheckConfig.Run, checkAlmostEq, failureMass loop, example halo check"]}
{"id": "C134", "title": "check looks at all particle masses", "statement": "If some particle of the simulation has a mass that ParticleMasses does not allow, check reports it.", "quantifier": "all snapshots, all files, all configurations with ParticleMasses", "why_tests_cant": "The defect is invisible for every single-file snapshot and for every snapshot whose first file is representative.", "anchors": ["cmd/check.go: CheckConfig.Run"]}
{"id": "C135", "title": "check verifies every field set in its config file", "statement": "A field that the user writes in the check config file is compared with the snapshot, whatever value it has (for example OmegaL = 0).", "quantifier": "all configurations and headers", "why_tests_cant": "Ranges over every header value for a fixed configuration value.", "anchors": ["cmd/check.go: CheckConfig.Run"]}
{"id": "C136", "title": "A correct ParticleCount passes", "statement": "If ParticleCount is the number of particles in the snapshot, check does not report it as wrong, for every snapshot type.", "quantifier": "all snapshot types, particle counts and configurations", "why_tests_cant": "Needs real snapshots of every type; the count must be right for all sizes.", "anchors": ["cmd/check.go: CheckConfig.Run", "io/gotetra.go: TotalParticles", "io/artio.go: TotalParticles", "io/bolshoi.go: TotalParticles"]}
{"id": "C137", "title": "Documented config files are accepted", "statement": "In every mode, a config file with the header shown in the mode's example file that assigns documented variables, each at most once, to values of their types is read without error, and every variable then has the assigned value or its default.", "quantifier": "all texts with the documented header, all modes, all subsets and orders of assignments", "why_tests_cant": "The set of config files is infinite; a test reads a few fixed ones, and the modes without such a test have wrong headers.", "anchors": ["cmd/*.go: ExampleConfig, ReadConfig", "parse/config.go: ReadConfig"]}
{"id": "C138", "title": "Each mode accepts exactly its valid configurations", "statement": "For id, stats, phase and potential: a configuration given by file or by flags is accepted exactly if it assigns only the mode's variables, each at most once, to values of the right type and inside the documented domain (known type and strategy names, positive sample counts, non-negative bin counts and multipliers, a snapshot set); each field then has the assigned value or the default.", "quantifier": "all config texts and flag lists of these modes", "why_tests_cant": "Soundness and completeness over all inputs; tests show single accepted or rejected files.", "anchors": ["cmd/id.go: ReadConfig, validate", "cmd/stats.go: ReadConfig, validate", "cmd/phase.go: ReadConfig, validate", "cmd/potential.go: ReadConfig, validate"]}
{"id": "C139", "title": "An empty mass range is reported", "statement": "id mode reports an error if M200mMin is larger than M200mMax.", "quantifier": "all pairs of masses", "why_tests_cant": "Every pair of numbers must be rejected.", "anchors": ["cmd/id.go: validate lines 166-172"]}
{"id": "C140", "title": "Documented defaults are the real defaults", "statement": "A variable for which the example config file states a default has this value in every run that does not set it.", "quantifier": "all modes, variables and configurations that do not set the variable", "why_tests_cant": "Quantifies over all configurations that leave the variable out.", "anchors": ["cmd/*.go: ExampleConfig, ReadConfig"]}
{"id": "C141", "title": "tree mode prints exactly the selected part of the main branches", "statement": "For every input catalogue whose halos are all in the tree files, tree mode prints the (ID, snapshot) pairs of the main branches of the input halos, halo by halo in input order, restricted to SnapMin..SnapMax and to SelectSnaps if given, each once; if a halo is in no file the run fails.", "quantifier": "all input texts, tree files, snapshot ranges and selections", "why_tests_cant": "The output depends on the whole merger tree, the input text and the selection; tests fix all three.", "anchors": ["cmd/tree.go: Run", "cmd/halo/tree: HaloHistories", "cmd/catalog: Parse, FormatCols"]}
{"id": "C142", "title": "Histories of different halos are separated by sentinel rows", "statement": "In tree output, the histories of different input halos are separated by a row with ID and snapshot -1.", "quantifier": "all input catalogues with at least two halos, all configurations", "why_tests_cant": "A statement about every output.", "anchors": ["cmd/tree.go: Run lines 95-125"]}
{"id": "C143", "title": "tree mode reads exactly the tree_*.dat files", "statement": "The merger-tree files used are exactly the files of TreeDir whose names start with tree_ and end with .dat, in listing order.", "quantifier": "all directory listings", "why_tests_cant": "All file names.", "anchors": ["cmd/tree.go: treeFiles"]}
{"id": "C144", "title": "Headers report where the particles are", "statement": "For LGadget-2, Gadget-2 and ARTIO files, every particle of a file has a periodic image in the region (Origin, Width) that ReadHeader reports for the file; along every axis the region is the whole box or at most half of it, and then it is as small as possible in the sense that particles lie on both of its ends.", "quantifier": "all lists of particles inside the box, in all orders", "why_tests_cant": "The region is grown particle by particle with periodic wrapping, so the result depends on the order; all orders and positions matter.", "anchors": ["io/io.go: boundingBox", "io/lgadget2.go: postprocess", "io/gadget2.go: postprocess", "io/artio.go: ReadHeader"]}
{"id": "C145", "title": "Files are not skipped although they hold particles of a halo", "statement": "A file that holds a particle closer than r to a halo (in the periodic box) passes the test of the header region against the halo's sphere of radius r, so that the file is read.", "quantifier": "all files (particle lists), halo positions and radii, including files across the faces of the box", "why_tests_cant": "Combines the region computed from arbitrary particles with the periodic sphere test.", "anchors": ["io/io.go: boundingBox", "cmd/shell.go, cmd/stats.go: binIntersections, sphereSheetIntersect", "los/halo.go: SheetIntersect"]}
{"id": "C146", "title": "LGadget-2 files are read completely", "statement": "Reading a complete LGadget-2 file in the configured byte order returns all of its particles in file order, each with its own position (as the image in the box), velocity (times the square root of the scale factor) and id, and with the same given mass, whatever the buffers held before; ReadHeader's N is the number of particles. (The position is the corruption error when a coordinate is far out of the box.)", "quantifier": "all files with consistent headers, both byte orders, both machine orders, all particle lists and float arithmetics, all previous buffer contents", "why_tests_cant": "The reader reuses memory and reinterprets bytes in place; every combination of byte order, sizes and old memory matters.", "anchors": ["io/lgadget2.go: readLGadget2Particles, readLGadget2Header, Read, postprocess", "io/io.go: readVecAsByte, readInt64AsByte"]}
{"id": "C147", "title": "LGadget-2 positions lie in the box", "statement": "Every position that reading an LGadget-2 file returns without error has all coordinates in [0, box width), and is a periodic image of the position in the file; coordinates that cannot be moved into the box are reported as corruption.", "quantifier": "all coordinates and box widths (exact arithmetic)", "why_tests_cant": "Ranges over all real coordinates; the tests only use well formed files.", "anchors": ["io/lgadget2.go: readLGadget2Particles"]}
{"id": "C148", "title": "LGadgetNpartNum selects the particle counter", "statement": "With LGadgetNpartNum = 1 the number of particles is the last counter of the header, with 2 the two counters are one 64 bit number; TotalParticles agrees with the header, and a wrong LGadgetNpartNum is noticed.", "quantifier": "all header contents", "why_tests_cant": "All 32 bit counter values matter.", "anchors": ["io/lgadget2.go: lgadgetParticleNum, TotalParticles"]}
{"id": "C149", "title": "gotetra files: the segment is returned", "statement": "Reading a gotetra file in either byte order (given by the file's flag as documented) returns the positions of the grid points whose three coordinates are below SegmentWidth, x fastest, each once, with the uniform particle mass; the header's N is their number, and the buffer can be closed and used again.", "quantifier": "all segment and grid widths, all positions, both byte orders, all buffer contents", "why_tests_cant": "The triple loop over the grid and the in-place byte swap must be right for all widths.", "anchors": ["io/gotetra.go: loadSheetHeader, readSheetPositionsAt, Read, NewGotetraBuffer, ReadHeader"]}
{"id": "C150", "title": "gotetra snapshots: every particle once", "statement": "When all files of a gotetra snapshot (a cube of cells whose grids overlap with their neighbours) are read in turn through one buffer, every particle of the simulation is returned exactly once, by exactly one of the files.", "quantifier": "all numbers of cells, segment widths, grid widths and particle positions", "why_tests_cant": "Ranges over all decompositions of the simulation; a permutation statement about all particles.", "anchors": ["io/gotetra.go: Read"]}
{"id": "C151", "title": "Damaged gotetra files are reported", "statement": "Reading a gotetra file that is missing, cut off or of another shape returns an error; particles of previously read files are never returned in its place.", "quantifier": "all files, all previous contents of the buffer", "why_tests_cant": "Depends on what was read before.", "anchors": ["io/gotetra.go: Read, readSheetPositionsAt"]}
{"id": "C152", "title": "gotetra particles are complete", "statement": "Every particle that is read from a gotetra file has a velocity and an id which identifies it within the simulation.", "quantifier": "all files and buffers", "why_tests_cant": "All files.", "anchors": ["io/gotetra.go: Read"]}
{"id": "C153", "title": "Bolshoi and BolshoiP files return the particles of their cell", "statement": "Reading a Bolshoi or BolshoiP file returns exactly the particles of the file that lie in the cell of the box the file is responsible for, in file order, each with its own position, velocity and id, and the boundary copies of neighbouring cells are left out.", "quantifier": "all files of either layout, byte orders, record groupings, cell grids, old buffer contents and float arithmetics", "why_tests_cant": "All files, group structures and buffer contents.", "anchors": ["io/bolshoi.go: Read", "io/bolshoiP.go: Read", "io/io.go: readBolshoiParticleAsByte"]}
{"id": "C154", "title": "Bolshoi snapshots: every particle exactly once", "statement": "Reading all files of a Bolshoi or BolshoiP snapshot returns every particle of the box exactly once.", "quantifier": "all particle positions in the box, all cell grids", "why_tests_cant": "All positions, including those on faces and those next to rounded faces.", "anchors": ["io/bolshoi.go: Read", "io/bolshoiP.go: Read"]}
{"id": "C155", "title": "Bolshoi headers describe the file", "statement": "The header of a Bolshoi or BolshoiP file gives the number of particles that Read returns and a region which contains all of them.", "quantifier": "all files", "why_tests_cant": "All files.", "anchors": ["io/bolshoi.go: ReadHeader", "io/bolshoiP.go: ReadHeader"]}
{"id": "C156", "title": "Cut-off Bolshoi files are never read", "statement": "A Bolshoi or BolshoiP file which is cut off at any byte is never read successfully: no truncated set of particles is returned.", "quantifier": "all files and all cut positions", "why_tests_cant": "Every truncation point.", "anchors": ["io/bolshoi.go: Read", "io/bolshoiP.go: Read"]}
{"id": "C157", "title": "Sphere tests are exact", "statement": "VecIntersect, SphereIntersect and TetraContain are true exactly when the point is in the ball, the balls have a common point, and the tetrahedron is in the ball; BoundingSphere contains the tetrahedron.", "quantifier": "all spheres, points and tetrahedra", "why_tests_cant": "All real inputs.", "anchors": ["los/geom/primitives.go: SphereIntersect, VecIntersect, TetraContain, BoundingSphere"]}
{"id": "C158", "title": "SphereContain as documented", "statement": "s1.SphereContain(s2) is true exactly when s1 is completely contained in s2.", "quantifier": "all pairs of spheres", "why_tests_cant": "All pairs.", "anchors": ["los/geom/primitives.go: SphereContain"]}
{"id": "C159", "title": "TetraIntersect finds overlaps", "statement": "TetraIntersect is true exactly when the sphere and the tetrahedron overlap.", "quantifier": "all spheres and tetrahedra", "why_tests_cant": "All shapes.", "anchors": ["los/geom/primitives.go: TetraIntersect"]}
{"id": "C160", "title": "Line segments and spheres", "statement": "LineSegmentIntersect returns the two distances at which a segment with a unit direction enters and leaves a sphere and whether they are on the segment.", "quantifier": "all spheres and segments", "why_tests_cant": "All directions.", "anchors": ["los/geom/primitives.go: LineSegmentIntersect"]}
{"id": "C161", "title": "Volumes of tetrahedra", "statement": "Volume returns the volume of a tetrahedron: it does not depend on the order of the vertices, position or rotation, is additive under cuts, is right for box corners and 0 for flat ones.", "quantifier": "all tetrahedra", "why_tests_cant": "All shapes.", "anchors": ["los/geom/primitives.go: Volume", "los/geom/rotation.go: Rotate"]}
{"id": "C162", "title": "Orientation of tetrahedra", "statement": "Orient keeps the vertices and arranges them so that all faces point outward for +1 and inward for -1.", "quantifier": "all tetrahedra", "why_tests_cant": "All shapes.", "anchors": ["los/geom/primitives.go: Orient, tetraIdxs"]}
{"id": "C163", "title": "Rays through tetrahedra", "statement": "IntersectionDistance reports an intersection exactly when the ray meets the tetrahedron, and the two distances delimit the part of the ray inside of it.", "quantifier": "all tetrahedra and rays", "why_tests_cant": "All rays, including degenerate ones.", "anchors": ["los/geom/intersection.go: IntersectionBary, IntersectionDistance", "los/geom/primitives.go: Distance, EdgeIdx, PluckerTetra.Init, SignDot"]}
{"id": "C164", "title": "Translations of Pluecker coordinates", "statement": "Translating a ray or the edges of a tetrahedron gives the same as building them from translated points, and the permuted inner product is 0 exactly when the lines are coplanar.", "quantifier": "all rays, tetrahedra and shifts", "why_tests_cant": "All inputs.", "anchors": ["los/geom/primitives.go: Translate, Dot"]}
{"id": "C165", "title": "Lines in the plane", "statement": "Line.Init gives the line through two points, and Solve returns the intersection of two lines whenever they intersect in one point.", "quantifier": "all points and lines", "why_tests_cant": "All slopes, including vertical ones.", "anchors": ["los/geom/lines.go: Init, AreParallel, Solve"]}
{"id": "C166", "title": "Lines along Pluecker vectors", "statement": "InitFromPlucker gives the line that is aligned with the vector.", "quantifier": "all Pluecker vectors", "why_tests_cant": "All vectors.", "anchors": ["los/geom/lines.go: InitFromPlucker"]}
{"id": "C167", "title": "Angles", "statement": "AngularDistance gives the signed distance between two directions in its documented range, and AngleInRange is true exactly for the directions in an inclusive range.", "quantifier": "all angles in [0, 2 pi)", "why_tests_cant": "All angles, including the ends of the range.", "anchors": ["los/geom/rotation.go: AngularDistance, AngleInRange"]}
{"id": "C168", "title": "Slices of tetrahedra", "statement": "ZPlaneSlice finds the polygon in which a plane cuts a tetrahedron: its corners are in the plane and in the tetrahedron, and its lines join them in a cycle along the faces; it reports an intersection whenever there is one.", "quantifier": "all tetrahedra and planes", "why_tests_cant": "All positions of the plane.", "anchors": ["los/geom/intersection.go: ZPlaneSlice, link, crossesZPlane", "los/geom/primitives.go: pluckerTetraFaceShare"]}
{"id": "C169", "title": "Radii of slices", "statement": "RSqrMinMax gives the squared radii of the closest and the furthest point of a slice.", "quantifier": "all slices", "why_tests_cant": "All polygons.", "anchors": ["los/geom/intersection.go: RSqrMinMax"]}
{"id": "C170", "title": "Normals of Platonic solids", "statement": "Normals has one unit vector per side of a Platonic solid; UniqueNormals specify different planes through the origin.", "quantifier": "all solids and pairs of normals", "why_tests_cant": "All pairs of faces.", "anchors": ["los/geom/platonic.go: Normals, UniqueNormals, NewPlatonicSolid"]}
{"id": "C171", "title": "ARTIO blocks are read completely", "statement": "For an ARTIO snapshot, reading block k (the file set.pNNN) after any earlier use of the buffer returns exactly the particles of the N-BODY species in the cells of that block, species by species, with positions in Mpc/h and the mass of their species in Msun/h; a buffer that is still open cannot be read.", "quantifier": "all filesets, all block names, all histories of Read, Close and ReadHeader including failed ones", "why_tests_cant": "Stale buffers show only for particular sequences of blocks; the histories are unbounded.", "anchors": ["io/artio.go: NewARTIOBuffer, parseARTIOFilename, Read, Close"]}
{"id": "C172", "title": "ARTIO files are read from the fileset they name", "statement": "A buffer that was made for one ARTIO snapshot and is given the name of a block of another snapshot reads that other snapshot.", "quantifier": "all pairs of filesets and block names", "why_tests_cant": "Needs all pairs of snapshots.", "anchors": ["io/artio.go: Read (buf.fileset), parseARTIOFilename"]}
{"id": "C173", "title": "ARTIO MinMass is the least particle mass", "statement": "MinMass is the least mass of an N-BODY species in Msun/h; no particle that any Read returns is lighter.", "quantifier": "all filesets with an N-BODY species, all histories, all particles", "why_tests_cant": "All particles of all blocks.", "anchors": ["io/artio.go: MinMass, NewARTIOBuffer"]}
{"id": "C174", "title": "ARTIO block headers", "statement": "ReadHeader returns the box width in Mpc/h, the number of particles, the cosmology, and a region that holds an image of every particle of the block; also for a block without particles.", "quantifier": "all filesets and blocks", "why_tests_cant": "All particle sets, in particular empty ones.", "anchors": ["io/artio.go: ReadHeader", "io/buffer.go: boundingBox"]}
{"id": "C175", "title": "ARTIO snapshots without dark matter are refused", "statement": "A fileset without any species of type N-BODY is reported as an error.", "quantifier": "all filesets without N-BODY species", "why_tests_cant": "All label lists.", "anchors": ["io/artio.go: nBodyFlags, NewARTIOBuffer"]}
{"id": "C176", "title": "ARTIO read errors reach the caller of ReadHeader", "statement": "When the block of a file cannot be read, ReadHeader returns an error.", "quantifier": "all filesets, names and histories in which Read fails", "why_tests_cant": "All failure points.", "anchors": ["io/artio.go: ReadHeader, Read"]}
{"id": "C177", "title": "M_sp is the mass inside of the shell", "statement": "In stats mode the M_sp of a line is the total mass of the particles of the line's snapshot which are inside of the Penna-Dines shell of the line's coefficients around its centre: every particle closer to the centre than the smallest sampled radius of the shell, or inside of the shell and closer than the largest sampled radius, counts exactly once, and no other. The number of threads, the order in which their sums arrive, the order of the files and of the snapshots and the other lines do not matter. Needed: the shell lies within R200m of the line and the halo does not straddle the edge of the box.", "quantifier": "all catalogues, coefficients, particle files, random draws, thread counts and arrival orders", "why_tests_cant": "the Monte Carlo sampling and the scheduling differ from run to run, and the claim is about all particle sets and shells", "anchors": ["cmd/stats.go Run, massContained, massContainedChan, rangeSp, boundingSpheres", "los/analyze/shell.go Contains, RadialRange, PennaFunc"]}
{"id": "C178", "title": "A row of stats does not depend on the other lines", "statement": "The statistics of a halo are the same whichever other halos are in the input catalogue.", "quantifier": "all pairs of catalogues sharing a line", "why_tests_cant": "a test would have to try every possible companion halo", "anchors": ["cmd/stats.go Run (binSphereIntersections, boundingSpheres)"]}
{"id": "C179", "title": "The shell particle file holds the particles of the shell", "statement": "With ShellParticleFile set, the file written by stats holds for every line, in the order of the catalogue, its snapshot, id and the ids of exactly those particles that are within ShellWidth R200m of the shell along their direction from the centre (ShellWidth >= 0), or inside of the shell (ShellWidth < 0); reading the file with the package's reader gives this data back.", "quantifier": "all catalogues, shells, widths, particle files, byte orders, thread counts and arrival orders", "why_tests_cant": "quantifies over all particle sets and schedules", "anchors": ["cmd/stats.go appendShellParticles, appendShellParticlesChan, writeShellParticles", "io/filter.go WriteFilter, ReadFilter"]}
{"id": "C180", "title": "stats reports when it cannot write the particle file", "statement": "If the shell particle file cannot be created or written, stats mode returns an error.", "quantifier": "all runs and all failures of the file system", "why_tests_cant": "fault injection at every point is needed", "anchors": ["cmd/stats.go Run line 345, writeShellParticles"]}
{"id": "C181", "title": "ExclusionStrategy removes contained halos", "statement": "With ExclusionStrategy = contain (overlap) halos whose centre lies in (whose shell overlaps) the shell of a larger halo are not in the output of stats.", "quantifier": "all catalogues and accepted configurations", "why_tests_cant": "quantifies over all catalogues", "anchors": ["cmd/stats.go ExampleConfig, validate, Run"]}
{"id": "C182", "title": "SkipMass only skips the masses", "statement": "With SkipMass stats reads no particles and writes no particle file; every M_sp is 0 and all other columns are those of the same run without SkipMass. Placeholder lines (snapshot -1) give rows of zeros.", "quantifier": "all catalogues, configurations, draws and particle files", "why_tests_cant": "compares two runs over all inputs", "anchors": ["cmd/stats.go Run"]}
{"id": "C183", "title": "stats' header names its columns", "statement": "Column k of the output of stats holds the quantity the header comment gives for k, in the row of the input line.", "quantifier": "all results", "why_tests_cant": "a test sees single rows only", "anchors": ["cmd/stats.go Run lines 348-380"]}
{"id": "C184", "title": "Surface areas", "statement": "The surface area of a sphere of radius c is 4 pi c^2 or too large by at most the factor 1/cos(0.001) (5e-7) for any sampled directions off the poles, and scaling any shell by t scales the reported area by t^2 and the volume by t^3.", "quantifier": "all radii, shells, samples and scale factors", "why_tests_cant": "the samples are random and the shells arbitrary", "anchors": ["los/analyze/shell.go SurfaceArea, cosNorm, Volume"]}
{"id": "C185", "title": "Axes of shells", "statement": "The reported axes are those of the homoeoid with the inertia tensor of the shell: the tensor is taken about the centroid with the surface elements as weights, the three half axes are reported in decreasing order (times the tabulated corrections), and the direction is the unit vector along the eigenvector of the longest axis.", "quantifier": "all shells, samples and orders of the eigenvalues", "why_tests_cant": "the library does not specify the order of the eigenvalues, so a test sees one order only", "anchors": ["los/analyze/shell.go Axes, trisort"]}
{"id": "C186", "title": "Radius histograms are densities", "statement": "RadiusHistogram returns the centres of equal bins and for each bin the number of sampled radii in it, divided by the number of those in the range and by the width, so that the histogram integrates to 1 whenever a sample is in range; radii outside of the range are not counted.", "quantifier": "all shells, samples, ranges and numbers of bins", "why_tests_cant": "random samples, all ranges", "anchors": ["los/analyze/shell.go RadiusHistogram"]}
{"id": "C187", "title": "Angular-fraction profiles are fractions of directions", "statement": "For prof with ProfileType = angular-fraction and an Order equal to the order of the shell catalogue, the output, read as a catalogue, has the input's IDs and snapshots in columns 0 and 1, then the geometric centres of Bins logarithmic bins between RMinMult*R and RMaxMult*R, then, per bin, the fraction of the sampled directions whose shell radius is in the range of the profile in which the shell lies beyond the inner edge of the bin; the header names these columns.", "quantifier": "for every shell catalogue, order, number of bins and radial range, and every set of sampled directions with at least one shell radius in range per halo", "why_tests_cant": "Unit tests sample a few shells with one random seed; the claim is for every catalogue and every sequence of draws.", "anchors": ["cmd/prof.go:angularFractionMain", "cmd/prof.go:ProfConfig.Run", "los/analyze/shell.go:Shell.AngularFractionProfile"]}
{"id": "C188", "title": "prof refuses a catalogue whose order is not Order", "statement": "prof with ProfileType = angular-fraction and an Order that differs from the order of the shell catalogue on stdin reports an error instead of printing profiles of other shells.", "quantifier": "for every catalogue and every Order", "why_tests_cant": "A test compares one catalogue with one Order; the claim concerns all pairs.", "anchors": ["cmd/prof.go:ProfConfig.Run", "los/analyze/penna.go:PennaFunc"]}
{"id": "C189", "title": "Median-error profiles are bootstrap errors", "statement": "For prof with ProfileType = median-error, the value of a bin is the standard deviation, over Samples resamples with replacement of the pixels of the bin, of the Percentile-th percentile of the resample, divided by the volume of the bin; it is 0 if all pixels have the same density.", "quantifier": "for every set of pixel densities, number of samples, percentile and sequence of random draws", "why_tests_cant": "The result depends on random draws and on rounding; tests cannot enumerate either.", "anchors": ["cmd/prof.go:processMedianErrorProfile", "cmd/prof.go:bootstrapErrorPercentile"]}
{"id": "C190", "title": "MinMass is the mass of the lightest particle", "statement": "MinMass of a Gadget-2, LGadget-2, Bolshoi or BolshoiP buffer is the least mass of the particles that its Reads return, in every history of calls; shell mode's background density is BackgroundRhoMult times the density of such a particle in the kernel sphere.", "quantifier": "for every snapshot, every format named and every history of calls on the buffer", "why_tests_cant": "A test sees one snapshot and one call order; the claim is for all headers and histories.", "anchors": ["io/gadget2.go:Gadget2Buffer.MinMass", "io/lgadget2.go:LGadget2Buffer.MinMass", "io/bolshoi.go:BolshoiBuffer.MinMass", "io/bolshoiP.go:BolshoiPBuffer.MinMass", "cmd/shell.go:createHalos"]}
{"id": "C191", "title": "Buffers may be used in any history of Read, Close and ReadHeader", "statement": "For Gadget-2 and LGadget-2 buffers: calls in which Read and Close alternate and ReadHeader comes between them never panic whatever the files contain, calls out of turn panic instead of overwriting data, ReadHeader leaves the buffer as it was, and a failed Read leaves the buffer ready for the next file.", "quantifier": "for every history of calls, every set of files, missing and corrupt ones included", "why_tests_cant": "Histories and failure points cannot be enumerated.", "anchors": ["io/gadget2.go:Gadget2Buffer", "io/lgadget2.go:LGadget2Buffer"]}
{"id": "C192", "title": "The xorshift stream of every seed contains every value and every run of four values", "statement": "For every seed, and after any number of draws, Next returns only multiples of 1/(2^32-1) in [0,1), every four of these values in a row are still to come, and the generator returns to a state it has been in only after at least (2^128-1)/4 draws (and then does return within 2^128-1 draws).", "quantifier": "all seeds, all numbers of earlier draws, all values", "why_tests_cant": "The period is about 2^128: no test can draw that much, and a seed with a short cycle or a missing value would be found only by accident", "anchors": ["math/rand/xorshift.go: xorshiftGenerator.Init, Next", "math/rand/rand.go: Uniform"]}
{"id": "C193", "title": "Ring directions: rejection sampling ends for every seed and gives unit vectors", "statement": "For every seed and every number of rings the sampling of ring normals ends; three rings are the coordinate axes; any other number n gives exactly n unit vectors, the directions of the first n points of the generator's stream (three values per point, stretched to [-1,1)) that lie in the unit ball; the origin, which has no direction, never occurs; only the low 32 bits of the seed matter.", "quantifier": "all seeds, all numbers of rings", "why_tests_cant": "An endless loop or a division by zero for one seed in 2^32 would not be seen by tests, and the seed is the time of day", "anchors": ["cmd/shell.go: normVecs", "cmd/cmd.go: randSeed", "math/rand/rand.go: Uniform"]}
{"id": "C194", "title": "AngleRange reports the directions of a slice", "statement": "The angular range reported for a slice of a tetrahedron contains the direction, seen from the axis, of every point of the slice; and, when the axis does not meet the slice, it contains no other direction.", "quantifier": "every tetrahedron, every plane, every point of the slice and every direction", "why_tests_cant": "the range is grown corner by corner with wrapped angles; tests try random tetrahedra and a ring of a hundred directions", "anchors": ["los/geom/intersection.go:AngleRange", "los/geom/intersection.go:angularWidth", "los/geom/intersection.go:ZPlaneSlice"]}
{"id": "C195", "title": "IntersectingLines reports the sides that a ray crosses", "statement": "For every slice of a tetrahedron and every direction, the lines returned are exactly the sides of the slice that the ray from the axis in that direction crosses; there are never more than two.", "quantifier": "every tetrahedron, every plane and every direction", "why_tests_cant": "the answer depends on wrapped angles, the exchange of line ends and the convexity of the slice, over a continuum of directions", "anchors": ["los/geom/intersection.go:IntersectingLines", "los/geom/intersection.go:link"]}
{"id": "C196", "title": "The configuration chooses the reader of the snapshots", "statement": "Every configuration file that is accepted has exactly one reader of snapshots and one catalogue, both of the SnapshotType it names; the reader of a binary format uses the byte order that Endianness names on the machine (SystemOrder: the machine's own). A Gadget-2 snapshot described by the accepted configuration (byte order, dark matter types, single-mass types, mass and position units) is read with exactly those settings, so each dark matter particle is returned with its own position, velocity, mass and ID; a little endian LGadget-2 snapshot likewise, with the configured number of count words.", "quantifier": "every accepted config text, both machine byte orders, every well-formed file of the configured kind", "why_tests_cant": "A test fixes one configuration and one file; the claim ranges over all accepted texts and all files they describe", "anchors": ["cmd/utils.go:getVectorBuffer", "shellfish.go:initCatalogs", "io/gadget2.go:NewGadget2Buffer", "io/lgadget2.go:NewLGadget2Buffer", "io/bolshoi.go:NewBolshoiBuffer", "io/bolshoiP.go:NewBolshoiPBuffer"]}
{"id": "C197", "title": "EvalAll is Eval at every point", "statement": "For every interpolator (linear, bilinear, trilinear, spline, bicubic, tricubic), EvalAll gives at each index the value that Eval gives at that index's point, whatever queries came before; with an output slice the values are written to its beginning, and nothing else is changed, also when the output is one of the inputs themselves; without one a new slice of the same length is returned. It panics exactly when Eval panics at one of the points or the output is too short.", "quantifier": "every interpolator, every history of earlier queries, all numbers and positions of points, every placement of the output slice that does not begin inside an input", "why_tests_cant": "A test uses a few points and a fresh output slice; caches, in-place evaluation and overlapping slices are not exhausted", "anchors": ["math/interpolate/linear_interpolators.go:EvalAll", "math/interpolate/cubic_interpolators.go:EvalAll", "math/interpolate/spline.go:EvalAll"]}
{"id": "C198", "title": "Mean and median profiles", "statement": "For a halo made by Init with any spheres inserted, MeanProfile gives in every radial bin the mean, and MedianProfile a median, of the densities that GetRhos gives on all rings x n lines of sight; MedianRadius gives a median of the shell's radii at the angles drawn.", "quantifier": "all ring normals, bin counts, line counts and inserted spheres; all shells and drawn angles", "why_tests_cant": "A test checks one halo; the claim ranges over all halos and all even and odd numbers of lines", "anchors": ["los/halo.go:MedianProfile", "los/halo.go:MeanProfile", "los/analyze/shell.go:MedianRadius", "math/sort/median.go:Median"]}
{"id": "C199", "title": "A catalogue file is read as a whole", "statement": "Reading a catalogue from a file or from the standard input gives, however the bytes arrive in chunks, exactly the requested columns of the whole text, and an error when the text is not such a table or reading fails.", "quantifier": "every text, every chunking of the reads, every failure point", "why_tests_cant": "A test reads one small file in one chunk; chunkings and failing reads are not reached", "anchors": ["cmd/catalog/catalog.go:ReadFile", "cmd/catalog/catalog.go:ReadStdin", "cmd/catalog/catalog.go:Parse"]}
{"id": "C200", "title": "Each stage of a pipe reads what the stage before it computed", "statement": "When `id`, `coord`, `shell` and `stats`/`prof` are connected by pipes, each stage gets exactly the IDs and snapshots selected by the stage before it, in the same order, and the positions, radii and coefficients that stage computed, to the digits that are printed; a table that does not fit (other Order, no rows) is reported as an error.", "quantifier": "all IDs and snapshots in the int64 range, exclusion flags, multiplicities, tables of numbers of any height and width, values of Order, and all formatters/parsers that read back what was printed", "why_tests_cant": "The agreement is between the column layouts of several programs and must hold for every table; tests run one mode at a time.", "anchors": ["cmd/id.go Run 292-325", "cmd/coord.go Run 76-157, makeCommentString 163-196", "cmd/shell.go Run 209-269, transpose", "cmd/stats.go Run 190-232", "cmd/prof.go Run 203-279"]}
{"id": "C201", "title": "Rounding cannot push a particle out of a profile", "statement": "For the prof and phase modes as they compute with rounded single and double precision numbers: no particle makes the radial bin index leave the profile (no panic); a particle is left out only if its distance is, up to a millionth, at or outside the radial limits; and the bin it is counted in contains its distance up to a millionth of the bin's edges.", "quantifier": "every rounding and logarithm of IEEE accuracy, every halo radius, pair of multipliers and number of bins with bins of at least a millionth (prof) or up to 2^40 bins (phase), every displacement", "why_tests_cant": "the extreme cases are those where roundings conspire at a bin edge or limit; no finite set of floats covers them", "anchors": ["cmd/prof.go:insertPoints", "cmd/prof.go:insertMedianPoints", "cmd/phase.go:insertPhasePoints"]}
{"id": "C202", "title": "A plateau changes only its own line of sight, also with rounding", "statement": "With rounded double precision: inserting a plateau in one profile of a ring never panics, leaves the other profiles unchanged, and changes its own profile by the density times the part of each bin that it covers, up to 2^-47 of the densities involved per step.", "quantifier": "every rounding of IEEE accuracy, ring, profile, density and pair of ends", "why_tests_cant": "wrong only when roundings push the bin index of an end just below the outer radius to the number of bins; random tests practically never hit this", "anchors": ["los/profile_ring.go:ProfileRing.Init", "los/profile_ring.go:ProfileRing.Insert"]}
{"id": "C203", "title": "Rounding cannot push a lookup out of a uniform table", "statement": "In a uniformly spaced interpolation table every argument between the first and the last point finds a cell with two end points in the table, and the cell contains the argument up to 1/256 of the spacing, although all steps are rounded.", "quantifier": "every rounding of IEEE accuracy, every start, positive spacing and number of points with a spacing of at least 2^-40 of the numbers involved, every argument", "why_tests_cant": "the boundary cases depend on the rounding of three operations", "anchors": ["math/interpolate/search.go:searcher.unifInit", "math/interpolate/search.go:searcher.search"]}
{"id": "C204", "title": "Rounding cannot push a circle out of its ring", "statement": "For a particle's circle seen from the halo centre in any direction with any angular width up to a half turn, as computed with rounding: the lines of sight that are visited exist, none is visited twice (which would count its density twice), and all that lie inside of the circle by 10^-12 radians are visited, also across the angle 0.", "quantifier": "every rounding of IEEE accuracy, number of lines of at least five, direction and angular width", "why_tests_cant": "wrap-around with rounding at the seam of the ring", "anchors": ["los/halo.go:Halo.idxRange", "los/halo.go:Halo.insertToRing"]}
{"id": "C205", "title": "Median-profile pixels survive rounding away from the polar axis, and only there", "statement": "With ProfileType = median, where every operation rounds as in float32/float64 hardware, each particle whose direction from the halo centre is more than about 2^-10 radians away from the z axis is assigned, without a panic, to one of the angular pixels of the configured level (2 or more), and to a pixel of the half of the sphere it lies in. On the axis this fails: the distance is summed in float32, so z over the distance can exceed 1, math.Acos returns NaN, and a particle just below the centre makes the program panic at MedianPixelLevel = 1 and is counted in the upper half at higher levels.", "quantifier": "all displacements off the axis, azimuths (short of 2 pi by a relative 2^-40), levels from 2 to 2^20, and all arithmetics with the relative error bounds of IEEE 754 (no overflow or underflow), math.Acos and math.Cos accurate to 2^-25 and 2^-40; a concrete displacement on the axis for the failure, with IEEE arithmetic", "why_tests_cant": "The range of the pixel index depends on rounding errors for every displacement; the failing displacements are a thin set that test data does not hit.", "anchors": ["cmd/prof.go: medianProfile loop (lines 554-564)", "los/geom/pixel.go: SpherePixel, DiskPixel, SpherePixelNum"]}
{"id": "C206", "title": "The halo grid keeps every halo in its cell, also with rounding, unless it is within rounding of the box edge", "statement": "With float64 arithmetic, inserting halos into a new grid does not panic, each halo is in exactly one cell, once, and its (periodically wrapped) position is inside of that cell up to 2^-45 of the box width, provided no coordinate is within a relative 2^-45 below an edge of the periodic box. This fails for a halo just below the box: adding the box width rounds to the box width itself, so the cell index is one too large; it is an index out of range (a panic) for the z coordinate and the wrong cell for x and y.", "quantifier": "all catalogues, box widths and numbers of cells, and all arithmetics with the relative error bounds of IEEE 754 (no overflow or underflow); a concrete catalogue of one halo for the failure, with IEEE arithmetic", "why_tests_cant": "Whether a quotient rounds across a cell boundary depends on every position; positions just below zero are rare in test catalogues.", "anchors": ["cmd/halo/grid.go: NewGrid, Grid.Insert"]}
{"id": "C207", "title": "A configuration that id accepts is run", "statement": "A configuration that passes id's validation (a known IDType and ExclusionStrategy, a positive radius multiplier for overlap, a snapshot, a positive Mult, a non-negative M200mMax) and asks for halos of a snapshot of the simulation is run to a result or an error message, never to a crash. This fails for ExclusionStrategy = subhalo, which is accepted and always crashes, and for the strategies overlap and neighbor in a snapshot without halos, where the subhalo finder indexes an empty list.", "quantifier": "all configurations, requests, catalogues and host relations", "why_tests_cant": "The accepted configurations are a product of unbounded fields; a test visits single combinations.", "anchors": ["cmd/id.go: IDConfig.validate, IDConfig.Run, findOverlapSubs, readSubIDs", "cmd/halo/finder.go: cumulativeMax"]}
{"id": "C208", "title": "The region a header reports holds every particle of the file, up to accumulated rounding", "statement": "For files of Gadget type, whose header computes the region of its particles with float32 arithmetic: for up to 2^20 particles, every particle has a periodic image inside of the reported region enlarged by n * 2^-20 box widths, n the number of particles. The error does grow with n: with IEEE arithmetic, particles whose coordinates decrease in steps below the resolution of the region's width move the region's lower end without widening it, so the upper end leaves the outermost particle behind, by n times the step, and no image of that particle is in the region.", "quantifier": "all particle lists in the box and box widths, all arithmetics with the relative error bounds of IEEE 754 (no overflow or underflow); all lengths below 2^23 of one family of files for the failure", "why_tests_cant": "The error accumulates over the particles of a file in an order-dependent way; small test files show nothing.", "anchors": ["io/io.go: boundingBox"]}
{"id": "C209", "title": "Random draws stay in their range with rounding", "statement": "With float64 arithmetic, Next of the xorshift generator ends its retry loop and returns a number in [0, 1 - 2^-33] that differs from the exact quotient by at most one unit in the last place; Uniform(low, high) returns a number in [low, high) and UniformInt(low, high) one of low, ..., high - 1, both close to the exact result, whatever the seed and the earlier draws. This holds when |low| is at most 2^17 times the width of the range; for narrow ranges far from zero UniformInt returns high itself.", "quantifier": "every seed, every number of earlier draws, every range of float64 numbers or integers", "why_tests_cant": "the draws that round up to the end of the range are a handful among four billion, and which seed and call meets them cannot be enumerated", "anchors": ["math/rand/xorshift.go: xorshiftGenerator.Next", "math/rand/rand.go: Generator.Uniform, Generator.UniformInt"]}
{"id": "C210", "title": "Rounding cannot push a line of sight out of the angular bins of the filter", "statement": "When the filter sorts the points of a ring of n lines of sight into angular bins, the index computed in float64 arithmetic from the rounded angle of a line is always inside of the table; every radius goes to exactly one bin, in order, and the angle of its line lies in this bin up to 1/256 of the bin's width.", "quantifier": "every number of lines up to 2^30, every number of bins up to 2^30, every subset of lines and all radii, every rounding with IEEE accuracy", "why_tests_cant": "tests use a few values of n and bins, and rounding is different for every pair", "anchors": ["los/analyze/kde.go: binByTheta", "los/halo.go: Halo.Init, Halo.Phi"]}
{"id": "C211", "title": "Sobol points are spread evenly over every coordinate", "statement": "Number the calls of SobolSequence.Next(dim) 1, 2, 3, ... For every level j and every c, the 2^j calls from number c 2^j - 1 on put exactly one point into each of the 2^j equal cells of [0,1) in every coordinate; the first 2^j - 2 points lie in different cells.", "quantifier": "every dimension up to 6, every coordinate, every level and every block of calls before exhaustion", "why_tests_cant": "there are 2^30 points and 2^30 cells per coordinate", "anchors": ["math/rand/sobol.go: SobolSequence.Next, SobolSequence.NextAt, SobolSequence.Init"]}
{"id": "C212", "title": "The directions of the rings with rounding", "statement": "With float64 and float32 arithmetic the rejection loop that draws the directions of the rings still ends, for every seed and every number of rings but three, and gives that many vectors. The numbers drawn are those of exact arithmetic up to 2^-48, the vectors belong to the first points of the stream in the unit ball (with 2^-45 of doubt at its surface), and each has length 1 and the direction of its point in float32 precision; none is NaN. Three rings are the coordinate axes.", "quantifier": "every seed, every number of rings, every rounding with IEEE accuracy that keeps 1", "why_tests_cant": "the stream has 2^128 states, and a point that rounds to the origin or to the surface would be met by very few seeds", "anchors": ["cmd/shell.go: normVecs", "math/rand/xorshift.go: xorshiftGenerator.Next", "math/rand/rand.go: Generator.Uniform"]}
{"id": "C213", "title": "Tausworthe draws with rounding", "statement": "With float64 arithmetic the table of a new Tausworthe generator is in [0,1), and every later draw is in [0,1] and differs from the difference of two table entries, plus 1 if negative, by at most 2^-52. A draw can be exactly 1 (if the two entries are less than 2^-53 apart, or 0 and within 2^-53 of 1), and UniformInt(0, high) then returns high.", "quantifier": "every seed, every history of draws, every source of multiples of 2^-53 in [0,1) for the table", "why_tests_cant": "the table has 9689 entries and the period is astronomical; the draw of exactly 1 is too rare for a test to meet", "anchors": ["math/rand/tausworthe.go: tauswortheGenerator.Init, tauswortheGenerator.Next", "math/rand/rand.go: Generator.Uniform"]}
{"id": "C214", "title": "Pairs of coordinates of Sobol points", "statement": "In the plane of two coordinates of a SobolSequence, every aligned block of 2^j calls puts exactly 2^e points into each box of area 2^(e-j), whatever the box's shape, with a small e that depends on the pair (1 to 5). This should hold for all pairs of coordinates and does for 13 of the 15, but the direction numbers are computed with entry j-1 where the recurrence has j-l: the pair (2,3) leaves 8 of the 16 boxes of side 1/4 empty for ever, and in the pair (4,5) the eighth in which coordinate 5 lies determines the half in which coordinate 4 lies.", "quantifier": "every block of calls before exhaustion, every shape of box, every pair of coordinates", "why_tests_cant": "the empty boxes are only known to stay empty by an argument about all 2^30 calls; the even spread ranges over all blocks and shapes", "anchors": ["math/rand/sobol.go: SobolSequence.Init, SobolSequence.Next, SobolSequence.NextAt"]}
