# DESIGN: a Rocq (Coq 8.16.1) model of phil-mansfield/shellfish

## Approach

* The model is written function by function in Gallina (`rocq/theories/*Model.v`), each definition
  citing the file and lines of `/repo` it models. Model files contain no proofs.
* Lemmas live in `*Proofs*.v`. The property theorems live in `Props_*.v`, followed by `Print Assumptions`, and
  accompanied by an `Example` showing that a concrete non-trivial case meets their hypotheses.
* Specifications that theorems refer to (e.g. "sorted", "field i of a line", "sum of matrix products", "ball",
  "hull") are written independently of the model: in `*Spec.v` or inline in the statement with stdlib
  vocabulary (`Permutation`, `StronglySorted`, `In`, `nth`, finite sums, `is_derive`-style limits).
* Claims that are false of the code as written are kept as stated in `properties.jsonl`; the model proves
  `..._refuted` with a concrete witness or for a whole family of inputs, plus the strongest true version found
  (named `..._partial` when something of the English property is missing). Such a property has status `partial`.

## Modelling conventions

* Go panics (index out of range, explicit `panic`, nil dereference) are explicit: `Panic` in
  `res A := Ok a | Err | Panic`, or `None` where there is no other failure. Array reads go through `nth_error`
  (`rd`) and writes through `wr`, and theorems state "does not panic" explicitly.
* Strings/byte slices are `list ascii` (configuration, catalogues, command line) or `list Z` of bytes (binary
  snapshot files). Slices are lists; mutation returns the new list. Aliasing is modelled only where noted.
* `int` is `Z` (or `nat` for lengths and indices). Wrap-around is modelled only where a property is about it
  (xorshift, Tausworthe, Sobol: `N` modulo 2^32; Atoi range check: 64 bit; int32 arithmetic of the Bolshoi headers).
* float64/float32:
  - comparison-only code (sorting, selection, searching) is parametrised by the comparison and proved for
    every strict weak order, then instantiated to IEEE binary64 non-NaN values (`SpecFloat`);
  - binary readers keep floats as bit patterns; float arithmetic on them is a record of operations over which the
    theorems quantify (C154 instantiates it with Flocq's IEEE single precision, C187-C189 double precision);
  - arithmetic code (splines, matrices, convolution, interpolation, geometry, profiles, cosmology) is modelled over
    `R` (or `Q`/`Z` when computation is needed for witnesses): rounding, overflow and NaN are NOT modelled in these, except
    that a division by zero is made a distinct result where noted;
  - the `Round*Model.v` files model some of that code a second time WITH rounding: every float operation is the exact one
    followed by the rounding of a `machine` (RoundModel.v). Theorems assume `accurate M` (relative error 2^-24 / 2^-53 per
    operation, i.e. no overflow or underflow); `ieee_accurate` shows that Flocq's FLX roundings to nearest even with 24/53
    digits satisfy it. RoundRandModel (for Uniform, UniformInt) and RoundTausModel theorems are stated for that `ieee`.
* External calls (file system, `strconv.ParseFloat`, `strings.ToLower` beyond ASCII) are Section variables, so
  theorems are quantified over all their behaviours, or simple abstract state (file = option of contents).
* Goroutines: workers are state machines; theorems quantify over all interleavings/completion orders. Crashes are
  steps that stop a run between (or inside) writes.
* Loops: structural recursion or explicit fuel; out-of-fuel is a distinct result which the theorems exclude.

## Library contracts that are assumed (as hypotheses of theorems, never as axioms)

* `consistent_trees`: a forest satisfies `tree_ok` (hypothesis of the tree theorems).
* `gonum/mat64`: `Inverse` of a positive definite matrix is its inverse; `Mul` is the matrix product. Both appear as
  hypotheses on the functions passed to the model of `penna.go`.
* `strings.ToLower` on ASCII, `strings.Fields/Split/Trim*`, `strconv.Atoi` are defined in Gallina (ASCII part);
  `ParseFloat` is an arbitrary function.
* `go-artio`: an abstract fileset (species labels, masses, positions per species and SFC range).
* The `stats` run: `mat64.Eigen` and the interpolation tables are functions `eigen`, `ratios` that the theorems quantify over;
  random draws and the order in which results arrive are universally quantified.
* The profiles by angle: draws quantified; `strconv` formatting and parsing are functions with the contract that parsing
  what was formatted gives the value back.
* Reading buffers: files are a function from names to contents; `uniform` stands for calcUniformMass.
* Go's `math/rand`: any state with a draw function; where a theorem needs it, draws in [0,1) or multiples of 2^-53 in [0,1).
* RoundPixelModel: `math.Acos`, `math.Cos` are parameters with an error bound (`trig_ok`); float-to-int conversion is amd64's.
* SliceAng: `math.Atan2` is the one defined in ShellModel.v; floats are reals.

## Trusted base

* Coq 8.16.1's kernel and the standard library. Flocq is used for IEEE instances (C154, profile angles, the rounding models) and adds no axioms.
* Axioms: only standard-library ones occur, and they come in through the classical real numbers:
  `ClassicalDedekindReals.sig_forall_dec`, `ClassicalDedekindReals.sig_not_dec`,
  `FunctionalExtensionality.functional_extensionality_dep` and `Classical_Prop.classic`. The column "axioms" in the table
  of results abbreviates what `Print Assumptions` lists for each theorem:
  `-` closed under the global context; `d` = {sig_forall_dec}; `r` = {sig_forall_dec, functional_extensionality_dep};
  `R` = r + {sig_not_dec}; `C` = R + {classic}.
* The reading of the Go source: the model was written by hand from the text of /repo and is tied to it only
  by the file:line citations. The Go toolchain, runtime and operating system are not modelled.

## Which code is modelled where

Derived from the citations in the model files; the exact lines stand at each definition.

| model file | what it models |
|---|---|
| ArtioModel.v | ARTIO snapshots (no proofs in this file). Models io/artio.go on top of a contract for the library go-artio, which is not part of the repository: a fileset has a header with typed fields and, for every range of cells of the space filling curve, the number and the positions of the particles of every species. float32 and float64 are reals. Cites: artio.go. |
| BolshoiModel.v | Bolshoi and BolshoiP snapshot files (io/bolshoi.go, io/bolshoiP.go; no proofs in this file). Floating point numbers are their bit patterns and float arithmetic is a parameter. Cites: bolshoi.go, bolshoiP.go. |
| BoxModel.v | The region of a file that its header reports (no proofs in this file). Models boundingBox, io/io.go:263-304, used by the headers of LGadget-2, Gadget-2 and ARTIO files (lgadget2.go:39, gadget2.go:47, artio.go:255). float32 and float64 are reals. Cites: artio.go, gadget2.go, io.go, lgadget2.go. |
| BufModel.v | The Gadget-2 and LGadget-2 buffers as objects: histories of calls (no proofs in this file). Models io/gadget2.go:323-415, io/lgadget2.go:188-282 and io/gotetra.go:50-54. The files are a function from names to contents; None: the file cannot be opened. Cites: bolshoi.go, bolshoiP.go, gadget2.go, gotetra.go, lgadget2.go. |
| BytesModel.v | Byte streams and byte orders (no proofs in this file). Models encoding/binary as used by io/filter_data.go, io/io.go, io/gadget2.go and cmd/memo/memoize.go. A byte is a [Z] in [0, 256); a file or reader is the list of bytes still to be delivered. Cites: filter_data.go, gadget2.go, io.go, memoize.go. |
| CatFileModel.v | Reading a catalogue from a file or from the standard input: cmd/catalog/catalog.go:152-189 (no proofs in this file). What the operating system does with a stream: the chunks that successive reads deliver, and how the stream ends. Cites: catalog.go. |
| CatalogModel.v | Model of cmd/catalog/catalog.go (no proofs). [F] is float64, [parseFloat] is strconv.ParseFloat(s,64), [fmtFloat] is fmt.Sprintf("%.6g", x). Cites: catalog.go, shellfish.go. |
| CheckModel.v | check mode: sanity checks (no proofs in this file). Models cmd/check.go:60-308. Floats (float32 and float64) are reals (RealBase.v). Reading of the config file: ConfigModel.v. Cites: artio.go, bolshoi.go, bolshoiP.go, check.go, gotetra.go, io.go. |
| CmdModel.v | Model of the command layer's bookkeeping: ring buffers, grouping by snapshot, write-back, tree output filter, matrix helpers (no proofs in this file). [None] is a run-time panic. Cites: catalog.go, const.go, coord.go, env.go, io.go, memoize.go, param.go, penna.go, radius.go, ring_buffer.go, shell.go, stats.go, tree.go. |
| ConfigModel.v | Model of parse/config.go (no proofs). [F] is the type of float64 values, [parseFloat] is strconv.ParseFloat(s, 64) ([None] = error) and [toLower] is strings.ToLower; all three are parameters, so every theorem holds for whatever those library calls do. Simplification: the variables registered in a ConfigVars live at distinct addresses, so the memory they occupy is a list of values parallel to the list of registrations. Cites: config.go, id.go, tree.go. |
| DispatchModel.v | From the global config file to the reader of the snapshots: cmd/utils.go:8-45, shellfish.go:618-636 (no proofs in this file). float64s are their bit patterns, as in GadgetModel. Cites: bolshoi.go, bolshoiP.go, gadget2.go, lgadget2.go, shellfish.go, utils.go. |
| EnvModel.v | Model of cmd/env/*.go and of validateFormat in cmd/cmd.go (no proofs in this file). The variables of the global config file used here are collected in [pinfo]. The contents of ScaleFactorFile are a field: [None] means that ioutil.ReadFile returns an error. Go's int is an unbounded integer: differences of snapshot or block numbers that overflow 64 bits are not modelled, nor is a make() that exhausts memory. fmt.Sprintf is a parameter [sprintf]: nothing is assumed about it. Cites: ARTIO.go, Gadget-2.go, LGadget-2.go, bolshoi.go, bolshoiP.go, cmd.go, env.go, gotetra.go, nil_snapshot.go, shellfish.go, text_halos.go. |
| EvalAllModel.v | Batch evaluation of the interpolators: the EvalAll methods of math/interpolate (no proofs in this file). linear_interpolators.go:61-69, 191-199, 325-333, cubic_interpolators.go:105-113, 281-289, spline.go:100-110: the same loop six times. float64 slices are windows of one memory, so that the output may overlap the inputs. None = panic. Cites: cubic_interpolators.go, linear_interpolators.go, spline.go. |
| FilterModel.v | Filter files (io/filter_data.go; no proofs in this file). Cites: filter_data.go, io.go. |
| FitModel.v | The Penna-Dines fit (no proofs in this file). los/analyze/penna.go:12-58, 84-108, 167-194. Floats are reals (RealBase.v); None is a panic. gonum's mat64 is a library: Mul is the matrix product, and Inverse is the argument [inverse] (a function from the size and the row-major entries of a square matrix to the entries the receiver holds afterwards); the error Inverse returns is dropped by the code (penna.go:184), as here. Cites: mat.go, penna.go. |
| GadgetModel.v | Gadget-2 snapshot files (io/gadget2.go; no proofs in this file). Floating point numbers are their bit patterns; the arithmetic of [fix] is a parameter, so every theorem holds for every float32 arithmetic. Cites: gadget2.go, io.go, lgadget2.go. |
| GeomModel.v | Geometric primitives (no proofs in this file). Models los/geom/primitives.go, los/geom/intersection.go, los/geom/lines.go and los/geom/rotation.go:59-120. Floats are reals (float32 conversions are the identity); a division by zero (NaN or an infinity in Go) is None where it is noted. [3]float32 is a triple and loops over the three coordinates are unrolled. Cites: intersection.go, lines.go, platonic.go, primitives.go, rotation.go. |
| GlobalModel.v | The global config file and the main program: cmd/cmd.go:44-381, shellfish.go:305-636 (no proofs in this file). [F] is float64, [parseFloat] is strconv.ParseFloat, [isMinus1] is the test x == -1, [toLower] is strings.ToLower: all parameters. A file is its contents. [dirOK name] says that validateDir(name) returns nil (cmd.go:372-381: the name is a directory, or it did not exist and could be created); the directories that a run creates are not modelled otherwise. Cites: cmd.go, env.go, memoize.go, nil.go, nil_snapshot.go, shellfish.go. |
| GridModel.v | The halo grid and the subhalo finders (cmd/halo/grid.go, finder.go, split_finder.go; no proofs). Cites: finder.go, grid.go, split_finder.go. |
| HeaderMemoModel.v | Header memoisation: cmd/memo/memoize.go:242-302 (no proofs in this file). A float is its bit pattern. The memo directory is a map from snapshot numbers to the contents of "hd_snap<snap>.dat" (memoize.go:24,266); [None] is a file that does not exist. The directory itself is assumed to exist (line 263) and to be accessible. What reading the headers of the snapshot's own files gives, readUnmemoizedHeaders (lines 242-256), is a parameter [src]; [nb] is e.Blocks(). Cites: io.go, memoize.go. |
| IDModel.v | id mode: cmd/id.go (no proofs in this file). Parameters, about which the model assumes nothing: the type [M] of masses with its comparison <, the answers of the halo catalogue of the snapshot (ReadSortedRockstarIDs, the M200m of the halos it lists with -1, the subhalo finder run on them), getVectorBuffer, and the IDs catalog.Parse finds on standard input. All IDs have the same snapshot (lines 233-236, 247-250), so the maps snapGroups and groupIdxs of findOverlapSubs and readSubIDs have one key and their grouping is left out. ReadHeaders and the look-up of positions and radii are taken not to fail. Cites: finder.go, id.go. |
| InterpModel.v | Model of math/interpolate: search.go, linear_interpolators.go, spline.go, cubic_interpolators.go (no proofs). None = panic. Cites: cubic_interpolators.go, linear_interpolators.go, search.go, spline.go. |
| KdeModel.v | Kernel density trees and the filtering of points (no proofs in this file). los/analyze/kde.go, los/analyze/penna.go:110-165, cmd/shell.go:613-627. Floats are reals (RealBase.v); None is a panic; in connMaxes a NaN is [None]. math.Exp is [exp]. PlotLevel (debugging) is not modelled. Cites: kde.go, penna.go, shell.go, smooth.go. |
| LGadgetModel.v | LGadget-2 snapshot files (io/lgadget2.go; no proofs in this file). As in GadgetModel.v floating point numbers are their bit patterns and float arithmetic is a parameter. Cites: lgadget2.go. |
| LosModel.v | Lines of sight: profile rings, halos, sheet intersection and periodic wrapping (no proofs in this file). Models los/profile_ring.go, los/halo.go, los/geom/rotation.go:14-81 and the helpers wrapDist, wrap, inRange of cmd/stats.go. Floats are reals (see RealBase); float32 conversions are the identity. -Inf, which the code passes to ProfileRing.Insert and obtains as math.Log(0), is represented: an extended radius is an [option R], None = -Inf. Cites: halo.go, profile_ring.go, rotation.go, shell.go, stats.go. |
| MainModel.v | The main program: shellfish.go:305-485, 591-636 (no proofs in this file). A process is described by what it returns to the shell: the bytes on standard output and the exit status (0 normal, 1 os.Exit(1), 2 a panic; messages on standard error are not modelled). The modes themselves are parameters: what reading the mode's own config file gives, and what Run gives on the catalogue read from standard input. Cites: cmd.go, shellfish.go. |
| MatModel.v | Model of math/mat/mat.go (no proofs in this file). float64 is R (RealBase.v); a panic is [None]. Slices are value lists: a routine that writes to a slice returns the new contents. Sizes are [nat], so the "must be positive" panics of Init are tests for zero. math/mat/mat32.go is the same code with float32 for float64 (without MultVec, VecMult and Transpose) and is covered by the same definitions under the same reading of floats. Cites: mat.go, mat32.go. |
| MedProfModel.v | Mean and median profiles of a halo and the median radius of a shell (no proofs in this file). Floats are reals. Cites: halo.go, shell.go. |
| ModeConfModel.v | The config variables that each mode registers (no proofs in this file). Models the first part of every mode's ReadConfig in cmd/: parse.NewConfigVars and the vars.Int, vars.Float, ... lines, and the pattern "no file: flags only; file: file, then flags" (ConfigModel.readMode). Float values are reals. Cites: check.go, coord.go, id.go, phase.go, potential.go, prof.go, shell.go, stats.go, tree.go. |
| NormVecModel.v | The directions of the rings: cmd/shell.go:566-592 (no proofs in this file). Floats are reals. Cites: cmd.go, shell.go. |
| OrderModel.v | The block readers of io/io.go (no proofs in this file). A block buffer is modelled by its memory: the list of its bytes. [sys] is the byte order of the machine, so that an n-byte word v in memory is [put sys n v]. Cites: bolshoi.go, io.go. |
| ParModel.v | Groups of goroutines that stride over a task list and report through a buffered channel (no proofs in this file). cmd/stats.go:451-543 (massContained), 482-511,545-597 (appendShellParticles), cmd/shell.go:423-500 (loadSphereVecs), cmd/prof.go:384-413, cmd/potential.go:191-204,255-313 with cmd/utils.go:61-96 (LockGroup). One action of one goroutine is executed at a time, in any order: every interleaving is a sequence of [step]s. An action is the update of one memory cell by a worker; a cell is a variable of the worker, or an array element or object shared by all workers. That no cell is used by two workers (so that Go's memory model gives every execution such an interleaving) is a theorem about the programs, not part of this model. Cites: potential.go, prof.go, shell.go, stats.go, utils.go. |
| PhaseModel.v | phase mode: phase-space profiles (no proofs in this file). Models cmd/phase.go:113-349, and the loop over snapshots and files that phase and potential mode share. Floats (float32 and float64) are reals (RealBase.v). A snapshot's files are as in LosModel.v (f_rhoM is not used); velocities are a list beside them. Cites: phase.go, potential.go, prof.go, stats.go. |
| PipeModel.v | The tables that the stages of a pipe hand to each other: cmd/id.go, cmd/coord.go, cmd/shell.go, cmd/stats.go, cmd/prof.go (no proofs in this file). Floats are an abstract type [F]; fmtFloat is fmt's "%*.6g" without the padding, parseFloat is strconv.ParseFloat. What a stage computes between reading its input and printing its output is the parameter [compute] (modelled elsewhere: CmdModel.v, ShellRunModel.v, StatsRunModel.v). Cites: coord.go, id.go, prof.go, shell.go, stats.go, tree.go. |
| PixelModel.v | Equal-area pixels of the disk and the sphere (no proofs in this file). Models los/geom/pixel.go. Floats are reals (RealBase.v); ints are Z. Cites: pixel.go. |
| PotentialModel.v | potential mode: maps of the gravitational potential (no proofs in this file). Models cmd/potential.go:86-329 (configuration and validation: ModeConfModel.v). Floats (float32 and float64) are reals (RealBase.v): the potential at the position of a particle, infinite in the code, is outside of the model. Cites: potential.go. |
| ProfAngModel.v | prof mode: angular-fraction profiles and median-error profiles (no proofs in this file). Models cmd/prof.go:221-247, 275-284, 607-686 and los/analyze/shell.go:312-345. Cites: prof.go, shell.go. |
| ProfConfModel.v | The prof mode's configuration check (no proofs in this file). Models cmd/prof.go:23-41 and 103-173. Floats are reals (RealBase.v). The text of variables is read by package parse (ConfigModel.v); here their values are given. Cites: prof.go. |
| ProfModel.v | prof mode: radial profiles (no proofs in this file). Models cmd/prof.go:334-437 and 462-605. Floats (float32 and float64) are reals (RealBase.v). A snapshot's files are as in LosModel.v (f_rhoM is not used); velocities are a list beside them. Cites: prof.go. |
| RandModel.v | Model of math/rand (no proofs in this file). uint32 values are [N] below 2^32; every operation that can leave that range is reduced explicitly. float64 values are reals. Cites: golang.go, rand.go, sobol.go, tausworthe.go, xorshift.go. |
| RockstarModel.v | Halo catalogue conversion and its cache: cmd/halo/io.go and cmd/memo/memoize.go:27-240 (no proofs in this file). Parameters, about which the model assumes nothing: the type [V] of float64 values with their 8-byte encoding and decoding, the comparison <, the conversion int(x), the radius of a halo of given mass (halo.Radius.Radius followed by the unit conversion of io.go:73-76), Go's sort.Sort, and the text catalogue as read by catalog.ReadFile. Cites: io.go, memoize.go. |
| RoundBoxModel.v | The region of a file that its header reports, with rounding: boundingBox, io/io.go:263-304 (no proofs in this file). Every float32 operation is the exact operation followed by a rounding of the machine (RoundModel.v); tw is float32(totalWidth). BoxModel.v models the same lines without rounding. Cites: io.go. |
| RoundGridModel.v | Inserting points into the halo grid, with rounding: cmd/halo/grid.go:17-69 (no proofs in this file). Every operation is the exact operation followed by a rounding of the machine (RoundModel.v). GridModel.v models the same lines without rounding; the lists and their readers are those of that file. Cites: grid.go. |
| RoundIndexModel.v | Index computations with rounding: math/interpolate/search.go (uniform tables) and los/halo.go:255-310 (no proofs in this file). Every double-precision operation is the exact operation followed by the rounding [r64] of a machine (RoundModel.v). InterpModel.v and LosModel.v model the same lines without rounding. Cites: halo.go, search.go. |
| RoundModel.v | The radial bins of prof and phase with rounding: cmd/prof.go:463-566, cmd/phase.go:270-327 (no proofs in this file). Every single- and double-precision operation is the exact operation followed by a rounding; the roundings and math.Log are parameters (RoundSpec in Props_Round.v says what is assumed about them: IEEE accuracy without overflow or underflow). ProfModel.v and PhaseModel.v model the same lines without rounding. Cites: phase.go, prof.go. |
| RoundNormModel.v | The directions of the rings with rounding: cmd/shell.go:566-592 (no proofs in this file). Every float64 or float32 operation is the exact operation followed by the rounding of a machine (RoundModel.v); the draws are those of RoundRandModel.v. NormVecModel.v models the same lines without rounding. Cites: shell.go. |
| RoundPixelModel.v | The pixel of a particle in median profiles with rounding: cmd/prof.go:554-564, los/geom/pixel.go (no proofs in this file). Every operation is the exact operation followed by a rounding of the machine (RoundModel.v); math.Acos and math.Cos are parameters. PixelModel.v and ProfModel.v model the same lines without rounding. NaN is None. Conversions to int are those of amd64: NaN and numbers that do not fit give the least int; ints wrap around. Cites: pixel.go, prof.go. |
| RoundRandModel.v | Random draws and angular bins with rounding: math/rand/xorshift.go, math/rand/rand.go:84-96, los/halo.go:93-96, los/analyze/kde.go:156-175 (no proofs in this file). Every double-precision operation is the exact operation followed by the rounding [r64] of a machine (RoundModel.v); the states of the generator and its integer arithmetic are those of RandModel.v. RandModel.v and KdeModel.v model the same lines without rounding. Cites: halo.go, kde.go, rand.go, xorshift.go. |
| RoundRingModel.v | Profile rings with rounding: los/profile_ring.go:72-130 (no proofs in this file). Every double-precision operation is the exact operation followed by the rounding [r64] of a machine (RoundModel.v). LosModel.v models the same lines without rounding. Cites: profile_ring.go. |
| RoundTausModel.v | The Tausworthe generator with rounding: math/rand/tausworthe.go, math/rand/rand.go:91-96 (no proofs in this file). Every float64 operation is the exact operation followed by the rounding of a machine (RoundModel.v). RandModel.v models the same lines without rounding. Cites: rand.go, tausworthe.go. |
| SheetModel.v | gotetra snapshot files (io/gotetra.go; no proofs in this file). Floats are bit patterns. A file is [None] if it cannot be opened, otherwise its bytes. Cites: gotetra.go. |
| ShellConfModel.v | The shell mode's configuration check, percentile profiles and first lines of Run (no proofs in this file). Models cmd/shell.go:24-35, 105-119 (defaults), 143-187 (validate) and 629-660 (calcPercentile). Floats are reals (RealBase.v). Cites: shell.go. |
| ShellModel.v | Penna-Dines shells and Monte Carlo shell statistics (no proofs in this file). los/analyze/penna.go, los/analyze/shell.go, cmd/stats.go. Floats are reals (RealBase.v). The angles drawn by randomAngle (shell.go:21-24) are an argument: the list of (phi, theta) in the order they are drawn. Cites: penna.go, shell.go, stats.go. |
| ShellRunModel.v | shell mode from the halo coordinates and particle files to the rows of coefficients (no proofs in this file). Models cmd/shell.go:288-372 (loop), 502-528 (haloAnalysis) and 530-564 (createHalos) with everything that is kept between halos and snapshots: the smoothing kernels (package variables of los/analyze/smooth.go), the ring buffers and the worker halos. Reading a snapshot (memo.ReadHeaders and buf.Read) is a function from snapshot numbers to files. [None] is a panic or an error: both end the program without output. Cites: shell.go, smooth.go. |
| SliceAngModel.v | Angles of tetrahedron slices: los/geom/intersection.go:114-265. Floats are reals (float32 conversions are the identity), as in GeomModel. Cites: intersection.go, rotation.go. |
| SmoothModel.v | Smoothing kernels, numerical derivatives and the splashback radius of a line of sight (no proofs in this file). Models math/interpolate/filter.go, math/calc/deriv.go, los/analyze/smooth.go, los/analyze/splashback_radius.go and los/analyze/ring_buffer.go. Floats are reals (RealBase); a panic is [None]; a routine that writes to a slice returns the new contents. Window widths and orders are [nat]: negative ones are refused by the same tests (Go: -3 % 2 is -1). Cites: deriv.go, filter.go, halo.go, penna.go, ring_buffer.go, smooth.go, splashback_radius.go. |
| SortModel.v | Model of math/sort (no proofs). [A] stands for float64 and [lt] for the comparison <; the theorems assume that the values compared are totally (pre)ordered, i.e. there is no NaN. A slice is a list; None = index out of range or a loop that does not end (fuel exhausted), so a theorem concluding [Some _] shows that neither happens. Cites: median.go, quick.go, shell.go, sort.go. |
| StatsRunModel.v | stats mode from the catalogue's rows and the particle files to the rows of statistics (no proofs in this file). Models los/analyze/shell.go:110-226 (Axes, cosNorm, SurfaceArea), 274-305 (RadiusHistogram) and cmd/stats.go:205-381, 408-422, 445-597. Floats are reals (RealBase.v; x / 0 is 0 here, where the code has Inf or NaN). Cites: shell.go, stats.go. |
| TreeModel.v | Merger trees (no proofs in this file). Models los/tree/tree.go on top of a contract for the library consistent_trees, which is not part of the repository: a tree file holds lists of halos, list 0 being the latest; LookupHaloInList finds a halo of a list by its ID; Desc and Prog follow pointers to the descendant and the main progenitor; LookupIndex(h.Scale()) is the index of the list the halo belongs to. ReadTree and DeleteTree load and drop the one global tree, so a file is modelled by its tree. Go ints are Z. Cites: tree.go. |
| TreeRunModel.v | tree mode: from the input text to the output lines (no proofs in this file). Models cmd/tree.go:62-154. The reading of tree files is TreeModel.v's contract; environment.SnapOffset is [offset]. Cites: tree.go. |
| VersionModel.v | Model of version/version.go and of the version check in cmd/cmd.go. Cites: cmd.go, version.go. |

## Results per property

Each line: how the property is modelled and what was proved; theorem names with their axioms (see trusted base) and the file of the first.

| id | status | property | result | theorems (axioms) |
|---|---|---|---|---|
| C01 | proved | Version strings parse exactly and are totally ordered | Accepted language characterised exactly (iff) and Later shown to be the lexicographic strict total order on parsed versions. | `C01_parse_exact` -, `C01_later_is_lexicographic` -, `C01_later_error_iff` -, `C01_later_strict_total_order` - (Props_Version) |
| C02 | partial | A config file's Version is accepted only if it is not from the future | False of the code: a config with major >= 2 is accepted and, for a source with minor > 0, older patch-level configs are rejected (two _refuted theorems). Proved: exact characterisation of the check for every source version and the property for the compiled-in 1.0.4 with config major <= 1. | `C02_version_check_characterised` -, `C02_not_from_the_future_partial` -, `C02_future_major_accepted_refuted` -, `C02_older_rejected_refuted` - (Props_Version) |
| C03 | proved | ReadConfig sets exactly the variables the file assigns | iff theorem, for every ToLower/ParseFloat; assumes the registered pointers are distinct and registered names differ ignoring case. | `C03_read_config_sets_exactly_what_is_assigned` - (Props_Config) |
| C04 | proved | Misspelled, duplicated or malformed config lines are rejected before anything is set | Diagnosis theorem covers every outcome incl. line numbers; converse direction by C03's iff. | `C04_errors_diagnosed_and_nothing_set` - (Props_Config) |
| C05 | proved | Comments, blank lines, indentation and key case do not change a configuration | Invariance under the equivalence generated by layout edits; outcome compared up to line numbers and message text. | `C05_layout_is_irrelevant` - (Props_Config) |
| C06 | proved | Command line flags are equivalent to config lines | Equivalence with a config file, exact effect of flags, and override order default < file < flag; for well-formed flag groups (no '=', '#' or newline in arguments, non-blank names and values). | `C06_flags_equal_config_lines` -, `C06_flags_set_exactly_what_they_name` -, `C06_flags_override_file_overrides_default` - (Props_Config) |
| C07 | partial | Config and flag errors are reported, never a crash | False of the code: error path uses vals[j] with j an index into the registered variables; also '--' alone panics. Refutations plus the exact source of every panic are proved; line number and variable name in the message are proved right in C04. | `C07_bad_value_panics_refuted` -, `C07_wrong_value_shown_refuted` -, `C07_flag_panics_refuted` -, `C07_read_config_panic_only_partial` -, `C07_read_flags_panic_only_partial` -, `C07_failed_read_leaves_partial_state_refuted` - (Props_Config) |
| C08 | proved | Catalog text: comments and blank lines are ignored, columns are exact | Parse succeeds iff the rows are a rectangular table of the requested columns (first row without control white space), and depends only on the data rows. | `C08_columns_are_exact` -, `C08_success_is_always_exact` -, `C08_layout_is_irrelevant` -, `C08_every_text_has_rows` - (Props_Catalog) |
| C09 | proved | Catalog output can be read back | Any order/selection, int and float columns, with or without CommentString header; floats are returned as parseFloat(Sprintf(%.6g)). | `C09_output_reads_back` -, `C09_integer_tables` - (Props_Catalog) |
| C10 | partial | Malformed catalogs produce an error, not a crash | Refuted as stated: rows longer than the first and negative column indices panic. Partial: otherwise never panics, error iff not a table. | `C10_extra_field_panics_refuted` -, `C10_every_long_row_panics_refuted` -, `C10_negative_column_panics_refuted` -, `C10_malformed_is_an_error_partial` - (Props_Catalog) |
| C11 | proved | Shell sort and Quick sort sort | Quick and Shell return a sorted permutation for every slice, buffer and length. | `C11_shell_sorts` -, `C11_quick_sorts` -, `C11_reverse_reverses` - (Props_Sort) |
| C12 | proved | NthLargest selects the right order statistic | NthLargest selects the n-th largest entry for every slice and rank. | `C12_nth_largest` -, `C12_buffer_is_irrelevant` - (Props_Sort) |
| C13 | partial | Median and Percentile return order statistics | Proved: Median of an even number of values (and of one value) is a median. Refuted: for every odd number (>=3) of distinct values Median returns the value one rank too high, and Percentile's order is reversed with respect to its documentation. Percentile's exact rank: C110. | `C13_median_even_partial` -, `C13_median_is_rank_half_partial` -, `C13_median_of_three_is_max_refuted` -, `C13_median_odd_refuted` -, `C13_percentile_reversed_refuted` - (Props_Sort) |
| C14 | proved | Interpolation search brackets the query point |  | `C14_search_any_guess` r, `C14_search_brackets` r, `C14_uniform_search_brackets` r, `C14_spline_search_any_guess` r (Props_Interp) |
| C15 | proved | Linear interpolators interpolate |  | `C15_linear` r, `C15_uniform_linear` r, `C15_bilinear` r, `C15_uniform_bilinear` r (Props_Interp) |
| C16 | proved | Cubic splines are C2 natural interpolants |  | `C16_spline` C (Props_Interp) |
| C17 | proved | TriDiag solves tridiagonal systems | All n equations hold whenever it returns; it panics iff a leading principal minor is zero (or lengths disagree / are zero); never for dominant systems. | `C17_solves` r, `C17_panics_iff_zero_minor` r, `C17_bad_lengths_panic` r, `C17_dominant_never_panics` r (Props_Interp) |
| C18 | proved | Matrix-vector products and transposes are those of linear algebra |  | `C18_multVec` r, `C18_vecMult` r, `C18_vector_shape_mismatch_panics` d, `C18_transpose` d (Props_Mat) |
| C19 | proved | LU factorisation and determinant |  | `C19_determinant` r, `C19_factorisation` r, `C19_zero_row_panics` r (Props_Mat) |
| C20 | proved | Random generators stay in [0,1) and batch equals one-at-a-time | Xorshift (including termination of its retry loop for every seed and history), Tausworthe, and the Golang wrapper over an abstract source; over the reals (float rounding of Tausworthe's -eps+1 is not modelled). | `C20_xorshift_next` r, `C20_xorshift_sequence` r, `C20_tausworthe_next` r, `C20_tausworthe_sequence` r, `C20_golang_sequence` d, `C20_uniform_range` r, `C20_uniformInt_range` r, `C20_uniformAt` r (Props_Rand) |
| C21 | proved | Sobol sequences stay in the unit cube |  | `C21_in_unit_cube` r, `C21_points_distinct` r, `C21_exhaustion_panics` r, `C21_too_many_dimensions_panic` r, `C21_reinit_does_not_restart` r (Props_Rand) |
| C22 | proved | Filter files round trip |  | `C22_round_trip` -, `C22_portable` -, `C22_panics` -, `C22_layout` - (Props_Filter) |
| C23 | proved | The halo grid partitions points into cells | Partition, containment, Length/ReadIndexes/MaxLength for every new grid and every list of points with coordinates in [-W, 2W). Floats are reals. C23_second_insert_refuted shows that a second Insert into the same grid (outside the property) can make a cell list cyclic. | `C23_grid_partition` r, `C23_second_insert_refuted` r (Props_Grid) |
| C24 | proved | Subhalo finders find every pair within the host radius, once | CSR tables, counting sort and sort are modelled step by step; floats are reals and sort.Sort is modelled by its specification. The reading that compares both spheres is refuted (C24_spheres_overlap_refuted: the radius of the later halo is ignored) and an empty catalogue panics (C24_empty_panics_refuted). | `C24_find_subhalos` r, `C24_symmetric` r, `C24_split_finder` r, `C24_spheres_overlap_refuted` r, `C24_empty_panics_refuted` r (Props_Grid) |
| C25 | proved | Snapshot file-name interleaving enumerates each block exactly once | Whole pipeline GetColumn -> interleave -> names -> ParticleCatalog for the six file-backed snapshot types; fmt.Sprintf is an arbitrary function; 64-bit overflow of SnapMax-SnapMin is not modelled. | `C25_particle_catalog` -, `C25_built_iff_legal` -, `C25_interleave` -, `C25_rows` - (Props_Env) |
| C26 | proved | id mode prints exactly the requested halos |  | `C26_none` -, `C26_overlap` -, `C26_neighbor` -, `C26_unknown_id` - (Props_ID) |
| C27 | proved | Merger-tree histories are complete and ordered | The library consistent_trees is a contract (TreeModel.v, tree_ok): lists from the latest on, pointers to later/earlier lists. | `C27_histories` -, `C27_missing` -, `C27_one_per_snapshot` - (Props_Tree) |
| C28 | proved | Parallel particle counting is schedule independent and exhaustive | every interleaving of the worker group model (goroutines + buffered channel), any number of workers; the mass sum in exact (associative, commutative) arithmetic - float64 addition is not associative, so the last bits may depend on the schedule; the inside/shell test is abstract | `C28_partition` -, `C28_mass` -, `C28_ids` -, `C28_shell` - (Props_Par) |
| C29 | proved | LockGroup.Synchronize waits for every worker | safety, progress, and termination of every interleaving; the programs of the workers are arbitrary | `C29_synchronize` -, `C29_always_returns` - (Props_Par) |
| C30 | proved | Profile rings accumulate densities linearly | Insert/Retrieve of any insertion history, and split/join over any workers of a matching kind; the condition on workers is shown necessary (_refuted theorem: a reused worker keeps its old bin width). | `C30_insert_retrieve` r, `C30_split_join` r, `C30_reused_width_refuted` r (Props_Los) |
| C31 | proved | Periodic distances use the nearest image | wrapDist for coordinates in the box; Transform for any sequence of in-place applications with centres in the box. | `C31_wrap_dist` r, `C31_transform` r (Props_Los) |
| C32 | proved | Header memoisation is transparent |  | `C32_transparent` - (Props_HeaderMemo) |
| C33 | proved | Memoised Rockstar lookups are transparent |  | `C33_lookup` -, `C33_transparent` -, `C33_missing` -, `C33_sorted` - (Props_Rockstar) |
| C34 | proved | Gadget particle blocks keep only dark matter, in order | Byte-level model of reading; float conversions abstract (interface F), exactness of coordinates for exact conversions. | `C34_dark_matter_only` -, `C34_coordinates` r, `C34_selection` -, `C34_header_count` - (Props_Gadget) |
| C35 | proved | Byte order conversion is exact | Every machine order, file order, block content and stale buffer. | `C35_float32` -, `C35_vectors` -, `C35_int32` -, `C35_int64` -, `C35_bolshoi` -, `C35_wrong_order` - (Props_Order) |
| C36 | proved | Penna shell orders are recovered from coefficient counts | findOrder for every length; fit matrix and PennaFunc agree for points off the polar axis (on the axis penna.go:29-30 divides by zero) | `C36_find_order` -, `C36_same_basis` R (Props_Shell) |
| C37 | proved | Ring buffers return exactly the valid points | RingBuffer Init/Clear/Splashback/OkPlaneCoords/OkPolarCoords and the gathering loops of FilterPoints, for every sequence of calls; Smooth and SplashbackRadius are abstract | `C37_exactly_the_valid_points` -, `C37_splashback` -, `C37_clear` - (Props_Cmd) |
| C38 | proved | Halos are grouped by snapshot without loss | binBySnap, binCoeffsBySnap, the snapshot loops of shell and stats and their write-back, for every map enumeration order; the per-snapshot analysis is an arbitrary row-wise procedure | `C38_groups` -, `C38_coefficient_groups` -, `C38_each_snapshot_once` -, `C38_shell_writes_back` -, `C38_stats_writes_back` -, `C38_map_order_is_irrelevant` -, `C38_bookkeeping_never_crashes` - (Props_Cmd) |
| C39 | proved | Kernel convolution continues signals by their end values or by zeros | All boundary conditions away from the left end; Extension and ZeroPad everywhere (the code only uses Extension). The left end of the other two is C69. | `C39_convolution` r, `C39_right_part` r, `C39_constant` r, `C39_kernels` R, `C39_weights` R, `C39_long_kernel` d (Props_Smooth) |
| C40 | proved | Second-order numerical derivatives are exact on parabolas | pderiv is shown to be the derivative of calculus (C40_spec_derivative). Order 4 is C70. | `C40_second_order` r, `C40_spec_derivative` r, `C40_refused` r (Props_Smooth) |
| C41 | proved | Cubic interpolators do not depend on the query history | For all non-panicking histories. Also shown: a recovered panic poisons the cache (C41_after_panic_refuted). | `C41_bicubic_history_independent` r, `C41_tricubic_history_independent` r, `C41_bicubic_table` r, `C41_tricubic_table` r, `C41_after_panic_refuted` r (Props_Interp) |
| C42 | partial | Damaged filter files are reported | Wrong flags are proved to be reported. Truncation is refuted in full generality: every prefix of every written file reads without error. | `C42_bad_flag_partial` -, `C42_truncation_refuted` - (Props_Filter) |
| C43 | proved | Halo catalogue files are matched to snapshots from the end of the directory | ReadDir's listing is an arbitrary list. | `C43_halo_catalog` -, `C43_too_few_files` - (Props_Env) |
| C44 | partial | Nil snapshots have a catalogue for every snapshot in range | Refuted when SnapMin > 0 (InitNil leaves snapMin at 0, ParticleCatalog panics); exact behaviour proved, and the property for SnapMin = 0. | `C44_nil_partial` -, `C44_nil_from_zero` -, `C44_nil_refuted` - (Props_Env) |
| C45 | partial | Validated file-name formats start up | Refuted for numbered blocks (early return skips later meanings and Logging), for Block without ranges and for ValidateFormats = true; proved for the remaining configurations. | `C45_validated_starts_partial` -, `C45_after_block_refuted` -, `C45_block_without_range_refuted` -, `C45_validate_formats_refuted` - (Props_Env) |
| C46 | proved | Halo values come from the column the user named |  | `C46_named_values` - (Props_Rockstar) |
| C47 | partial | Asking for more halos than exist is an error | Error for maxID > N (C47_too_large_partial); for maxID = N the code panics (C47_boundary_refuted). | `C47_too_large_partial` -, `C47_boundary_refuted` - (Props_Rockstar) |
| C48 | proved | A killed process does not make later halo look-ups wrong | Crash points are arbitrary prefixes of either cache file. | `C48_never_wrong` -, `C48_short_harmless` -, `C48_sorted_never_wrong` - (Props_Rockstar) |
| C49 | partial | ID ranges include both end points | The range without its end is printed, in order (C49_inside_partial, C49_end_dropped_refuted); a range of one ID prints nothing (C49_single_refuted): contrary to the documentation. | `C49_end_dropped_refuted` -, `C49_single_refuted` -, `C49_inside_partial` - (Props_ID) |
| C50 | partial | Mass ranges select exactly the halos in the range | The computed ranks are exactly those of the halos in the range (C50_ranks_partial) but the last is dropped (C50_lightest_dropped_refuted), a range above all halos crashes (C50_all_lighter_refuted) and a range below all halos is ignored (C50_all_heavier_refuted). | `C50_ranks_partial` -, `C50_lightest_dropped_refuted` -, `C50_all_lighter_refuted` -, `C50_all_heavier_refuted` - (Props_ID) |
| C51 | proved | Parallel profiles and potentials are race free and equal the sequential result | per worker group (one file / one halo); the update functions are arbitrary, so the result is bit for bit | `C51_potential` -, `C51_prof` - (Props_Par) |
| C52 | proved | Shell containment is geometric |  | `C52_contains` C, `C52_penna_contains` C (Props_Shell) |
| C53 | proved | Monte Carlo shell statistics are sane for every random stream |  | `C53_monte_carlo` R, `C53_sphere` R, `C53_max_diff` r (Props_Shell) |
| C54 | partial | Axis lengths are sorted | proved unless the first two arguments are equal; refuted for a tie | `C54_trisort_partial` r, `C54_trisort_refuted` r (Props_Shell) |
| C55 | proved | Angular fraction profiles are cumulative fractions |  | `C55_angular_fraction` r (Props_Shell) |
| C56 | proved | coord converts units | Reals for floats. | `C56_unit_factors` r, `C56_unknown_units_panic` r, `C56_coord_cells` r, `C56_single_snapshot` r (Props_Cmd) |
| C57 | partial | coord prints the requested columns under their own headings | holds when integer columns are requested first; refuted in general (X, Y, N prints Y, N, X) | `C57_integers_first_partial` -, `C57_column_order_refuted` - (Props_Cmd) |
| C58 | partial | Values accepted by coord's validation can be printed | holds when values are configured columns or R200m/R200c/R500c; refuted for R2500c derived from M2500c | `C58_accepted_values_partial` -, `C58_R2500c_refuted` - (Props_Cmd) |
| C59 | partial | Placeholder rows are passed through | stats passes them through unless the first row is one (then it crashes); shell crashes on every input containing one (refuted) | `C59_stats_placeholders_partial` -, `C59_stats_first_row_refuted` -, `C59_shell_refuted` - (Props_Cmd) |
| C60 | proved | tree mode prints exactly the selected part of the histories | tree.go:95-124 | `C60_tree_output` -, `C60_repeated_selection` - (Props_Cmd) |
| C61 | proved | Halo masses and radii are consistent |  | `C61_radius_mass_inverse` C, `C61_mean_density` C, `C61_radii_ordered` C, `C61_names` - (Props_Cmd) |
| C62 | proved | Coefficient tables are transposed without loss | cmd/shell.go:272-286 | `C62_transpose` - (Props_Cmd) |
| C63 | partial | Files that hold contributing particles are never skipped | False of the code: a file that covers half of the box can be skipped although it holds a particle of the halo, and the kernel radius is ignored (two _refuted theorems). Proved for particle centres within rMax and files not wider than half the box less the radius (or as wide as the box). | `C63_sheet_intersect_partial` r, `C63_half_box_refuted` r, `C63_kernel_refuted` C (Props_Los) |
| C64 | partial | Densities along lines of sight are those of the particles | Proved end to end (createHalos, sphereLoop with any number of workers and files, GetRhos), except for balls centred exactly on the halo and for balls for which a ray pointing away may be hit too; there it is false (_refuted theorem). | `C64_bin_centres` C, `C64_shell_densities_partial` C, `C64_ghost_refuted` C (Props_Los) |
| C65 | proved | Rotations between axes are isometries that take one axis to the other | exact arithmetic | `C65_rotation` C (Props_Los) |
| C66 | partial | Shell masses and profiles use nearest images | False of the code for every displacement that has to be wrapped: the theorem says that wrap returns the nearest image iff \|x\| <= L/2. | `C66_wrap_refuted` r (Props_Los) |
| C67 | proved | Loading particles does not depend on the number of threads | exact arithmetic; workers are new or were used for halos of the same shape (as createHalos makes them). | `C67_each_particle_once` -, `C67_threads` C (Props_Los) |
| C68 | proved | The halo's particle pre-selection rejects nothing that matters |  | `C68_intersect` C (Props_Los) |
| C69 | partial | Periodic and mirrored signals are continued correctly at the left end | False of the code: what is read instead is characterised exactly (C69_left_end_partial) and refuted for whole families; Get panics just after the end of a mirrored signal. | `C69_left_end_partial` r, `C69_periodic_refuted` r, `C69_reflection_refuted` r, `C69_get_partial` d, `C69_get_refuted` d (Props_Smooth) |
| C70 | partial | Fourth-order numerical derivatives are exact on quartics | False of the code: the inner samples are 4/3 of the derivative on every uniform grid; the two samples at each end are exact (C70_fourth_order_partial). | `C70_fourth_order_partial` r, `C70_interior_refuted` r, `C70_other_orders` r, `C70_nonuniform_refuted` r (Props_Smooth) |
| C71 | proved | Savitzky-Golay kernels reproduce polynomials and their first derivatives |  | `C71_savgol` r, `C71_refused` r, `C71_refused_derivative` r (Props_Smooth) |
| C72 | proved | Smoothing a profile gives its logarithmic slope and leaves the input alone |  | `C72_smooth` C, `C72_smooth_values` C, `C72_refused` C (Props_Smooth) |
| C73 | proved | The splashback radius is the steepest qualifying minimum of the slope |  | `C73_splashback_radius` r, `C73_lengths` r (Props_Smooth) |
| C74 | proved | Rings hold one independent splashback point per line of sight | line_result states the contents of one line; C74_reachable discharges the hypotheses for every halo that was initialised and given any spheres. | `C74_ring` C, `C74_clear` d, `C74_narrow` C, `C74_ok_coords` d, `C74_reachable` C (Props_Smooth) |
| C75 | partial | Histories carry the right snapshot numbers | Right for files that cover as many snapshots as there are halo catalogues; refuted for files that cover fewer (their halos' snapshots are too small). | `C75_snapshots_partial` -, `C75_short_file_refuted` - (Props_Tree) |
| C76 | proved | Density estimates follow the points |  | `C76_gaussian_kde` C (Props_Kde) |
| C77 | proved | The filtering tree refines peak by peak |  | `C77_panics` C, `C77_root` C, `C77_levels` C (Props_Kde) |
| C78 | proved | The filter keeps exactly the points near its curve |  | `C78_filter_nearby` C, `C78_filter_points` C, `C78_panics` C (Props_Kde) |
| C79 | proved | The shell is the least-squares Penna-Dines fit | gonum's Inverse enters through the contract inverts_posdef (met by the concrete pd_inverse), Mul as the matrix product. | `C79_least_squares` R, `C79_exact` R, `C79_points` C, `C79_no_points` R, `C79_volume_fit` R (Props_Fit) |
| C80 | proved | Shell rows are independent of each other | shell_rows on a catalogue = the rows of its singletons; corollaries for threads and line order. Hypotheses: usable_config, usable_catalogue (Props_ShellRun.v). Percentile mode is not covered here. | `C80_rows` C, `C80_threads` C, `C80_order` C (Props_ShellRun) |
| C81 | proved | Shell configuration check | Accepted set characterised exactly; usable and fatal windows both proved for all data (C81_window_fatal). C81_check_refuted is the concrete even window. | `C81_accepts` r, `C81_names` r, `C81_usable` r, `C81_window_fatal` C, `C81_check_refuted` C (Props_ShellConf) |
| C82 | partial | Lines shell mode cannot use do not stop the others | Refuted: both kinds of lines make the whole run fail (C82_snapshot_refuted, C82_radius_refuted), for all other lines, configurations and data. For snapshot -1 it is assumed that the simulation has no snapshot -1. | `C82_snapshot_refuted` C, `C82_radius_refuted` C (Props_ShellConf) |
| C83 | proved | Percentile profiles | The product Percentile/100*N is computed exactly in the model (a rational), not in float64. | `C83_percentile` C, `C83_from_the_top` C (Props_ShellConf) |
| C84 | proved | Equal-area pixels | Reals for floats; the two exceptions are the theorems C84_disk_edge_refuted and C84_equator_refuted. | `C84_disk_pixel` R, `C84_cells_disjoint` R, `C84_numbers` -, `C84_disk_areas` R, `C84_disk_edge_refuted` R, `C84_sphere_pixel` R, `C84_equator_refuted` R, `C84_solid_angles` R (Props_Pixel) |
| C85 | proved | Density profiles | Reals for floats; files' particles are read in one piece; C85_boundary_refuted is the exception in the statement. The shell of contained-density is an arbitrary predicate (C21 describes it). | `C85_insert_points` C, `C85_bins` C, `C85_densities` C, `C85_inner_edge` C, `C85_boundary_refuted` C (Props_Prof) |
| C86 | proved | Median profiles | Reals for floats; percentile/100 is a fraction num/den (C13); the level-1 exception is a hypothesis (C84_equator_refuted). Rank counts from the largest (C13). | `C86_insert` C, `C86_percentiles` C (Props_Prof) |
| C87 | partial | prof prints profiles | Refuted: Run returns nil, nil inside the loop over files after the first file that meets a halo, so no profile is ever printed (C87_silent_refuted); rows are printed only when no file meets any halo, with all densities zero (C87_rows_refuted). median-error and angular-fraction are not in this model. | `C87_rows_refuted` C, `C87_silent_refuted` C (Props_Prof) |
| C88 | partial | prof configuration is checked | C88_accepts characterises what is accepted, C88_names the names in errors; refuted: a bad RMaxMult is reported as RMinMult, ProfileType is not required without file and flags, Bins = 0, RMinMult >= RMaxMult and Percentile > 100 are accepted. | `C88_accepts` r, `C88_names` r, `C88_rmax_name_refuted` r, `C88_required_refuted` -, `C88_ranges_refuted` r, `C88_percentile_refuted` C (Props_ProfConf) |
| C89 | partial | Linear interpolators work with decreasing tables | False of the code: every query on a decreasing table panics. | `C89_decreasing_table_refuted` r (Props_Interp) |
| C90 | partial | Trilinear interpolation interpolates | TriLinear looks z up in the y table: proved when the two tables coincide, refuted otherwise. | `C90_trilinear_partial` r, `C90_uniform_trilinear_partial` r, `C90_trilinear_refuted` r (Props_Interp) |
| C91 | partial | Splines of decreasing and of two-point tables, integrals from inside a cell | Decreasing tables: Eval and inner derivatives proved (C91_decreasing_spline_partial), derivatives at the ends refuted; two-point tables and integrals from inside a cell refuted. | `C91_decreasing_spline_partial` r, `C91_decreasing_deriv_refuted` r, `C91_two_points_refuted` r, `C91_integrate_refuted` r (Props_Interp) |
| C92 | partial | Matrix products are those of linear algebra | Proved for one-row first factors or square second factors; all other shapes refuted (panic, or the bottom-right entry is always 0). | `C92_mult_partial` r, `C92_multAt_partial` r, `C92_mult_narrow_refuted` d, `C92_mult_wide_refuted` d, `C92_mult_shape_mismatch_panics` d (Props_Mat) |
| C93 | partial | LU factors solve linear systems | SolveVector, Invert and in-place SolveMatrix proved exactly when no rows were interchanged and refuted otherwise; Matrix.SolveMatrix refuted (ignores b). | `C93_solveVector_partial` r, `C93_luSolveVector_partial` r, `C93_solveVector_refuted` r, `C93_triangular_systems_partial` r, `C93_invert_partial` r, `C93_luSolveMatrix_in_place_partial` r, `C93_solveMatrix_ignores_b_refuted` r, `C93_solveMatrix_refuted` r, `C93_zero_corner_refuted` r (Props_Mat) |
| C94 | partial | Sobol sequences with calls of different dimensions | Refuted: a concrete interleaving repeats values. | `C94_mixed_dimensions_refuted` r (Props_Rand) |
| C95 | partial | Filter files say where a halo's particles start | StartByte is right exactly for halos preceded only by empty ones (C95_start_byte_partial), refuted in general (totLen is never incremented). | `C95_start_byte_partial` -, `C95_start_byte_refuted` - (Props_Filter) |
| C96 | partial | A crash does not break header memoisation | Refuted: a crash in the middle of writing the cache file leaves a file that makes later calls fail. | `C96_crash_refuted` - (Props_HeaderMemo) |
| C97 | partial | All Gadget-2 files can be read | Little endian headers are proved to be read; refuted: big endian headers, duplicate type indices in the count, empty files, files without a mass block, id blocks of 2 GiB and more. | `C97_header_partial` -, `C97_duplicate_types_refuted` -, `C97_big_endian_header_refuted` -, `C97_empty_file_refuted` -, `C97_no_mass_block_refuted` -, `C97_large_id_block_refuted` - (Props_Gadget) |
| C98 | partial | Short reads are noticed | Refuted: short reads are silent, with stale words. | `C98_short_read_refuted` - (Props_Order) |
| C99 | partial | Names without a meaning are not answered | Refuted: a name without a meaning is answered with the first column. | `C99_unknown_refuted` - (Props_Rockstar) |
| C100 | partial | A killed process does not make halos unavailable | Refuted: a torn full file is never rebuilt and halos of the catalogue stay unavailable. | `C100_torn_full_refuted` - (Props_Rockstar) |
| C101 | partial | stats counts exactly the particles of a shell | The fast tests are proved for valid bounds with 0 <= rLow (and width*R <= rLow); refuted for sampled bounds and for wide bands. | `C101_mass_test_partial` C, `C101_mass_test_refuted` C, `C101_shell_particles_partial` C, `C101_shell_particles_refuted` C (Props_Shell) |
| C102 | partial | R_sp and DiffVolume | Refuted: R_sp uses exponent 0.33333 (C102_radius_partial: equal up to that), DiffVolume is wrong. | `C102_radius_partial` C, `C102_radius_refuted` C, `C102_diff_volume_refuted` R (Props_Shell) |
| C103 | partial | Angular fractions count all directions | Refuted when the shell leaves the profile's range. | `C103_angular_fraction_refuted` r (Props_Shell) |
| C104 | partial | Every row is converted and analysed with its own snapshot's cosmology | Refuted: coord uses the cosmology of the first row's snapshot, shell the background density of the smallest snapshot's header. | `C104_mixed_snapshots_refuted` r, `C104_shell_background_refuted` R (Props_Cmd) |
| C105 | partial | The names of a radius and of its mass correspond | Refuted: MassString(R500c) is R500c. | `C105_mass_name_refuted` - (Props_Cmd) |
| C106 | partial | Balls centred on the halo are not lost | Refuted: such balls are rejected although they cover inner bins. | `C106_centre_refuted` C (Props_Los) |
| C107 | partial | Savitzky-Golay kernels for higher derivatives | Refuted for second derivatives of order 4 at every width (the code forgets the row interchanges of LU). Missing: other derivative orders. | `C107_second_derivative_refuted` r (Props_Smooth) |
| C108 | partial | Smoothing does not depend on earlier profiles | Refuted when bin widths differ between calls (kernels are cached by window only). | `C108_stale_spacing_refuted` C (Props_Smooth) |
| C109 | partial | Rings that cannot be filtered are reported | Refuted: a ring without valid points panics. | `C109_empty_ring_reported_refuted` R (Props_Kde) |
| C110 | proved | Percentile returns a known rank | p n is computed exactly (the code rounds it to float64 first). | `C110_percentile_rank` - (Props_Sort) |
| C111 | proved | Runs that share a memo directory agree on what matters | For sequential runs (simultaneous runs: C115). Assumes the config file does not change during a run and Stat only fails for missing files. | `C111_runs_agree` -, `C111_check` - (Props_Global) |
| C112 | partial | A killed run does not lock the memo directory | False of the code: the copy is not atomic. Refuted by two concrete crashes (invalid prefix; valid prefix with a cut number) and in general (C112_killed_blocks: any crash that leaves an invalid prefix locks the directory until it is cleared). | `C112_killed_blocks` -, `C112_killed_refuted` -, `C112_cut_number_refuted` - (Props_Global) |
| C113 | proved | Cached headers are those of the current configuration | Combines the memo directory check with header memoisation; headers that depend on other variables: C114; torn header files: C96. | `C113_headers_current` - (Props_Global) |
| C114 | partial | Changing a variable never leaves stale cache files in use | False of the code: NilSnap*, Gadget* and LGadgetNpartNum, ScaleFactorFile are not compared. Refuted: end-to-end with nil snapshots, and in general the second run gets the first run's headers (C114_stale_refuted). | `C114_stale_refuted` -, `C114_nil_cosmology_refuted` -, `C114_uncompared_refuted` - (Props_Global) |
| C115 | partial | The memo directory check is safe for simultaneous runs | False of the code: check and copy are not atomic. Refuted by a schedule of two conflicting valid configurations. | `C115_race_refuted` -, `C115_conflict_refuted` - (Props_Global) |
| C116 | proved | Which global config files are accepted | iff theorem over all texts; validateDir and the float/lower-case library functions are parameters; assumes the 34 variable names differ after lower-casing (shown for ASCII lower-casing). | `C116_accepts` - (Props_Global) |
| C117 | partial | Nil snapshots need their cosmology | False of the code: an unset NilSnapOmegaL skips the other checks. Proved if NilSnapOmegaL is set. | `C117_all_set_partial` -, `C117_missing_refuted` - (Props_Global) |
| C118 | proved | The failure of a stage reaches the end of a pipe | For pipes of any length; the excluded cases are C119. | `C118_failure_reaches_end` -, `C118_no_false_alarm` - (Props_Main) |
| C119 | partial | A stage that ends abnormally fails the pipe | False of the code: panics, an unknown Logging value and the empty line printed by validate all hide the failure from later stages. Three refutations and the general theorem C119_silence_spreads. | `C119_silence_spreads` -, `C119_panic_refuted` -, `C119_logging_refuted` -, `C119_blank_line_refuted` - (Props_Main) |
| C120 | partial | tree needs a merger tree | False of the code: the TreeType check is unreachable. Refuted for a valid config, any tree run and any input. | `C120_tree_refuted` - (Props_Main) |
| C121 | proved | The command line is split into config file and flags | All argument lists. | `C121_arguments` - (Props_Main) |
| C122 | proved | Modes that lack their input are refused | Any mode behaviour, configuration and input. | `C122_nil_refused` - (Props_Main) |
| C123 | proved | Total-velocity phase profiles put every particle in its cell | C123_total_cells: cell gains exactly the mass of the particles in it; C123_cells_partition: cells are disjoint and cover everything inside RMax and below VMax. Exact real arithmetic; particles within half a box of the centre. | `C123_total_cells` C, `C123_cells_partition` R (Props_Phase) |
| C124 | partial | Radial phase profiles put every particle in its cell | Proved provided no particle sits exactly at the centre and none falls in with a radial velocity between -VMax-dv and -VMax; C124_fast_infall_refuted shows that such a particle is wrongly counted in the first velocity bin (int() truncates toward zero, phase.go). | `C124_radial_cells_partial` C, `C124_fast_infall_refuted` R (Props_Phase) |
| C125 | proved | The axes of phase profiles are the bin centres and densities integrate to the mass | Exact real arithmetic. | `C125_axes_densities` R (Props_Phase) |
| C126 | proved | phase rows hold their own snapshot's particles | For every map order; particles near a halo need not wrap; radial profiles under the provisos of C124. | `C126_rows` C (Props_Phase) |
| C127 | partial | phase's header names its columns | C127_layout fixes where the values are written; C127_header_refuted: the header swaps the numbers of R and V columns, so with RBins <> VBins it names wrong columns. | `C127_layout` d, `C127_header_refuted` - (Props_Phase) |
| C128 | partial | Nil snapshots have the configured headers | Proved for SnapMin = 0. For SnapMin > 0 false: InitNil leaves snapMin at 0, so the last SnapMin snapshots panic (C128_late_snapshots_refuted) and the others get the scale factor of a later snapshot (C128_shifted_refuted). | `C128_nil_header_partial` -, `C128_late_snapshots_refuted` -, `C128_shifted_refuted` - (Props_Nil) |
| C129 | partial | Potential maps give the potential at the printed coordinates | C129_cells_partial: each cell holds the potential at the point with minus the grid's coordinates, the grid being n equal steps from -G to G. The claim itself is false (C129_printed_refuted, for every grid size and every single particle off the plane a + b = 0): the maps are mirrored through the centre, and the printed radii have another spacing (ncells instead of ncells - 1). | `C129_cells_partial` R, `C129_printed_refuted` R (Props_Potential) |
| C130 | proved | potential rows hold their own snapshot's particles | C130_rows for any ParticleFraction, C130_all_used for ParticleFraction = 1. No particle at exactly RMaxMult radii; exact real arithmetic; maps mirrored as in C129. | `C130_rows` R, `C130_all_used` r (Props_Potential) |
| C131 | proved | potential's header names its columns | C131_layout and C131_header agree column by column; at least two cells per side. | `C131_layout` d, `C131_header` - (Props_Potential) |
| C132 | partial | Potential maps respect the periodic box | False: C132_periodic_refuted: particles whose unwrapped distance exceeds RMaxMult radii are left out, although their files are read. Without particles across a face the maps are right in the sense of C129/C130. | `C132_periodic_refuted` R (Props_Potential) |
| C133 | proved | check reports exactly the wrong fields | Real arithmetic; masses different from -1 (the code's 'no failure' marker), no particle exactly on the sphere of the example halo, halo not across the box edge. Exact set of failures in both directions. | `C133_verdict` R (Props_Check) |
| C134 | partial | check looks at all particle masses | Refuted: only the first file of the last snapshot is examined; the verdict is independent of all other files. | `C134_other_files_refuted` r (Props_Check) |
| C135 | partial | check verifies every field set in its config file | Refuted: a field set to 0 is not compared; the verdict is independent of the header's value. | `C135_zero_refuted` r (Props_Check) |
| C136 | partial | A correct ParticleCount passes | Refuted for gotetra and ARTIO (every positive ParticleCount is reported wrong) and for Bolshoi (constant 2048^3). | `C136_uncounted_refuted` r (Props_Check) |
| C137 | partial | Documented config files are accepted | Proved for id, tree, stats, prof, shell and check; refuted for phase, potential and coord (the example header differs from the registered one, every such file is rejected) and for NCells of potential mode. ToLower is assumed to lower ASCII text; ParseFloat is arbitrary. | `C137_wanted_header_accepted` r, `C137_documented_accepted_partial` r, `C137_documented_header_refuted` r, `C137_ncells_refuted` r (Props_ModeConf) |
| C138 | proved | Each mode accepts exactly its valid configurations | Equivalence, file without flags or flags without file; without either the defaults are returned unchecked. | `C138_id` r, `C138_stats` r, `C138_phase` r, `C138_potential` r, `C138_nothing_given` r (Props_ModeConf) |
| C139 | partial | An empty mass range is reported | Refuted: the error is built but not returned; every inverted range is accepted. | `C139_empty_range_refuted` r (Props_ModeConf) |
| C140 | partial | Documented defaults are the real defaults | Proved for all stated defaults of id, stats, shell and coord except ExclusionRadiusMult (documented 0.8, real 1), for which it is refuted. | `C140_documented_defaults_partial` r, `C140_exclusion_mult_refuted` r (Props_ModeConf) |
| C141 | partial | tree mode prints exactly the selected part of the main branches | Proved for SnapMin >= 0 and SelectSnaps without repetitions, from the bytes of the input to the words of the output lines; refuted for repeated entries of SelectSnaps (each row is printed once per repetition). tree_ok is the contract of the consistent_trees library. | `C141_tree_output_partial` -, `C141_repeated_selection_refuted` -, `C141_missing_halo` - (Props_TreeRun) |
| C142 | partial | Histories of different halos are separated by sentinel rows | Refuted: with SnapMin >= 0 the sentinel rows are filtered out, so no output ever has them. | `C142_separators_refuted` - (Props_TreeRun) |
| C143 | proved | tree mode reads exactly the tree_*.dat files | Names only; reading the directory is the operating system's. | `C143_tree_files` - (Props_TreeRun) |
| C144 | partial | Headers report where the particles are | Proved for every non-empty list of particles in the box; a file without particles makes the code panic (C144_empty_refuted). Floats are reals. | `C144_region` r, `C144_empty_refuted` - (Props_Box) |
| C145 | partial | Files are not skipped although they hold particles of a halo | Proved when, along every axis, the region is the whole box or at most half of it less the radius; refuted otherwise (a two-particle file 49 wide in a box of 100). | `C145_not_skipped_partial` r, `C145_skipped_refuted` r (Props_Box) |
| C146 | partial | LGadget-2 files are read completely | Proved for little endian files. Refuted for big endian files: the header is always read little endian, so the particle number of every file with 1 to 255 particles is wrong (C146_big_endian_header_refuted), and no such file is ever read correctly (C146_big_endian_refuted). | `C146_particles_partial` -, `C146_header_partial` -, `C146_big_endian_header_refuted` -, `C146_big_endian_refuted` - (Props_LGadget) |
| C147 | partial | LGadget-2 positions lie in the box | Proved for coordinates less than one width outside of the box; between one and two widths below or two and three above the box, positions are accepted and returned outside of the box (C147_outside_refuted); beyond that the corruption error (C147_corrupt). Exact arithmetic. | `C147_in_box_partial` r, `C147_outside_refuted` r, `C147_corrupt` r (Props_LGadget) |
| C148 | partial | LGadgetNpartNum selects the particle counter | The counters are read right in little endian files; a wrong LGadgetNpartNum = 2 with 1 to 100000 particles of the first species is not noticed and gives a multiple of 2^32 (C148_species_refuted). | `C148_total_partial` -, `C148_species_refuted` - (Props_LGadget) |
| C149 | partial | gotetra files: the segment is returned | Proved for both byte orders with the flags that the code uses (0 little, -1 big); the documented flags are the other way round, and a little endian file that follows the comment is refused (C149_documented_flag_refuted). | `C149_segment` -, `C149_new` -, `C149_documented_flag_refuted` - (Props_Sheet) |
| C150 | proved | gotetra snapshots: every particle once | Over the reading model with a byte buffer; snapshot layout in SheetSpec. | `C150_once` -, `C150_file_coords` - (Props_Sheet) |
| C151 | partial | Damaged gotetra files are reported | Only files with another grid count are reported (C151_wrong_shape); a missing or cut off file returns the particles of the file before it without an error (C151_stale_refuted). | `C151_stale_refuted` -, `C151_wrong_shape` - (Props_Sheet) |
| C152 | partial | gotetra particles are complete | Refuted: all ids are 0 and no velocities are returned (C152_ids_refuted). | `C152_ids_refuted` - (Props_Sheet) |
| C153 | proved | Bolshoi and BolshoiP files return the particles of their cell | For any float arithmetic; file layouts in BolshoiSpec; the buffers must be large enough (slice bounds), as allocated by the code. | `C153_bolshoi` -, `C153_bolshoiP` - (Props_Bolshoi) |
| C154 | partial | Bolshoi snapshots: every particle exactly once | Proved when the cell faces are computed without rounding and coordinates lie in (0, W]; a coordinate 0 is in no cell (C154_lower_face_refuted), and with IEEE single precision, 12 cells and a box of 250, one particle is returned by no file and another by two (C154_rounding_refuted). | `C154_once_partial` r, `C154_onceP_partial` r, `C154_lower_face_refuted` r, `C154_rounding_refuted` C (Props_Bolshoi) |
| C155 | partial | Bolshoi headers describe the file | The region contains all returned particles; N counts the boundary copies also (C155_n_refuted). | `C155_header_partial` -, `C155_n_refuted` - (Props_Bolshoi) |
| C156 | proved | Cut-off Bolshoi files are never read | Reading panics (None in the model) at every cut position. | `C156_cut_bolshoi` -, `C156_cut_bolshoiP` - (Props_Bolshoi) |
| C157 | proved | Sphere tests are exact | Exact arithmetic, radii >= 0. | `C157_point` R, `C157_spheres` R, `C157_tetra_contained` R, `C157_bounding_sphere` R, `C157_bounding_tight` R (Props_Geom) |
| C158 | partial | SphereContain as documented | The roles are swapped: it is true exactly when s2 is strictly smaller and contained in s1 (C158_contains_partial); when s1 is contained in s2, as documented, it is false (C158_documented_refuted). | `C158_contains_partial` R, `C158_documented_refuted` R (Props_Geom) |
| C159 | partial | TetraIntersect finds overlaps | Sound; incomplete: a sphere inside of a tetrahedron is not found (C159_inside_refuted). | `C159_overlap_partial` R, `C159_inside_refuted` R (Props_Geom) |
| C160 | partial | Line segments and spheres | Right when the y and z terms of the linear coefficient vanish; the factor 2 is missing for them: a segment along y through the unit sphere is not found (C160_other_axes_refuted). | `C160_segment_partial` R, `C160_other_axes_refuted` R (Props_Geom) |
| C161 | proved | Volumes of tetrahedra | Exact arithmetic. | `C161_corner` r, `C161_moved` r, `C161_corners_moved` r, `C161_reordered` r, `C161_cut` r, `C161_flat` r (Props_Geom) |
| C162 | partial | Orientation of tetrahedra | The vertices are kept and all faces point the same way, but with right-hand normals inward for +1 (C162_outward_refuted). | `C162_orient_partial` r, `C162_outward_refuted` r (Props_Geom) |
| C163 | partial | Rays through tetrahedra | Exact for rays through the interior of a tetrahedron that has been oriented with +1, and no false distances for any ray; for a ray in the plane of a face the distance is NaN (C163_face_refuted). Rays that only touch the surface are not covered. | `C163_distances_partial` r, `C163_no_false_hits` r, `C163_face_refuted` r (Props_Geom) |
| C164 | proved | Translations of Pluecker coordinates | Exact arithmetic. | `C164_translate` r, `C164_dot` r, `C164_segment` r (Props_Geom) |
| C165 | partial | Lines in the plane | Init and every point that Solve returns are right; perpendicular vertical and horizontal lines are reported as parallel (C165_perpendicular_refuted). | `C165_line_init` r, `C165_solve_partial` r, `C165_solve_found_partial` r, `C165_perpendicular_refuted` r (Props_Geom) |
| C166 | partial | Lines along Pluecker vectors | Right for rays from the origin only; the direction is taken as a second point (C166_aligned_refuted). | `C166_aligned_refuted` r, `C166_aligned_partial` r (Props_Geom) |
| C167 | partial | Angles | The distance is right, with values in [-pi, pi] instead of the documented range (C167_range_refuted); the range test misses direction 0 when the range ends at 2 pi (C167_end_refuted). | `C167_distance_partial` R, `C167_range_refuted` C, `C167_in_range_partial` R, `C167_end_refuted` R (Props_Geom) |
| C168 | partial | Slices of tetrahedra | All proved, including that the polygon of the corners is exactly the intersection (C168_whole), except for planes with no vertex below them: the lowest face is not found when the plane touches it (C168_touching_refuted). | `C168_corners` r, `C168_found` r, `C168_in_plane` r, `C168_whole` r, `C168_cycle` r, `C168_on_edge` r, `C168_touching_refuted` r (Props_Geom) |
| C169 | partial | Radii of slices | The furthest point is right; the closest point may be nearer than the closest corner (C169_closest_refuted). | `C169_furthest` r, `C169_closest_refuted` r (Props_Geom) |
| C170 | partial | Normals of Platonic solids | Normals are right for all solids; the unique normals are for all but the icosahedron, where two are opposite (C170_icosahedron_refuted). | `C170_unit_normals` R, `C170_new` -, `C170_unique_partial` R, `C170_icosahedron_refuted` R, `C170_new_unique` R (Props_Geom) |
| C171 | proved | ARTIO blocks are read completely | exact arithmetic; go-artio is a contract (a fileset is a record of header fields and per-range particle lists); the hubble field is assumed to be present | `C171_block` r, `C171_names` -, `C171_protocol` r, `C171_close` - (Props_Artio) |
| C172 | partial | ARTIO files are read from the fileset they name | refuted: the fileset part of the name is ignored (artio.go:133), so the block of the same number of the buffer's own fileset is returned | `C172_ignored_refuted` r, `C172_other_snapshot_refuted` r, `C172_example_refuted` r (Props_Artio) |
| C173 | proved | ARTIO MinMass is the least particle mass | exact arithmetic | `C173_min_mass` r (Props_Artio) |
| C174 | partial | ARTIO block headers | proved for blocks with at least one particle; refuted for empty blocks, where ReadHeader panics (artio.go:258 and boundingBox) | `C174_header_partial` r, `C174_empty_block_refuted` r (Props_Artio) |
| C175 | partial | ARTIO snapshots without dark matter are refused | refuted: nBodyFlags counts every label (artio.go:201), so the error is only returned when there are no labels at all | `C175_no_nbody_refuted` r (Props_Artio) |
| C176 | partial | ARTIO read errors reach the caller of ReadHeader | refuted: the error of Read is overwritten (artio.go:222-227) and xs[0] panics | `C176_error_lost_refuted` r (Props_Artio) |
| C177 | partial | M_sp is the mass inside of the shell | Proved for halos that do not straddle the edge of the box and shells within R200m (files are chosen by the R200m sphere; C178_other_halos_refuted shows that particles of the shell beyond it are missed). C177_mass_inside_partial: exactly the mass inside if the sampled radii bracket the shell. | `C177_mass_partial` C, `C177_mass_inside_partial` C, `C177_edge_refuted` r (Props_Stats, Props_Stats3) |
| C178 | partial | A row of stats does not depend on the other lines | Refuted: files are read if the R200m sphere of any halo meets them and are then used for all halos, so that the M_sp of a row depends on the other lines. C177 proves independence for shells within R200m. | `C178_other_halos_refuted` C (Props_Stats) |
| C179 | partial | The shell particle file holds the particles of the shell | Proved for halos that do not straddle the edge of the box, shells within R200m less the width, no particle exactly at the centre. The file part (C179_file) is for all data that fits. | `C179_ids_partial` C, `C179_file` C (Props_Stats) |
| C180 | partial | stats reports when it cannot write the particle file | Refuted: the error is dropped (stats.go:345). | `C180_write_error_refuted` C (Props_Stats) |
| C181 | partial | ExclusionStrategy removes contained halos | Refuted: the option is accepted but has no effect; neither has Values. | `C181_exclusion_refuted` C, `C181_ignored` C (Props_Stats) |
| C182 | proved | SkipMass only skips the masses | All parts. | `C182_skip_mass` C, `C182_placeholder_rows` C, `C182_other_columns` C, `C182_no_file` C, `C182_options` C (Props_Stats, Props_Stats3) |
| C183 | proved | stats' header names its columns | Header text and layout. | `C183_header` -, `C183_layout` d (Props_Stats) |
| C184 | proved | Surface areas | Over real arithmetic. | `C184_sphere` C, `C184_scaling` R, `C184_columns` C, `C184_plane` C (Props_Stats2, Props_Stats3) |
| C185 | partial | Axes of shells | Tensor and lengths proved (lengths unless the two compared first are equal and longest). Direction proved if the first eigenvalue belongs to the longest axis; refuted otherwise: ay2 and az2 are swapped, so that the eigenvector of another axis is returned. | `C185_tensor` R, `C185_lengths_partial` R, `C185_tie_refuted` R, `C185_direction_partial` R, `C185_direction_refuted` R (Props_Stats2) |
| C186 | proved | Radius histograms are densities | Over real arithmetic. | `C186_histogram` r (Props_Stats2) |
| C187 | proved | Angular-fraction profiles are fractions of directions | C187_profiles reads the output back with the model of catalog.Parse; number formatting is the contract word/parseFloat/reread; C187_header for Bins >= 2 (one column per label has no range). The directions are arbitrary functions. | `C187_header` -, `C187_profiles` C (Props_ProfAng) |
| C188 | partial | prof refuses a catalogue whose order is not Order | C188_lower_order: a catalogue of a lower order is refused. C188_higher_order_refuted: a catalogue of a higher order is accepted and the profiles are those of the shells of the first 2*Order^2 coefficients (cmd/prof.go:223-247 does not compare the number of columns with Order). | `C188_higher_order_refuted` C, `C188_lower_order` C (Props_ProfAng) |
| C189 | partial | Median-error profiles are bootstrap errors | C189_bootstrap, C189_profile: in exact arithmetic. C189_rounding_refuted: in float64 the one-pass formula sqrt(E[x^2]-E[x]^2) is NaN for pixels that all have the density 0.1 and Samples = 3. | `C189_bootstrap` R, `C189_profile` C, `C189_rounding_refuted` C (Props_ProfAng) |
| C190 | partial | MinMass is the mass of the lightest particle | Proved for LGadget-2 (all histories; C190_uniform: the masses add up to the mean density), Bolshoi, and the background density (C190_background). Refuted for Gadget-2 (C190_gadget_refuted: MinMass is always 0 because no code sets the field, hence C190_background_refuted) and for BolshoiP (C190_bolshoiP_refuted: MinMass ignores the mass in the header). | `C190_lgadget` -, `C190_uniform` r, `C190_gadget_refuted` -, `C190_background_refuted` R, `C190_background` R, `C190_bolshoi` -, `C190_bolshoiP_refuted` - (Props_Buf) |
| C191 | partial | Buffers may be used in any history of Read, Close and ReadHeader | C191_in_turn, C191_out_of_turn, C191_header proved for all histories of either format. C191_failed_read_refuted: a failed Read leaves the buffer open and the next Read panics unless the caller closes it. | `C191_in_turn` -, `C191_out_of_turn` -, `C191_header` -, `C191_failed_read_refuted` - (Props_Buf) |
| C192 | proved | The xorshift stream of every seed contains every value and every run of four values | Xorshift on exact uint32 words; the order of the step is computed in the kernel (vm_compute) with a primality proof for each factor of 2^128-1. | `C192_values` r, `C192_every_four` r, `C192_no_early_return` r, `C192_returns` r (Props_NormVec) |
| C193 | proved | Ring directions: rejection sampling ends for every seed and gives unit vectors | Floats are reals; the rejection loop's termination is proved from the full period (C192). | `C193_axes` d, `C193_directions` R, `C193_seed` R (Props_NormVec) |
| C194 | partial | AngleRange reports the directions of a slice | Coverage is proved in full; exactness when the first two corners are seen in different directions. Slices whose first two corners are aligned with the axis are reported as a full circle: C194_aligned_refuted. | `C194_covers` C, `C194_exact_partial` C, `C194_aligned_refuted` C (Props_SliceAng) |
| C195 | partial | IntersectingLines reports the sides that a ray crosses | Proved for every direction that is not the direction of a corner, when no side passes through the axis. In the direction of a corner neither of its two lines is reported: C195_corner_refuted. | `C195_lines` C, `C195_meets_partial` C, `C195_corner_refuted` C (Props_SliceAng) |
| C196 | proved | The configuration chooses the reader of the snapshots |  | `C196_reader` -, `C196_gadget` -, `C196_lgadget` - (Props_Dispatch) |
| C197 | proved | EvalAll is Eval at every point | C197_overlap_refuted shows why the output must not begin inside an input. | `C197_linear` r, `C197_bilinear` r, `C197_trilinear` r, `C197_spline` r, `C197_bicubic` r, `C197_tricubic` r, `C197_overlap_refuted` r (Props_EvalAll) |
| C198 | partial | Mean and median profiles | Means in full; medians for even numbers of values (C198_median_rank: what odd numbers give; C198_radius_refuted: for odd numbers of different values it is never a median, the defect of C13). | `C198_mean` C, `C198_median_partial` C, `C198_median_rank` C, `C198_radius_partial` r, `C198_radius_refuted` r (Props_MedProf) |
| C199 | partial | A catalogue file is read as a whole | The standard input in full; files of the reported size. A failing or shortened read of a file goes unnoticed (C199_failing_refuted, C199_grown_refuted). | `C199_file_partial` -, `C199_stdin` -, `C199_failing_refuted` -, `C199_grown_refuted` - (Props_CatFile) |
| C200 | partial | Each stage of a pipe reads what the stage before it computed | Holds for id\|coord, id\|tree, coord\|shell, coord\|prof and shell\|stats with equal Order (C200_id_next, C200_coord_shell, C200_shell_stats, C200_shell_run_stats, C200_short_rows). False of the code: stats accepts rows longer than its Order needs and uses their first 2*Order^2 numbers (C200_other_order_refuted); a table without rows makes stats panic (C200_no_rows_refuted). | `C200_id_next` -, `C200_coord_shell` -, `C200_shell_stats` -, `C200_shell_run_stats` -, `C200_other_order_refuted` -, `C200_short_rows` -, `C200_no_rows_refuted` - (Props_Pipe) |
| C201 | proved | Rounding cannot push a particle out of a profile | roundings by their relative error (no overflow or underflow of the squares); the roundings of Flocq's 24- and 53-digit formats satisfy it | `C201_prof` C, `C201_phase` C, `C201_counted` C (Props_Round) |
| C202 | partial | A plateau changes only its own line of sight, also with rounding | ends within 2^-49 of the radial range below the outer radius are excluded: there the code adds the density to the next line of sight or panics (C202_leak_refuted, with Flocq's 53-digit rounding). Retrieve's own summation is exact in the statement. | `C202_insert_partial` C, `C202_leak_refuted` C (Props_RoundRing) |
| C203 | proved | Rounding cannot push a lookup out of a uniform table |  | `C203_uniform` C (Props_RoundIndex) |
| C204 | proved | Rounding cannot push a circle out of its ring | the angular width must be a number: 0/0 for a circle of radius 0 centred on the axis is not considered | `C204_lines` C (Props_RoundIndex) |
| C205 | partial | Median-profile pixels survive rounding away from the polar axis, and only there | Proved away from the axis (C205_pixel_partial); on the axis the property is false (C205_axis_refuted): a NaN from math.Acos makes the pixel index out of range at level 1 and puts the particle into the wrong hemisphere at higher levels. Azimuths within a relative 2^-40 of 2 pi and levels 0 and 1 are not covered. | `C205_pixel_partial` C, `C205_axis_refuted` C (Props_RoundPixel) |
| C206 | partial | The halo grid keeps every halo in its cell, also with rounding, unless it is within rounding of the box edge | Proved for coordinates away from the upper end of the periodic box (C206_grid_partial); just below the box the property is false of the code (C206_edge_refuted). | `C206_grid_partial` C, `C206_edge_refuted` C (Props_RoundGrid) |
| C207 | partial | A configuration that id accepts is run | C207_accepted is the exact validation; C207_runs_partial proves the property for non-empty catalogues and the strategies other than subhalo; the remaining cases are false of the code (C207_subhalo_refuted, C207_empty_refuted). Mass ranges are in C139 and C50. | `C207_accepted` -, `C207_runs_partial` -, `C207_subhalo_refuted` -, `C207_empty_refuted` - (Props_ID) |
| C208 | partial | The region a header reports holds every particle of the file, up to accumulated rounding | C208_region_partial bounds the error by n * 2^-20 box widths for up to 2^20 particles; exact containment is false of the code (C208_drift_refuted, for every number of particles of one family). | `C208_region_partial` C, `C208_drift_refuted` C (Props_RoundBox) |
| C209 | partial | Random draws stay in their range with rounding | Proved for ranges with \|low\| at most 2^17 times the width (float64 arithmetic: 53-bit significand, ties to even, no overflow or underflow); C209_uniformInt_refuted: for every seed UniformInt(4194304, 4194305) eventually returns 4194305. | `C209_next` C, `C209_uniform_partial` C, `C209_uniformInt_partial` C, `C209_uniformInt_refuted` C (Props_RoundRand) |
| C210 | proved | Rounding cannot push a line of sight out of the angular bins of the filter | Rounding enters as the relative-error contract accurate; Flocq's 53-bit rounding satisfies it. | `C210_sectors` C (Props_RoundRand) |
| C211 | proved | Sobol points are spread evenly over every coordinate | Coordinates are reals (the float64 values are exact multiples of 2^-30). | `C211_blocks` r, `C211_first_block` r (Props_Sobol) |
| C212 | proved | The directions of the rings with rounding | Rounding enters as the relative-error contract accurate with r64 1 = 1 (no overflow, no underflow); the square root is correctly rounded. Flocq's 24- and 53-bit roundings satisfy both. | `C212_directions` C, `C212_axes` d (Props_RoundNorm) |
| C213 | partial | Tausworthe draws with rounding | float64 rounding is Flocq's FLX 53-digit rounding to nearest even (no underflow); the source of the table is universally quantified. The half-open range [0,1) does not hold: C213_one_refuted gives a source of multiples of 2^-53 with which the first draw is 1, and C213_uniform_int_refuted that UniformInt(0, high) then returns high. | `C213_unit_partial` C, `C213_one_refuted` C, `C213_uniform_int_refuted` C (Props_RoundTaus) |
| C214 | partial | Pairs of coordinates of Sobol points | C214_net_partial: the 13 pairs listed in net_pairs, with their e; C214_pairs_listed_partial: these are all pairs but (2,3) and (4,5). C214_pair23_refuted and C214_pair45_refuted: those two have holes (sobol.go:68 reads iv[MaxDim*(j-1)+k] in the loop over l). Not proved: boxes in three or more coordinates. Coordinates are reals (exact multiples of 2^-30). | `C214_pair23_refuted` r, `C214_pair45_refuted` r, `C214_net_partial` r, `C214_pairs_listed_partial` - (Props_SobolNet) |

## What is not modelled

* Test files, benchmarks, `download.sh`/`update.sh`, documentation (read only as specification).
* `los/analyze/ellipse_grid` and its scripts, `scripts/filter_positions.go`, `logging/` (memory reports), the `HelpMode`
  texts, profiling code: not used by any mode's result or only diagnostic.
* `math/mat/mat32.go` is the same code as `mat.go` with float32 and has no model of its own; only the float64 text is modelled.
* Process level: signals, real file system semantics (a file is its contents; directory listings are lists), memory limits.
* Rounding of floating-point arithmetic outside the `Round*` models (see conventions), and overflow, underflow and NaN everywhere
  that no definition mentions them: a theorem over `R` says that the algorithm, not its rounding,
  is right. Refutations over `R` use inputs for which rounding is irrelevant (small integers or wide margins).

## Notes on some model files

* NormVec/Xs: the rejection loop has fuel; termination for every seed is proved (period of the xorshift generator; the primes
  in its factorisation are certified by trial division and a Lucas test, with computations small enough for coqchk).
* Dispatch compares float64 bit patterns. EvalAll has one memory of reals in which slices are windows. CatFile's streams are
  chunks and an ending. Pipe keeps the float type and each stage's computation abstract; the `coord` stage is modelled without
  integer columns. Sobol coordinates are reals, exact multiples of 2^-30.

## How the theorems were tested

`seeded/LOG.jsonl` records every mutant of the model that was tried (the definition, the edit, the claim it breaks, the
theorems that failed, and the theorems that were added or tightened when none failed). Mutants were run in a scratch copy
by a script which stubs every lemma that breaks and reports the property theorems that depend on a stub.
