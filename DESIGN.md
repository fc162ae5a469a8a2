# Formal model of vif in Rocq — design

The code under study is the C++ header library in /repo (cschreib/vif).  It is
read as text only; nothing is compiled or executed.  All Rocq files live in
`rocq/theories`, logical prefix `Verif`.

## 1. Conventions

* **Outcomes.**  `Base.v` defines `outcome A := Ok a | CheckFail | UB | Throws | Diverge`.
  `CheckFail` is a failed `vif_check` (prints and calls `exit`, core/error.hpp
  318-335); `UB` is any read/write outside an object, division by zero, use of
  freed memory, ...; `Throws` is a C++ exception leaving the call; `Diverge` is a
  loop that never ends (or, in fuelled definitions, exhausted fuel; theorems always
  exclude or decide it).
* **Integers.**  Lengths, loop counters and flat indices are `nat` when they are
  bounded by the size of a container that exists in memory; `Z`/`N` with an
  explicit `mod 2^64` where the code can wrap around.
* **Floating point.**  Values are modelled in exact arithmetic: `Z` (all finite
  doubles are multiples of a common unit), `Q`, or the operations of an abstract
  ring or field (mathcomp).  Rounding is not modelled.  NaN and infinities are
  explicit constructors where the code treats them specially.
* **Containers.**  `vec<D,T>` is a record of dims and data (lists).  A function
  that mutates its argument returns the new value.  `npos` is `None`.
* **Concurrency.**  Threads are small-step state machines interleaved at the
  granularity of individual accesses to shared state (sequential consistency); the
  theorems hold for every schedule.
* **Files.**  `XModel.v` (definitions citing file:lines), `XSpec.v` (small
  independent specification), `XProofs*.v` (lemmas), `XProperties.v` (property
  theorems, `Print Assumptions`, and concrete `Example`s).
* A full claim that the code violates is stated as a theorem named `..._refuted`
  (with a witness) beside the theorem proving the claim under its exact guard.
* **Mutation tests.**  `seeded/mutate.py` applies wrong programs to a scratch copy of a model
  and records which theorems fail; every attempt is in `seeded/LOG.jsonl`.

## 2. Plan per property

| id | model | proof idea |
|----|-------|-----------|
| C01 | `IndexModel`: `range_t` begin/end iterators | induction on count; closed form of the visited list |
| C02 | `IndexModel`: `to_idx_` with width-w two's complement loop | fuel-free characterisation by well-founded loop measure |
| C03 | `IndexModel`: pitch / Horner addressing over dims lists | induction on rank; mixed-radix bijection |
| C04 | `IndexModel`: `mult_ids`, `flat_id` | same mixed-radix lemmas |
| C05 | `IndexModel`: `increment_index_list` | successor in mixed radix, induction on steps |
| C06, C52 | `VecModel`: op language on (dims,data), initializer lists | invariant by induction over op list |
| C07 | `VecModel`: push_back | slice lemmas |
| C08, C09 | `ViewModel`: heap of vectors, views as (parent, address list) | refinement of element-by-element loop to simultaneous assignment |
| C10, C53 | `IndexModel`, `VecModel`: bounds check, wrapped size, index lists | modular arithmetic |
| C11-C15, C17-C19, C54 | `OrderModel` | list inductions, sortedness, permutations |
| C16 | `AstarModel` | breadth-first search invariant |
| C20, C21 | `VecModel` | index lemmas |
| C22-C24 | `ReduceModel` | stride arithmetic, order statistics |
| C25 | `IntegModel` over Q | telescoping |
| C26, C27 | `HistModel` | counting lemmas |
| C28-C33, C55-C58 | `StrModel` | strings as lists of bytes; find as least occurrence |
| C34 | `Sha1Model` vs independent `Sha1Spec` | block-wise refinement |
| C35 | `PathModel` | last-separator lemmas |
| C36, C37 | `QueueModel`: node heap + program counters | inductive invariant over all interleavings |
| C38-C40 | `WorkerModel`, `PoolModel`, `ParforModel` | inductive invariants |
| C41 | `InterpModel` over Q | bracketing index + field arithmetic |
| C42 | `HullModel` over Z | monotone chain invariant |
| C43, C44, C61 | `MatModel` (mathcomp) | triangular factor invariants |
| C45, C46 | `XmatchModel` | insertion invariant, merge of the threads |
| C47, C60 | `SegModel` | flood fill invariant |
| C48-C51, C59 | `ImageModel` | dilation, index arithmetic |
| C62 | `XbuckModel` | every source within the reached distance is in a visited bucket |
| C63, C64 | `OpModel` over a store of vectors | lock-step invariant of the element loops |
| C65 | `SplineModel` over rationals | sweep invariants, diagonal dominance (pivots positive; uniqueness of the natural spline) |
| C66 | `BilinModel` over rationals, unsigned dimensions | clamped line selection, field arithmetic |
| C67 | `GenModel` over doubles (rationals), signed and unsigned integers | fill loop, rounding bounds, conversions case by case |
| C68 | `StrideModel`: iterators as positions | pitch arithmetic, traversal by induction |
| C69 | `ConvModel` over rationals | sum invariant, uniqueness of the interpolation |
| C70 | `AsciiModel`: characters, splitter state, storage | splitter refinement, address disjointness, induction on lines |
| C71 | `AsciiModel` | cache invariant, least widths, composition with C70 |
| C72 | `LinfitModel` over `MatModel`, exact field | normal equations, Gram matrix, mathcomp matrices |
| C73 | `LinfitModel` | invariant over an inductive `session` of calls, equality with `linfit` |
| C74 | `LinfitModel` | descent of chi2 at every step, optimality conditions |
| C75 | `ArgvModel` over `StrModel` | induction on variables with the invariant of marked arguments |
| C76 | `ArgvModel` | round trip through the reading conversions, word splitting |
| C77 | `NumModel` | decimal numerals as an independent relation, both directions |
| C78 | `MacroModel` over `StrModel` | inductive grammar of bracketed texts, stack invariant |
| C79 | `TimeModel` over `NumModel`, exact Q | floors of quotients, fields as a relation on texts |
| C80 | `DirModel`: explorer as a state machine over streams | invariants on the state of the stream, exact set of unsafe sessions |
| C81 | `DirModel`: file system as a map from paths | induction on the parts of the path |
| C82 | `RealModel` over `NumModel`: printf %g and strtod on exact Q | decimal expansions as relations on texts, nearest-number argument over powers of ten |
| C83 | `SexModel` over `RealModel`, exact Q | floors, closeness of 6 digit numbers, texts with colons |
| C84 | HdistModel | the loops are folds over the list of edges; one face by Pythagoras in the basis (u, n); minimum over all border points by induction on the edges |
| C85 | QstackModel | invariant of the loops over images and sources (pairs found so far, overlay of the cutouts so far); rounding of shifted positions over Q |
| C86 | CatmergeModel | invariant of the matching loop (targets are injective, new places without gaps), induction over the sequence of catalogues |
| C87 | XthreadModel.v: ranges of sources per thread, merging of the results by columns | frame property of the search (reads and writes one column), composed through the loops |
| C88 | TfitModel.v: amplitudes, chi2, minimum, simulations | completing the square; min_ok of C50 for the first minimum |
| C89 | MfitModel.v: loop over the combinations, normal equations, results | invariant of the mixed-radix counter; least squares from the normal equations; elimination over Q for the contract of the inversion |
| C90 | CmaskModel.v: circular_mask, radial_profile, mask_region | bounds from floor and ceil; membership in the hull of the four corners as two projections |
| C91 | DsregModel.v: read_regions line by line, write_regions_*, conversions | string lemmas of C28-C30; grammar of lines as a relation; fold over the lines |
| C92 | RombModel | invariant on the last row of the table; closed sums of powers for cubic polynomials; scaling of all trapezium sums |
| C93 | SdistModel | invariant on maps, distances and waiting points; termination by a potential that decreases with each shorter distance; induction on the number of steps to a segment for the bound |
| C94 | DblendModel | invariant on the order of treatment; waves of pixels at k steps for the search; membership of the waves of a segment and their multiplicity for the account; invariant over the small segments for the merge |
| C95 | DrizModel | areas as integrals over horizontal strips, uniqueness and additivity proved in Q; half-plane clipping bounded by the overlap from above and by the overlap less the tolerance from below; fan of triangles for convex quadrilaterals; invariant over the pixels of the source; sums exchanged for the flux |
| C96 | RegridModel | three methods against relational specifications; invariant over the pixels written; uniqueness of natural splines for the centres of pixels |
| C97 | TransfModel | invariant over the pixels written; relational interpolation of C96; uniqueness of natural splines |
| C98 | CutModel | invariant over the list of images; copy of a sub-rectangle; minimal half size |
| C99 | KeyModel | header as a list of cards; uniqueness of names and values; insertion and removal lemmas |
| C100 | HdrModel (parse_header, serialize_header, filter_wcs) | relational reading of a card, completeness and totality; layout relation; induction on the cards |
| C101 | `FluxModel` over rationals | invariant of the merge of two grids, piecewise linear curves |
| C102 | `NormModel` over rationals, infinities, NaN | counted loops, symmetries of cosine and sine |
| C103 | `UnitModel` over rationals | field arithmetic |
| C104 | `RandModel.v`: randpos_* over any generator | loop invariants relating the state to the list of positions drawn; rounding of shares |
| C105 | `RandintModel.v`: randomi for vectors, random_coin | counting the integers of an interval |
| C106 | `FilterdbModel.v`: filter databases and maps | order of std::map, uniqueness of the stripped line, fold invariants |
| C107 | `PsfModel.v`: fitting and subtracting a point source | linear fit of two models (C72), regions of images (C49), sums over pixels |
| C108 | `AngModel.v`: angular correlation | histogram counts (C26), sums over products of lists, diagonal of a product |
| C109 | `CosmoModel.v`: cosmological functions of vecs | piecewise linear interpolation (C41), folds of assignments, minimum and maximum |
| C110 | `TblModel` columns of FITS tables: write, read, update, remove, allocate, orientation | explicit column written; dimensions by list reasoning; frame by the position of the name |
| C111 | `TblModel` elements of columns | row-major places by induction on the dimensions |
| C112 | `FimgModel` image HDUs: write, write_empty, read, read_subset, read_pixel, update, with the conversions of types | Place of a pixel as a sum over reversed axes; sub-array by induction on the axes |
| C113 | `WcshModel` make_wcs_header from parameters and from texts, on setkey of `KeyModel` and split, trim of `StrModel` | Sequence of setkey on distinct keys; exact characterisation of the accepted texts |
| C114 | `FfileModel` list of HDUs with a current one, contents of `FimgModel` | list splitting, induction on the images |
| C115 | `FfileModel` headers as lists of cards, on `KeyModel` | induction on the cards; relational spec of the cards kept |
| C116 | `AstwModel` axes and flat arrays with positions modulo 2^64, WCSLIB as functions on points | loop invariants on flat arrays, relational spec of points |
| C117 | `AstwModel` axis conversions in `Qc` | Forall2 over the pixels, field |
| C118 | `RegModel` derivatives of expressions; loops over a parameter regexec | language as an inductive relation, derivatives, induction on the rest of the text |
| C119 | `CureModel` over HdrModel and RegModel | characterisation of each pattern, relational spec, round trip of C100 |
| C120 | `SphModel` real numbers, directions as unit vectors | haversine as (1 - u.v)/2, Gram determinant for the triangle inequality, matrices as functions |
| C121 | `SectModel` over PathModel, RegModel, OrderModel | texts as an inductive relation with lines, uniqueness from the order of where |
| C122 | `PsfmModel` over StrModel, ImageModel, TransfModel, ReduceModel | bilinear value at the offset from the peak, composed from subregion, translate and the copy of index lists |
| C123 | `ProgModel` over NumModel, StrModel, TimeModel | induction over the calls; number of digits from powers of ten |
| C124 | `BootModel` over RandintModel, ReduceModel | bounds on rounded products; blocks of a concatenation; induction over the trials |
| C125 | `UtestModel` | case analysis; induction over the tests |
| C126 | `PrettyModel` over StrModel | induction over the length with the part already read as a prefix; first occurrences |
| C127 | `SconvModel` over FluxModel and UnitModel | linearity of the flux; the flux relation of C103 determines the received spectrum |
| C128 | `KwModel` (a list of cards with the position of the last one found) | the texts of one name as a list; uniqueness of the trimmed text |
| C129 | `PickModel` over the cubes of BootModel | induction over the sources; the nearest pixel and the square around it are unique |
| C130 | `MinimModel` with the minimizer as a parameter | induction over the iterations left |

## 3. Trusted base

* The Coq 8.16.1 kernel and `vm_compute`.
* The axioms printed by `Print Assumptions` under each property theorem: none, except for C120,
  which uses the axioms of the real numbers of the standard library (listed in section 5).
* The libraries used are the standard library and, for the matrices, mathcomp.
* The reading of the C++ code documented at each definition, and the simplifications
  stated there.

### 3.1 Modelled code

Each definition cites its lines.  In short (paths below include/vif):

* core: `range.hpp`; `bits/access.hpp` (subscripts, ranges, cartesian access); `vec.hpp`
  (construction, resizing, push_back, views, assignment and compound assignment);
  `bits/initializer_list.hpp`; the comparators of `bits/helpers.hpp`.
* utility: `generic-indices.hpp`, `generic-dims.hpp` (reform, flatten), `generic-find.hpp`,
  `generic-rearrange.hpp`, `string-base.hpp` (distance, keep_*), `string-find-replace.hpp`,
  `string-split.hpp`, `string-format.hpp` (align_*), `string-hash.hpp` (SHA-1),
  `thread-queue.hpp`, `thread-worker.hpp`, `thread-worker-pool.hpp`, `thread-parallel-for.hpp`.
* io: the path functions of `filesystem.hpp`.
* math: `reduce.hpp` (sums, medians, percentiles, extrema, partial reductions, trapezoid
  integration), `histogram.hpp`, `interpolate.hpp` (linear), `convex_hull.hpp`
  (construction, membership), `matrix-types.hpp` (products), `matrix-functions.hpp` (LU,
  Cholesky, determinant, inverse, solve, plane transformations).
* astro: `image.hpp` (regions, enlargement, translations, flips, convolution, boxcar, mask
  inflation, segmentation, foreach_segment), `qxmatch.hpp` (brute force and bucket cross
  matching, xmatch_clean_best).
* core, element-wise part: `bits/operators.hpp` (all operators, with the overloads reusing
  temporaries, and printing), `bits/vectorize.hpp`, same_size and same_dims_or_scalar of
  `bits/helpers.hpp`.
* `math/interpolate.hpp` 156-488: bilinear, bilinear_strict, rebin, interpolate_3spline (both
  coefficient loops, scalar and vector versions) and bicubic_strict.
* `math/base.hpp` 86-97, 199-263: clamp, sign, rgen and rgen_step with the usual arithmetic
  conversions between double, 64-bit signed and 64-bit unsigned arguments.
* `core/bits/access.hpp` 659-740, `core/bits/iterator.hpp` 82-140, `core/iterator_base.hpp` 6-94:
  strided ranges and their iterators.
* `math/transform.hpp` 9-33: convolve.
* `io/ascii.hpp` 20-147, 159-375, 386-698: line_splitter_t, read_table, columns(), write_table (not: opening
  files, format tags, the macro that derives headers from variable names).
* `math/linfit.hpp` 11-445 (NO_LAPACK): linfit, linfit_pack, linfit_batch, linfit_nn (not: a scalar y, errors
  equal to 0).
* `utility/argv.hpp` 10-357: read_args, program_arguments, make_cmd (not: save_args, which only writes a
  file); the conversion of one value is a parameter.
* `core/string_conversion.hpp` 134-222 for integers, and the words of the floating point fallback (not:
  floating point numbers, format tags, pretty_type).
* `io/ascii.hpp` 715-817: the column names derived from macro arguments (also used by the FITS tables).
* `utility/time.hpp` 29-80: time_str, seconds_str in exact arithmetic (not: the clocks; progress bars are C123).
* `io/filesystem.hpp` 73-194, 284-298: explorer, list_files, list_directories, mkdir over a model of the
  system calls (not: exists, copy, move, remove, is_older, to_string, which only call the system).
* `core/string_conversion.hpp` 134-207 for double: to_string and from_string, over a model of the stream
  operators of libstdc++ (not: the rounding of the number read to a double, format tags).
* `astro/astro.hpp` 1028-1112: sex2deg, deg2sex in exact arithmetic.
* `math/convex_hull.hpp` 12-97 and 193-300 (and 152-167 again over a field): validation flags, cached vectors, `convex_hull_distance` for a point and for vectors of points; the number type is a parameter (a real closed field in the theorems, rational numbers in the examples), NaN and infinity are `None`.
* `astro/qstack.hpp` 80-356: `qstack` (both versions, with and without sections); positions and pixels read from files are data
* `astro/catalog_merge.hpp`: `add_catalog`, `match_catalog`, `merge` (vectors, scalars, arrays), `merge_flux`; not the comments, the list of catalogues as text, nor merging by reflection
* astro/qxmatch.hpp 408-489: bucket cross matching on several threads (XthreadModel.v).
* astro/template_fit.hpp 130-343: template_fit without upper limits (TfitModel.v).
* astro/template_fit.hpp 346-544: multi_template_fit; with upper limits only the loop over the choices, the fluxes and the simulated deviates (MfitModel.v).
* astro/image.hpp 358-403: circular_mask and radial_profile; astro/ds9.hpp 247-289: masks of circles and boxes in pixel coordinates (CmaskModel.v).
* astro/ds9.hpp 9-245, 303-403: region files; with C90 the whole header except mask_regions from files (DsregModel.v).
* `math/reduce.hpp` 881-916 (`integrate_func`) and 255-266 (`sigma_clip`): RombModel.v. Rounding errors are not modelled.
* `astro/image.hpp` 1281-1391 (`segment_distance`): SdistModel.v. The squared distances are exact integers; infinity and npos are None.
* `astro/image.hpp` 992-1279 (`segment_deblend`): DblendModel.v. Doubles are rationals, infinities or NaN, and sums are exact. The message of lines 1241-1243 is left out.
* `astro/image.hpp` 1617-1803, 2010-2203 (`regrid_drizzle`, polygon intersection and area): DrizModel.v. The projection by WCSLIB and the square roots of the linearised area are parameters; coordinates are exact.
* `astro/image.hpp` 1805-1826, 1839-1841, 1856-2008 (`regrid_interpolate` and the three interpolation methods): RegridModel.v. The projection by WCSLIB and the square roots of the linearised area are parameters.
* `astro/image.hpp` 126-155, 179-260 (`translate`, `translate_bicubic`, `scale`, `scale_bicubic`, `rotate`, `rotate_bicubic`): TransfModel.v. The cosine and the sine are parameters.
* `astro/image.hpp` 1465-1567 (`cutout_extractor::get_cutout_`): CutModel.v. Projections (`ad2xy`) are function parameters, headers are records, FITS access is reading pixels.
* `io/fits/base.hpp` 778-896 (`fits::getkey`, `fits::setkey`): KeyModel.v, on the string functions of StrModel.v. The conversion of values is a parameter.
* `io/fits/base.hpp` 897-1018: header_keyword, parse_header, serialize_header; `astro/wcs.hpp` 207-226: filter_wcs (HdrModel.v). Headers are texts of less than 2^24 characters; `back()` of an empty string or vector is UB.
* `astro/astro.hpp` 1288-1386: sed2flux (both forms), sed_luminosity, lir_8_1000 (FluxModel.v)
* `astro/astro.hpp` 135-167: normalize_coordinates (NormModel.v).
* `astro/astro.hpp` 429-516: conversions of photometric units, for scalars (UnitModel.v); dpi, the logarithm and the power of ten are parameters.
* `astro/astro.hpp` 713-1026: random positions (RandModel.v); the point of a circle for two random numbers is a parameter, a status is its success only.
* `math/random.hpp` 58-64, 105-135: randomi for vectors, random_coin (RandintModel.v); the distributions of the standard library are not modelled.
* `astro/astro.hpp` 1502-1639, 1656-1736: filter databases (FilterdbModel.v); reading the table of one filter is a parameter, print_filters is left out.
* `astro/astro.hpp` 223-288: psffit, srcsub (PsfModel.v), with exact arithmetic.
* `astro/astro.hpp` 664-698: angcorrel (AngModel.v); angdist is a parameter.
* `astro/astro.hpp` 290-341, 389-424: cosmologies and VECTORIZE_INTERPOL (CosmoModel.v); the integrals of 343-388 are parameters.
* `io/fits/table.hpp` lines 13-101, 153-270, 337-664, 844-985, 1047-1328, 1453-1536, 1611-1712 and the traits of `io/fits/base.hpp` 65-317, 462-485: `TblModel` (cfitsio as a store; no ASCII tables, no null values, no reflected structures).
* `io/fits/image.hpp` lines 25-330: read_prep_, make_indices_, read, read_subset, read_pixel, write, write_empty, update (cfitsio itself is assumed to be a store; opening files and moving between HDUs are not modelled).
* `astro/wcs.hpp` 21-211: make_wcs_header, both forms (WcshModel.v); the messages are not modelled.
* `include/vif/io/fits/base.hpp` lines 532-550, 587-646, 767-774: `hdu_count`, `reach_hdu`, `axis_count`, `image_dims`, `remove_hdu`.
* `include/vif/io/fits/base.hpp` lines 489-501, 685-710: `read_header`, `write_header`.
* `astro/wcs.hpp` 300-346, 349-590, 645-910, 945-1130: the class `wcs`, `ad2xy`, `xy2ad`, `get_pixel_size`, `get_image_rotation` (of a WCS, not of a file), `x2w`, `w2x`, `build_axis` (AstwModel.v); WCSLIB is a parameter.
* `utility/bits/string-regex.hpp` 31-155: `regex_match`, `regex_extract`, `regex_replace`, count of groups (RegModel.v); regcomp and regexec are those of POSIX.
* `astro/wcs.hpp` 236-296: `cure_header` (CureModel.v).
* `astro/astro.hpp` 23-132, 167-221, 518-545: `angdistr`, `angdist`, `angdist_less`, `move_ra_dec`, `vernal_angle`, `angrot_vernal`, `field_area_hull`; `astro/qxmatch.hpp` 680-717: `qdist` (SphModel.v), over real numbers.
* `io/fits.hpp` 60-117: `read_sectfits`, `read_header_sectfits`, `read_header_sectfits_hdu`; `astro/astro.hpp` 1139-1236: `get_band` (SectModel.v).
* `astro/astro.hpp` 1387-1500: `make_psf`; `astro/image.hpp` 405-414: `generate_img` (PsfmModel.v).
* `utility/time.hpp` 99-200: `progress_start`, `progress`, `progress_tick`, `print_progress` (ProgModel.v).
* `astro/qstack.hpp` 358-461: `qstack_mean` (with and without weights), `qstack_median`, `qstack_bootstrap`, `qstack_mean_bootstrap`, `qstack_median_bootstrap` (BootModel.v).
* `test/unit_test.hpp` 9-76: `is_same`, `reduce_and` and the counters of `check` (UtestModel.v); the messages are not modelled.
* `core/error.hpp` 145-255: `dbg_pretty_demangled`, `dbg_pretty_filename` (PrettyModel.v).
* `astro/astro.hpp` 1358-1368: `sed_convert` (SconvModel.v), except a distance of zero.
* `io/fits/base.hpp` 502-537, 558-585, 711-765: `has_keyword`, `read_keyword`, `hdu_type`, `write_keyword`, `add_keyword`, `remove_keyword` (KwModel.v); cfitsio is a list of cards.
* `astro/astro.hpp` 1244-1275: `pick_sources` (PickModel.v).
* `math/optimize.hpp` 13-150: `minimize_bfgs` (MinimModel.v); the minimizer of GSL is a parameter.

### 3.2 Not modelled

* Rounding of floating-point operations; overflow of the sums of integers where a comment
  says so; exhaustion of memory.
* C++ templates, conversions between element types (except where a property is about one) and
  overload resolution: one element type per operation.
* The external libraries themselves: LAPACK (the functions with `NO_LAPACK`
  alternatives are modelled in that form), FFTW, CFITSIO, WCSLIB, libdwarf, the POSIX regular
  expressions.  FITS files, tables, images and headers and the WCS class are modelled over a store
  or a parameter that behaves as the library documents; symmetric eigenvalues and SVD, Fourier transforms
  and the projections of WCSLIB are not modelled.
* Reflection (`reflex`), random numbers as distributions.
* Weak memory behaviour: all atomics of the library are sequentially consistent, and C36
  shows that the remaining accesses do not race.

## 4. Findings
Behaviours of the code that contradict its documentation or what a user would expect, each proved
by the theorem named (see the statement for the exact conditions).
* `C01_range_overflow`: a range between 0 and 2^63 is a signed overflow.
* `C01_range_u64_refuted`: range(0, npos) visits a single value.
* `C02_narrow_index_diverges`: v[int8_t(-1)] on a vector of 256 elements never returns: the index is corrected in its own narrow type.
* `C02_narrow_index_refuted`: an index of a type too narrow for the size of the vector selects another element (int8_t(-1) on 200 elements gives element 87).
* `C04_mult_out_of_range_refuted`: mult_ids accepts a flat index beyond the last element and wraps around.
* `C04_mult_zero_dim`: mult_ids with a zero dimension divides by zero.
* `C06_move_assign_refuted`: the documented "moved-from vector becomes empty" fails for move assignment
* `C06_overflow_refuted`: dimensions whose product is a multiple of 2^64 are accepted without storage
* `C06_reform_overflow_refuted`: reform of an empty vector to dimensions whose product wraps to 0 is accepted.
* `C06_remove_repeated_refuted`: inplace_remove with repeated indices breaks the relation between dimensions and size.
* `C07_push_empty_slice_refuted`: push_back of slices without elements does not count them.
* `C08_const_vec_refuted`: v = cv[{2,0,1}], where cv is a const reference to v: the aliasing is not noticed.
* `C08_const_view_refuted`: v[{1,2}] = cv[{0,1}], where cv is a const reference to v: the aliasing is not noticed.
* `C08_range_of_view_refuted`: auto w = v[_]; w[1-_-2] = v[0-_-1]: the aliasing is not noticed for a range of a view.
* `C09_vec_scalar_refuted`: v *= v[1]: the scalar is re-read after it was modified
* `C100_comment_refuted`: the text of a COMMENT card is searched for "=" and "/" like any other: it is cut into a name, a value and a comment, and writing the header changes it.
* `C100_continue_blank_refuted`: blanks at the beginning of the continuation are lost, so that words run together; and a keyword that has a number as its value is changed by a card CONTINUE.
* `C100_double_refuted`: filter_wcs writes a card RADECSYS twice, because it begins with RA as well, and a card SECPIX twice because this is twice in the list.
* `C100_empty_continue_UB`: a continuation with an empty string, or of a keyword with an empty value (such as a card COMMENT), reads the last character of an empty string.
* `C100_first_continue_UB`: a header whose first card is CONTINUE reads the last of no keywords.
* `C100_long_refuted`: a string put together from several cards is written in one card, cut at 80 characters without its closing quote; the rest of it, and the comment, are lost.
* `C100_prefix_refuted`: the names are compared by their beginning only: filter_wcs keeps RATE, DECKER and ENDTIME, and drops WCSAXES, RADESYS being kept only because it begins with RA.
* `C100_quotes_refuted`: a doubled quote ends a string: what is left is taken for the comment, and the header that is written holds another value.
* `C101_before_UB`: a spectrum that ends at or before the first wavelength of the filter is read beyond its end.
* `C101_end_refuted`: a spectrum that ends at exactly the last wavelength of the filter covers it, but the result is NaN: at equal wavelengths the loop takes the node of the spectrum and stops.
* `C101_lir_end_refuted`: lir_8_1000 of a spectrum given up to exactly 1000 micron is NaN.
* `C101_luminosity_refuted`: the interval is not cut at its ends: for sed = lam the luminosity should be l1 - l0, and is the size of the cells touched.
* `C101_single_refuted`: a filter of a single wavelength gives 0 for every spectrum, not NaN.
* `C102_far_refuted`: a declination above 450 or below -270 is not brought into the range: each loop is only done once, whatever the other does.
* `C102_inf_diverges`: an infinite right ascension makes it run for ever.
* `C102_unique_refuted`: the result is not unique: right ascensions 0 and 360 are the same point and are both left as they are.
* `C103_cgs_refuted`: with the same wavelength for both, as for the other conversions, the result is 10^8 times too small.
* `C104_last_refuted`: the last position drawn is not looked at: with max_iter = 1 a source fails as soon as the first position is rejected, even if the second is good; with max_iter = n only n are looked at of n+1.
* `C104_option_refuted`: the option max_iter of randpos_power_circle is not used for the rejection sampling, where the limit is always 1000: with one level the option has no effect at all.
* `C104_short_range_abort`: randpos_uniform_box with ranges of fewer than two numbers stops the program only after a random number was used, and not at all without sources.
* `C104_zero_levels_refuted`: levels = 0 does one level more than levels = 1: range(levels - 1) visits one value.
* `C105_negative_refuted`: with a negative lower bound the conversion to integers rounds towards zero: mi itself only comes for the random number 0, while 0 comes for an interval twice as wide as those of the other values.
* `C105_overflow`: ma + 1 overflows for the largest value of a signed type, and ma + 1 - mi when there are more values than the largest value.
* `C105_round_refuted`: because of rounding the value ma + 1 is possible: the sum of 1000 and the largest random number below 1 is rounded to 1001.
* `C105_whole_range_refuted`: for the whole range of an unsigned type all results are 0.
* `C105_zero_refuted`: a coin of probability 0 can be true.
* `C106_blanks_refuted`: blanks around the sign = are part of the name and of the path, so that the filter is not found under its name.
* `C106_bounds_refuted`: with the bounds exchanged the response is negative; it is not a number for the bounds 0.
* `C106_colon_refuted`: a name of the database with a colon cannot be asked for.
* `C106_empty_UB`: a file without any line of data is read out of bounds.
* `C106_path_refuted`: a path with a colon cannot be given.
* `C106_scale_refuted`: the wavelength of a filter from a file assumes that its integral is 1: a response twice as large has a wavelength twice as long.
* `C107_fit`: the background and the flux are the only minimum of the misfit, chi2 is its value there and the errors are positive; Finding: with a PSF whose pixels are all the same, all five numbers are NaN
* `C107_fit_error_shape_abort`: errors of other dimensions than the image (and not one for all) are refused
* `C107_fit_psf_shape_abort`: psffit() stops the program whatever the image and the position if the PSF is not a square with an odd number of pixels (the region that is cut has 2*(dims[1]/2)+1 rows and 2*(dims[0]/2)+1 columns)
* `C107_subtract_even_abort`: srcsub() with a square PSF of an even number of pixels reads the wrong pixels of the PSF (here at the corner of the image, where the second row of the PSF is expected below), or stops the program
* `C107_subtract_transposed_refuted`: srcsub() with a PSF of one row and three columns subtracts its pixels from three rows of one column
* `C108_dims_abort`: positions of different dimensions are refused
* `C108_no_correlation_refuted`: with as many pairs in a bin as for no correlation (DD/(n(n-1)), DR/(n nr) and RR/(nr(nr-1)) the same) the estimate is not 0 but -2/(nr-1): DR is scaled by nr/n, not by (nr-1)/n
* `C108_self_pairs_refuted`: in a bin that starts at 0 each source counts as a pair with itself, in DD and in RR
* `C109_cosmo_planck_refuted`: the Planck cosmology is only known as "plank"
* `C109_large`: more, and the smallest and the largest positive redshift a and b differ: the redshifts that are not positive get the value at 0, as one by one; the others the line between the values at two nodes around them, the nodes going from a to b; Finding: NaN gets 0
* `C109_no_positive_abort`: many redshifts, none of them positive: the program stops (a few give the value at 0)
* `C109_same_redshift_refuted`: many redshifts, of which the positive ones are all the same: they all get NaN
* `C110_blanks_refuted`: strings lose the blanks around them
* `C110_duplicate_refuted`: two columns may be written under the same name; then neither can be read, nor removed, and update_column adds a third one
* `C110_empty_rows_abort`: nothing is written for an empty vector, so that a row-oriented table forgets how many rows it has; a second column with as many rows then aborts
* `C110_one_column_refuted`: in a row-oriented table, a vec<2> of n rows of one element is not read back: the file is the one of a vec<1>. With dim_promote it comes back as one row of n elements
* `C110_one_row_refuted`: a row-oriented table of a single row is taken for a column-oriented one when the file is opened again, and its vec<2> is refused
* `C110_refused`: anything else is refused: the wrong number of dimensions without the option, the wrong type
* `C110_row_string_refuted`: a string written in a row-oriented table is not read back as a string without flatten
* `C110_scalar_of_rows_refuted`: a scalar can be read from a row-oriented column of many rows: it is the first one, although a scalar is refused from a vector in a column-oriented table
* `C110_signs_refuted`: without narrow, a negative integer is read as a huge unsigned one, an unsigned integer from 2^63 on is read as a negative number, and a byte above 127 read as a char aborts instead of being refused
* `C110_update_only_refuted`: updating the only column of a row-oriented table with fewer rows keeps the old number of rows: the values read back end with zeros
* `C111_bool_abort`: the type reported for bools depends on their values (all true: byte; with one false: boolean), so that elements of a bool column can be read as integers, as read_column allows, or abort
* `C111_char_abort`: a column of chars which are all 0 or 1, with a 0, cannot be updated
* `C111_empty_abort`: the information on a column of bools without elements aborts
* `C111_overrun_refuted`: the number of dimensions of the value is not compared with the number of ranges: a larger block runs over the end of the column and adds a row to a column-oriented table, which will be opened as row-oriented; a smaller one is cut
* `C111_rows_abort`: in a row-oriented table a vec<1> is reported with the dimensions n, 1: the natural at(i) aborts, at(i,0) works
* `C112_start_UB`: the start of a range is not checked against the image nor against its end. For the range n-_ of n pixels, or (l+1)-_-l, the array is given no elements, and cfitsio writes pixels into it.
* `C112_unsigned_refuted`: unsigned integers of 2^63 and more are in the file as negative numbers, without the offset which FITS has for them: they are right only when read as unsigned again.
* `C112_update_types_refuted`: the type is checked in the direction of reading. An image of doubles refuses an update by floats or integers, which it could hold; an image of shorts accepts doubles, and the update fails half-way for a value that is not a short.
* `C112_wrapped_UB`: a start further away gives a negative length, which becomes a huge dimension; two of them have a small product, so that the array is allocated, with dimensions of 2^64-1 and one element.
* `C113_half_refuted`: a reference of which one coordinate is missing (or not a number) is ignored, and the result is true.
* `C113_matrix_refuted`: a new scale is written as CDELT only; the matrix CD of the header, which replaces CDELT where there is one, keeps the old scale.
* `C113_naxes_refuted`: the number of axes is written as NAXES, which is not a keyword of FITS: NAXIS is left as it was, and is not in a new header, which has NAXIS1 and NAXIS2.
* `C114_create_refuted`: when the file is not at its last HDU, the HDUs are inserted after the current one. All those that follow it change numbers, and the HDU which is reached is not a new one: it is the one that was the last.
* `C114_table_refuted`: the comments of axis_count and image_dims say that they give 0 and an empty array for a table; they fail.
* `C115_copy_refuted`: the header of an HDU, read then written in a new HDU, gets a blank card at its end; so copied n times, n blank cards.
* `C115_end_refuted`: the end of the header is recognised by the blank after it. END as the last three characters of a header is written as one more card.
* `C115_replace_refuted`: a keyword which is in the HDU already is not replaced. There are then two cards for it, and the value found is the old one.
* `C116_dirty_refuted`: the flag that tells that WCSLIB is up to date is not moved. A WCS that was modified (flag_dirty), and is assigned to one that is up to date, is not updated any more by update().
* `C116_mirror_refuted`: the rotation only looks at the direction of the north. "An angle of zero means that the RA axis maps to -X": a mirrored image, where RA goes to +X, has the same angle.
* `C116_no_dec_UB`: the test for the axes looks at RA twice. With an axis RA and none of DEC, the declinations are written outside of the array.
* `C116_no_ra_UB`: without an axis RA, the first two axes are taken for RA and DEC, whatever they are; and with a single axis the coordinates are written outside of the array.
* `C117_default_refuted`: the unit by default is refused for an axis without CUNIT, although it stands for what WCSLIB gives; only "native" is accepted, and native is refused for an axis with a unit: no choice works for both.
* `C117_turned_refuted`: x2w is at the reference pixel of the other axes, w2x at their reference value. When an axis depends on the others, as in an image that is turned, they are not inverse of each other, although the conversions of WCSLIB are.
* `C118_absent_throws`: in regex_replace, a group that takes no part in a match at the beginning of the text has the position -1, and substr throws.
* `C118_anchor_refuted`: ^ matches again after each match: "aab" with ^a replaced by c becomes "ccb".
* `C118_empty_diverges`: with a pattern that an empty text matches, regex_replace never ends, whatever the text is: an empty match does not move the search forward.
* `C118_extract_empty_diverges`: neither does regex_extract if the first match ends where the text begins.
* `C118_groups_refuted`: a parenthesis between brackets is counted as a group, so that [(] has a group that takes part in no match, and regex_replace throws; a group after an escaped backslash is not counted.
* `C119_comment_refuted`: the other cards are not copied but read and written again: a comment with an equal sign is changed though there is nothing to correct.
* `C119_continue_UB`: a header that begins with a card CONTINUE, or in which a keyword without a value is continued, has undefined behaviour, as for parse_header.
* `C119_sip_refuted`: the SIP coefficients are left out, but not the other traces of the distortion: the type of the axes, which ends with -SIP, and A_DMAX.
* `C11_complement_repeated_refuted`: complement with as many ids as elements, one of them repeated, returns nothing.
* `C120_area_refuted`: the triangles are taken as flat whatever their size, and the area of a large field is too small: an eighth of the sphere, 16200/PI square degrees, is given an area below 4050 of them.
* `C120_less_refuted`: the sign of the radius of angdist_less is lost, and a radius above half a turn selects as a smaller one does: with a negative radius a source is found at less than it, and with a whole turn no source is.
* `C120_qdist_refuted`: only one half of the matrix is filled: for two sources at some distance, element (0,1) is 0.
* `C120_vernal_refuted`: vernal_angle compares with 180 an angle that is already in radians, so the sign is never changed: for the other half of the sky the angle is that of the mirrored point, and does not lead to the equator.
* `C121_band_cat_abort`: if the notes of a catalog are fewer than its bands and several bands match, the program stops while it prints the candidates.
* `C121_band_refuted`: a name is a pattern that can be anywhere in the names of the bands: a band cannot be chosen by its own name if this name is in another one.
* `C121_header_plain`: any other file is read itself; Finding: whatever the number of the section
* `C121_sections_refuted`: a section given by an absolute path is looked for below the directory of the list; a line that is blank or whose # comes after a blank is taken as the name of a file, and so is the carriage return of a line ended by CR LF.
* `C122_border_refuted`: if the largest pixel is in the first or the last line or column of the file, every pixel of the result is 0.
* `C122_empty_argument_UB`: for an empty argument the number is never set, and its use is undefined.
* `C122_far_refuted`: what is farther than the first cross of zeros is lost, though it may be large.
* `C122_symmetry_refuted`: an image symmetric about its middle does not stay so: the line and the column of the far side are lost even if the centre is a pixel.
* `C122_text_refuted`: an argument that is not a number is not noticed; it counts as 0, and true is returned.
* `C123_last_UB`: at the last iteration no time is left, and time_str(0) is undefined (C79): a progress bar never ends well.
* `C123_tick_end_UB`: at its last iteration progress_tick writes the line again after having counted the iteration, that is with n+1 iterations done among n. If n is at most the length of the bar, the number of blanks after the dashes is then negative, and its conversion undefined (time.hpp:129).
* `C123_tick_end_refuted`: for longer processes the last line shows more iterations than there are, and up to 103%.
* `C123_zero_UB`: nothing to do (n = 0) is not handled either: the length of the bar is a division by zero.
* `C124_median_empty_aborts`: The median of no images aborts the program, as soon as there is a pixel.
* `C124_no_pixels_refuted`: of images without pixels the result has one image instead of one for each trial, and without trials the dimensions of the images are lost.
* `C124_no_sources_abort`: the bootstrap of a cube without sources aborts the program as soon as one source is drawn: the number of the last source wraps around and source 0 is drawn. It is not checked before.
* `C124_short_cube_aborts`: A source that one of the other cubes does not have aborts the program; the cubes are not compared before.
* `C125_dims_abort`: vectors of other dimensions abort the program instead of failing the test.
* `C125_empty_refuted`: an empty vector is the same as any single value.
* `C125_nan_refuted`: NaN is the same as any number or infinity, as the difference is NaN: a test with a NaN never fails.
* `C125_small_refuted`: the tolerance is absolute, so that all numbers up to half of it are the same, whatever their ratio.
* `C126_digit_refuted`: "ul" is also removed from names in which it follows a digit.
* `C126_filename_refuted`: without a directory the mark is kept.
* `C126_long_long_refuted`: of "unsigned long long" only the first two words are replaced.
* `C126_operator_refuted`: the bracket of an operator is taken for that of a template: the last character of the name is lost and a bracket is added.
* `C126_void_refuted`: an argument void is also removed when it is the only one.
* `C127_before_UB`: a spectrum that is received entirely before the first filter is read beyond its end.
* `C128_absent_refuted`: if there is no such keyword the string given for the value is cleared: it is not a default value.
* `C128_ends_refuted`: blanks and quotes at the ends of a string are never read back.
* `C128_long_refuted`: strings longer than 68 characters are cut, without a message.
* `C128_quotes_refuted`: quotes within a string are read back twice.
* `C128_true_string_refuted`: the string "T" is read as the number 1.
* `C128_twice_refuted`: a keyword added to one that exists is there twice, and is still there when it was removed.
* `C129_edge_abort`: the limit at the high side is that of the coordinate, not of the pixel: a source in the first half of the pixel that is too far ends the program.
* `C129_first_refuted`: the limit at the low side is one pixel too high: a source at the pixel h, whose cutout is within the image, is not picked.
* `C129_nan_UB`: NaN coordinates are not noticed, and converted to a pixel.
* `C12_nan_refuted`: unique_ids lists a NaN several times.
* `C130_exception_refuted`: an exception of the function to minimise does not reach the caller: the result is a failure, at the position 0.
* `C130_short_UB`: a function that gives too few derivatives is read beyond the end of its result.
* `C130_zero_refuted`: with max_iter = 0 there is still one iteration.
* `C13_large_first_refuted`: match: from 64 elements on the documented "first value of v2" rule fails.
* `C13_nan_refuted`: match: from 64 elements on a NaN is paired with a number.
* `C13_size_dependent_refuted`: match: adding an element that matches nothing changes which pairs are returned.
* `C15_equal_range_doc_refuted`: equal_range does not return what is documented (first and last index, npos if x is absent).
* `C15_int_argument_refuted`: a non-integer argument is converted to the integer element type first: lower_bound({-3,-2,-1}, -2.5) points to -2.
* `C16_start_lost_refuted`: astar_find overwrites its arguments x and y even when nothing is found, possibly by a position outside of the map.
* `C18_after_sort_refuted`: is_sorted reports a sorted vector with a repeated value as not sorted.
* `C18_empty_refuted`: is_sorted of an empty vector reads outside of it.
* `C19_shift_empty_refuted`: shift of an empty vector is a remainder by zero.
* `C20_row_check_refuted`: the bound check of inplace_remove compares with the number of elements, not of rows.
* `C21_self_append_refuted`: appending a one-dimensional vector to itself is undefined
* `C21_shape_check_refuted`: append accepts shapes that differ in another dimension.
* `C22_empty_slices_abort`: a slice of an empty dimension has no elements: partial_mean gives NaN (None) there, partial_min and partial_max abort
* `C23_percentile_one_refuted`: with a NaN in the data, percentile(v, 1.0) is NaN and not the largest number
* `C23_weighted_median_differs_refuted`: with equal weights and an even number of elements, the weighted median is the element just below the one median returns
* `C24_min_conversion_refuted`: min(1, {0.5}) = 0 : the result takes the type of the first argument
* `C24_min_pairs_nan_refuted`: min of two vectors: with NaN the answer depends on the order of the arguments.
* `C24_minmax_tie_refuted`: minmax_ids(v).second is not max_id(v) when the largest value is repeated
* `C25_bad_hint_refuted`: integrate_hinted: a hint after x0 is not noticed.
* `C25_binned_bounds_refuted`: binned integration between two abscissae of different bins: the piece before the first complete bin is multiplied by the value of the wrong bin.
* `C25_bounds_end_refuted`: integrate between bounds: at the last node both bounds are accepted by the checks, then used as npos.
* `C25_empty_refuted`: integrate reads outside the arrays when these are empty.
* `C25_hinted_end_refuted`: integrate_hinted at the last node: no hint is undefined, a hint gives 0.
* `C25_reversed_bounds_refuted`: integrate: reversed bounds do not give minus the integral.
* `C26_callback_overlap_refuted`: With overlapping bins the two versions disagree: histogram counts a value once, the version with a function reports it for every bin that contains it
* `C26_callback_stops_refuted`: unless an earlier bin holds all the data: then the later bins are not reported.
* `C26_in_bin_open_single_refuted`: in_bin_open with a single bin does not extend it to infinity.
* `C27_cumul_reverse_refuted`: cumul_reverse of more than two values is not the list of suffix sums.
* `C28_empty_separator_diverges`: split with an empty separator never returns.
* `C28_split_collapse_refuted`: split does not undo collapse when a piece joins with the separator into an earlier occurrence.
* `C29_empty_pattern_diverges`: replace with an empty pattern never returns.
* `C33_cut_refuted`: cut loses the remainder of the string.
* `C33_cut_zero`: cut with size 0 converts a floating-point infinity or NaN to an unsigned integer.
* `C33_get_word_refuted`: get_word of a string that is one word loses the word.
* `C34_boundaries_refuted`: hash("ab","c") = hash("a","bc"): argument boundaries are not part of what is digested.
* `C35_extension_refuted`: get_extension: the dot may belong to a directory.
* `C35_trailing_slash_refuted`: get_basename("dir/") gives "/", unlike basename(1).
* `C39_consume_after_join_refuted`: consume_all() after join() never returns if an item is left to a worker
* `C39_join_refuted`: join() alone may lose items: it returns although an item was never begun
* `C39_restart_refuted`: start() on a pool that has not been joined never returns: the destructor of a worker waits for its thread without telling it to stop
* `C40_first_index_refuted`: parallel_for with a first index f > 0: the range is cut at e - f, the last f indices are never run.
* `C40_one_worker_refuted`: parallel_for with a single chunk (one worker and the default chunk size) also runs the body for the indices e and e + 1.
* `C41_errors_size_refuted`: interpolate: the size of the error vector is not checked.
* `C41_repeated_node_refuted`: interpolate: with a repeated last node the value at that node is not a number.
* `C42_aligned_start_refuted`: A convex polygon whose first three vertices are aligned: the orientation is taken to be clockwise, and interior points are rejected.
* `C42_collinear_refuted`: the hull of aligned points contains every point of their line, also outside of the segment.
* `C42_empty_UB`: build_convex_hull without points reads outside the arrays.
* `C42_integer_polygon_refused`: For an integer type epsilon is zero: no polygon is ever recognised as closed, so the hull functions refuse every polygon of integers given by the user; so they do for the constructor without checks.
* `C42_no_check_refused`: the hull functions refuse a polygon built with the constructor without checks.
* `C42_single_refuted`: the hull of a single point contains every point.
* `C43_lu_invert_no_pivot_refuted`: without pivoting every column of the result of invert() solves A x = (1,...,1): for a matrix of at least two rows this is never the inverse
* `C45_missing_angular_refuted`: the distance of a missing neighbour is infinite in linear mode only; it is NaN on the sphere.
* `C45_more_threads_than_sources`: with more threads than sources the program stops with an error.
* `C45_thread_ties_refuted`: the index of the reverse match does depend on the number of threads when two sources are at the same distance (the merge of the threads prefers the last one, the scan the first).
* `C46_no_mirror_abort`: xmatch_clean_best on a result computed with no_mirror stops the program.
* `C46_unmatched_abort`: a source without a match makes xmatch_clean_best stop with an error, and so does a result computed with no_mirror.
* `C47_area_refuted`: the first pixel of a segment is counted twice in its area and barycentre.
* `C47_min_area_refuted`: segment: a segment of three pixels survives min_area = 4.
* `C49_inverted_region_refuted`: a region turned inside out: the dimensions are negative numbers converted to uint_t, and the object does not hold as many pixels as it claims
* `C49_shrink_enlarge_refuted`: shrink does not undo enlarge for an image without rows or columns.
* `C50_empty_UB`: shift of an image without rows is a modulo by zero.
* `C50_large_shift_refuted`: an image shifted by its own size stays where it is.
* `C51_large_kernel_UB`: convolve2d_naive with a kernel more than about twice as large as the image in one direction: the loop bound wraps around and the loop runs out of the arrays.
* `C52_empty_first_refuted`: initializer lists: data after an empty first list are silently dropped.
* `C53_reversed_refuted`: two reversed ranges pass the checks: the view has 2^64-1 rows and columns but one element.
* `C57_empty_marks_diverge`: replace_block with empty marks never returns.
* `C58_ellipsis_refuted`: wrap: the ellipsis loses text even when it is longer than what it replaces, and with a width below three the whole rest of the text is repeated.
* `C58_wide_indent_refuted`: wrap with an indent wider than the width: the subtraction wraps around and nothing more is broken.
* `C59_large_window_UB`: boxcar with a window larger than the image: hsize is subtracted from the dimension in uint_t.
* `C60_once_refuted`: foreach_segment reports the first pixel of a segment twice.
* `C62_aligned_UB`: if all sources of the second catalogue have the same x or the same y (or if it has a single source), the size of the buckets is zero, and the behaviour is undefined.
* `C62_far_corner_refuted`: in larger fields a source may stay without any match: the search stops before the buckets in the opposite corner of the field are reached.
* `C62_self_no_reverse`: in self mode the reverse matches are not computed (brute force does compute them).
* `C62_twice_refuted`: with nth >= 2 the same neighbour is listed twice if it lies in a bucket of the same row or column as the source.
* `C63_temp_scalar_refuted`: std::move(v) * v[1] re-reads the scalar after it was modified
* `C63_temp_view_refuted`: std::move(v) + v[{2,1,0}] reads elements already overwritten
* `C64_lambda_first_moved_refuted`: a temporary argument that f takes by value is moved into the first call; the other calls receive a moved-from object (here the empty string)
* `C64_same_dims_refuted`: same_dims_or_scalar accepts vectors of different dimensions with the same number of elements, and anything after an empty first vector.
* `C64_same_size_refuted`: same_size does not compare sizes, it only tests that they are not zero
* `C65_bicubic_single_UB`: the guard subtracts 2 from an unsigned dimension, so a map with a single line is read out of bounds instead of giving the default.
* `C65_nonuniform_refuted`: on nodes that are not equally spaced the result is not a cubic spline. The right-hand side of the system divides y[i]-y[i-1] by h[i] instead of h[i-1]: the curve has kinks at the nodes, and even a straight line is not reproduced.
* `C65_uniform_far_UB`: positions whose integer part is not a 64-bit integer are converted with undefined behaviour instead of being extrapolated like the others.
* `C66_single_column_UB`: a map with a single column is read out of bounds near its first pixel, for the same reason.
* `C66_single_line_UB`: the guards subtract 1 and 2 from unsigned dimensions, so a map with a single line is read out of bounds at every position, and a map with a single column near its first pixel.
* `C66_strict_last_refuted`: bilinear_strict treats the last line and the last column of the map as if they were outside.
* `C67_clamp_mixed_refuted`: with arguments of different types the result can be outside the bounds: a negative bound of an unsigned value wraps around, a negative value compared with unsigned bounds becomes the upper bound or comes back unchanged, and a fractional bound of an integer is truncated towards zero.
* `C67_rgen_unsigned_decreasing_refuted`: for a decreasing range of unsigned integers the difference j - i wraps around, and the range runs up to j + 2^64 instead of down to j.
* `C67_step_refused`: A step that is not strictly positive is refused.
* `C67_step_type_dependent_refuted`: the number of values depends on the types of the arguments, not only on their values: the quotient is rounded for floating point arguments and truncated for integers.
* `C68_column_end_refuted`: the end iterator of a line that is not the first of its block is past the end of the storage, which std::vector iterators do not allow: for a matrix, that is every column but the first.
* `C68_outside_refused`: A fixed index outside its dimension stops the program.
* `C69_positive_refuted`: outside its samples the kernel is extrapolated, not taken as zero, even if it vanishes at both ends: the convolution of two non-negative functions can be negative.
* `C69_refused`: Samples of different sizes are refused, and so are axes of fewer than four values (the message of the check speaks of three).
* `C70_bad_row_aborts`: A line with too few fields, or with a field that does not parse, is an error.
* `C70_columns_overflow_UB`: the size n*m of columns(m, ...) is computed modulo 2^64 and the elements are then written without check.
* `C70_empty_first_field_refuted`: with delim_single (CSV), a line whose first field is empty gives an empty string for all its fields.
* `C70_empty_pattern_refuted`: an empty skip pattern ignores every line that does not start with a blank.
* `C70_never_undefined`: Whatever the file, the format and the parsers, the outcome is a value, an error message or an exception.
* `C70_scalar_rows_aborts`: Several rows cannot be read into a scalar.
* `C70_skip_first_too_large_refused_by_exception`: with more lines to skip than there are, the number of rows wraps around and the resize throws.
* `C71_columns_too_few_refuted`: the same with too small an m; the cells are written in the wrong rows.
* `C71_columns_too_many_UB`: columns(m, v) does not check m against the number of columns of v: too large an m reads out of bounds.
* `C71_empty_column_UB`: an empty first column takes the size of the second one without error, and is then read out of bounds.
* `C71_header_mismatch_aborts`: The header must have one name per column.
* `C71_size_mismatch_uncaught`: the error for columns of different lengths is thrown outside of the try block, so that the exception leaves write_table.
* `C72_linfit_dims_refuted`: with a scalar error the dims of the models are not looked at, only their number of elements: the models of transposed images are silently accepted for the image they do not match. With a vec error the same call is refused.
* `C72_linfit_pack_mismatch_refused`: dims of x that are not those of y and of the errors, but for the first one: refused
* `C72_linfit_sizes_refused`: an error or a model that is a vec with another number of elements than y: refused
* `C73_batch_scalar_error_refused`: the number of points of a batch is the size of the errors, so a batch with a scalar error has one point, and refuses every model that is a vec, unless it has one element.
* `C73_pack_batch_short_UB`: linfit_pack_batch() does not check the dims of x: when its rows are shorter than the errors, x is read past its end.
* `C73_update_chi2_first_UB`: update_chi2() before any fit reads the parameters, that are still an empty vec.
* `C73_update_range_refused`: a model that does not exist cannot be changed
* `C73_update_short_UB`: update_model() does not check the size of the new model. A model with too few elements is read past its end; the elements of a model with too many are ignored.
* `C74_linfit_nn_nan_refuted`: a model that overlaps with none of those that are correlated with the data gets NaN, not 0, and with it chi2. Here y = (1,0) and the models (1,0) and (0,1); then y = -1 and the model 1. The right answers are (1,0) and 0.
* `C74_linfit_nn_negative_refuted`: models that are anti-correlated can get negative parameters. Here y = (-1,2) and the models (-2,0) and (3,2), for two iterations.
* `C74_linfit_nn_success_refuted`: success is never set: it is false for every fit, converged or not.
* `C75_blocked_refuted`: Finding (argv.hpp:172-182): an argument that could not be converted for one variable blocks the other variables whose name is contained in it: their own arguments after it are not read.
* `C75_name_text_refuted`: Finding (argv.hpp:204, 225-227): the text of a name() ends at its first ')', and exactly one more character is skipped: with a call inside, or a space before the comma, the next variables get another name, and their arguments are not recognized.
* `C75_not_modified_refuted`: Finding (argv.hpp:14-30): the documentation says that when the conversion fails "the variable is not modified"; a number is set to zero by the failed stream extraction.
* `C76_make_cmd_refuted`: Finding (argv.hpp:342-358): without these conditions the words are others: an empty argument is lost, an argument with a blank before '=' is cut, and quotes inside an argument are not escaped.
* `C76_serialize_blank_refuted`: Finding (argv.hpp:318-320): arguments with blanks are not quoted.
* `C76_text_round_trip_refuted`: Finding (argv.hpp:77, 113-118): strings are not written so that they can be read back: blanks and quotes around a string are lost, a comma in a list makes two values, and the list of one empty string is read as an empty list.
* `C76_write_named_refuted`: Finding (argv.hpp:258-272): after a variable given with name(), write() calls the function that reads: the next variables are not written, and are changed by the arguments already listed.
* `C77_failure_modifies_refuted`: Finding (string_conversion.hpp:193-207): a failed conversion may leave another value in the variable.
* `C77_negative_refuted`: Finding (string_conversion.hpp:193-207): a negative number is accepted for an unsigned type, and is stored as a huge one.
* `C77_special_blank_refuted`: Finding (string_conversion.hpp:169-184): white space is accepted around a number, not around these words, and "infinity", which the standard functions accept, is refused.
* `C78_dot_refuted`: Finding (ascii.hpp:719-726): the first dot is not always the one of a member access on the variable: in a number, or inside of the brackets of a call, the name is cut at another place. read_args() uses the last dot for the same purpose, and a member of a member keeps a part of its path.
* `C78_empty_refuted`: Finding (ascii.hpp:754-766): an empty name is not given as such: all that follows is given with it. A list that is empty, or ends with a comma and a blank, throws.
* `C78_literal_UB`: Finding (ascii.hpp:741-752): brackets inside of string or character literals are counted: the macro list of a correct program makes the program stop, with "library bug", or reads the back of an empty vector.
* `C78_no_column_UB`: Finding (ascii.hpp:798): the header for a vec<2> without columns takes the range from the second to the last of no names.
* `C79_seconds_range_UB`: A negative duration, or one too large for std::size_t, is undefined.
* `C79_thousand_refuted`: Finding (time.hpp:36-42): the rounding may reach 1000, without going to the next unit.
* `C79_zero_UB`: Finding (time.hpp:34-35): floor(log10(0)) is converted to int, which is undefined; as for negative durations. A clock that did not advance between two calls of now() gives 0.
* `C80_close_UB`: Finding (filesystem.hpp:104-111): the shortest such use: open, read, close.
* `C80_session`: An explorer that is not closed explicitly can be used in any way: all the directories it opened, and only them, are closed at the end. Finding (filesystem.hpp:104-111): close() does not reset the handle, so that an explicit close() of an open directory is always followed by the use, or the second closing, of a closed stream, at the latest in the destructor.
* `C81_file_refuted`: Finding (filesystem.hpp:292-295): true is returned when the path is a file, for the error EEXIST is taken as success: there is no directory.
* `C82_digits_refuted`: Finding (string_conversion.hpp:134-139): to_string() keeps 6 digits of a double only, so that the number read back is another one.
* `C83_lost_sign_refuted`: Finding (astro.hpp:1084, 1091, 1110-1111): the sign is written with the whole part only: the text of a declination between -1 and 0 degrees is the one of its opposite.
* `C83_range_UB`: Finding (astro.hpp:1081, 1088): a coordinate that is too large for an integer is undefined behaviour.
* `C83_sign_refuted`: Finding (astro.hpp:1050-1055): the sign is taken from the first number after its conversion to an integer, so that the sign of "-00" is lost: every declination between -1 and 0 degrees is read as its opposite.
* `C83_sixty_refuted`: Finding (astro.hpp:1093-1108): the seconds are rounded after the minutes are known, and may be 60.
* `C83_tiny_refuted`: Finding (astro.hpp:1093-1108): tiny seconds are written with a power of ten, to which ".0" is added: this is not a number, and sex2deg() refuses it.
* `C84_aligned_refuted`: the hull of aligned points is a segment there and back, and the points of the line beyond its ends are given a positive distance, as if they were inside.
* `C84_integer_hull_refuted`: the unit and normal vectors of a convex_hull<int_t> are stored as integers, hence as 0 for faces that are not parallel to an axis: the distance to the triangle is then 0 everywhere.
* `C84_single_point_refuted`: when all vertices are the same point (or for the hull of a single point) no face has a direction: the distance is infinite, and the point counts as inside.
* `C84_stale_vectors_refuted`: Finding (documented: mark_as_dirty() is needed): vertices changed after a first call. The new vertices are used with the vectors of the old ones: the result belongs to neither of the hulls.
* `C85_half_pixel_aborts`: round() goes away from 0, so that around a position half way between two pixels and less than hsize away from 0 there are 2*hsize+2 pixels between p0 and p1: stacking a source close to the left edge (likewise the bottom one) aborts, as the copy goes out of the cutout
* `C85_last_column_refuted`: pixels are numbered from 1, the bounds are compared as if they were numbered from 0: a source of which the window only touches the last column is discarded
* `C85_other_size_aborts`: a cube of another size than the cutouts makes the first source found abort the program
* `C85_weights_covered_refuted`: with weights, a source of which the window ends at the last column is discarded although it is covered
* `C85_weights_sections_lost_refuted`: with sections and weights, the offsets and the sections asked for are never returned
* `C85_weights_sections_refuted`: with sections, only the numbers of sources are compared: the flux of one source is silently paired with the weight of another one
* `C86_empty_pool_aborts`: when the pool has no source, the next catalogue stops the program: its sources have no nearest neighbour and npos is used as an index
* `C86_empty_selection_refuted`: an empty selection selects everything instead of nothing
* `C86_late_flux_aborts`: once fluxes are merged, no fluxes can be merged any more after a catalogue has added sources
* `C86_notes_refuted`: only an empty list of notes is replaced; a list of another length is appended as it is, and from then on the notes do not correspond to the bands
* `C86_plain_first_undefined`: ngal is not initialised; a catalogue without positions given first reads it
* `C86_stale_match_refuted`: a saved cross match is used again whenever the sizes are the same, whatever the positions and the selection
* `C87_idle_aborts`: with fewer sources than threads the program stops, although the same call with one thread works: the first thread gets no source, and the range 0-_-(0-1) of its results is not valid. This is the case of catalogues of less than 4 sources added to a pool (catalog_merge.hpp 194).
* `C88_plain_flux_refuted`: without renorm the fluxes returned are still multiplied by the amplitudes: they are not the model whose chi2 is returned.
* `C88_sizes_abort`: Sizes that do not match, and empty libraries, are errors.
* `C89_limits_constraint_refuted`: with upper limits the same happens for a choice that is not allowed: if the first one is not, the result is NaN whatever the others.
* `C89_limits_flux_refuted`: with upper limits the templates have not been divided by the errors but the fluxes returned are multiplied by them.
* `C89_no_lapack_refuted`: without LAPACK the whole matrix is inverted, whose upper half is 0: the amplitudes are wrong. Here the first template alone fits exactly.
* `C89_no_library_UB`: Without any library the counter of choices does not exist.
* `C89_sim_deviate_refuted`: in the simulations with upper limits the function to minimise changes the simulated fluxes: called twice with the same parameters it returns other values.
* `C89_singular_refuted`: when the matrix of a choice cannot be inverted the loop goes on without selecting the next choice. Here the first template is 0 in all bands and the second one fits exactly, but the result is NaN.
* `C90_far_box_UB`: the corner of a box that is 2^63 pixels away has no int_t.
* `C90_flat_box_refuted`: a box without height also masks pixels beyond its ends.
* `C90_mask_edge_refuted`: when the circle ends less than half a pixel below the first row or column, the corners of these pixels that it contains are ignored.
* `C90_mask_empty_UB`: without pixels, dims-1 wraps around and the loop writes out of the image.
* `C90_mask_far_UB`: a circle far beyond the last pixels has a first row that no uint_t can hold.
* `C90_middle_refuted`: the version without centre uses d0/2 instead: its mask is not symmetric, neither for an odd nor for an even number of pixels.
* `C90_profile_none_abort`: the profile of no value aborts instead of being empty.
* `C90_profile_refuted`: radial_profile calls circular_mask with the half sizes as radius and first coordinate and the radius of the ring as second coordinate. The second value of the profile depends on pixels at more than 2 pixels of the centre.
* `C90_small_circle_refuted`: a circle around the centre of a pixel that contains none of its corners masks nothing, though a smaller box with that centre masks the pixel.
* `C91_options_lost_refuted`: the colour and the text of a region are not written.
* `C91_other_axes_refuted`: when the first axis is not spatial the sizes are written without unit, and reading the file again finds no region.
* `C91_physical_round_trip_refuted`: the coordinates of the program are written as they are, but 1 is subtracted when they are read: regions in pixels that are written and read again are moved by one pixel, every time.
* `C91_reset_refuted`: nothing ends the "physical" mode: the regions after a later "fk5" line are lost, or read as pixels.
* `C91_text_refuted`: a text with a space is cut, even between braces, and keeps the brace.
* `C92_clip_empty_abort`: the median of nothing does not exist
* `C92_clip_equal_refuted`: when more than half of the numbers are equal, every other one is discarded, however close it is and however large sigma
* `C92_exact_refuted`: Finding: even when it is a polynomial of degree 6, nowhere negative, and its integral is 1/210
* `C92_jump_UB`: a jump is enough: with the default tolerance 2^-52, or any up to 2^-30
* `C92_shift_UB`: there is no limit on the number of rounds; when no row agrees before, the sixteenth one shifts an int by 32 bits
* `C93_distance_refuted`: dmap is said to hold the distance to the nearest segment; it can be larger, because only the nearest pixel known to a neighbour is ever tried (at the top right, 9 instead of 8)
* `C93_label_refuted`: a pixel can get the label of another segment than the one in imap, even though it is farther: a point waiting to be processed for one segment is processed for it after another one has taken it
* `C94_account`: without a minimum area, the area, the flux and the barycentre of a segment of at least two pixels count its peak twice.
* `C94_area_refuted`: "area" is not the number of pixels of a segment, and the flux is not their sum.
* `C94_barycentre_refuted`: the barycentre is pulled towards the peak, which has twice its weight.
* `C94_empty_UB`: for an empty image the index npos is read.
* `C94_highest_refuted`: with a minimum area, the reported peak of a segment need not be its brightest pixel.
* `C94_island_refuted`: a bright pixel within reach of a peak, but not connected to it, is left without a label: it neither joins the segment nor begins one.
* `C94_lowest`: the pixel that comes last in the order of brightness is never in a segment, even when it is above the threshold.
* `C94_reuse_abort`: an output that has been used for one image cannot be used for another: out.id is not emptied, and the program stops.
* `C94_single_refuted`: a bright image of one pixel has no segment.
* `C95_aligned_refuted`: the orientation of a projection is read from its first three corners. If they are aligned, it is taken for clockwise, and the pixel is lost, although the overlap is not empty.
* `C95_area_refuted`: for a projection that is not convex, it is not.
* `C95_border_refuted`: the bounds of the projection are limited to the image before the test that it is contained in one pixel. A pixel of the source that is larger than the image gives its whole area, 16, to the only pixel, whose area is 1.
* `C95_coincident_refuted`: the same happens if two consecutive corners coincide.
* `C95_far_UB`: a coordinate that does not fit in an integer is undefined behaviour.
* `C95_linear_drop_refuted`: with a linearised projection, the area is not reduced when the drops are: the flux comes out four times too small for drops of half the size, although the projection is linear.
* `C95_rotation_refuted`: a rotation by 0.0009 counts as a translation, although pixels at 2000 pixels from the centre move by more than one pixel and a half.
* `C95_skewed_refuted`: with axes that are not perpendicular, the product of their lengths is not the area. Here the axes are (3, 4) and (2, 0): their lengths 5 and 2 give 10, the area is 8.
* `C96_axes_UB`: the dimensions of the loops are those of the destination along the axes of the source; if the two astrometries number their axes differently, the function writes outside the result.
* `C96_axes_refuted`: or fills the wrong pixels: here the identity sends the pixel (0, 1) of the source to (1, 0).
* `C96_first_refuted`: the first line and the first column are never the nearest.
* `C96_small_UB`: an empty source is read by the bilinear method; a source of a single line by the cubic one.
* `C96_translation_UB`: and it reads outside of a source that is smaller than the destination.
* `C96_translation_refuted`: so a translation goes in the wrong direction when the projection is linearised. The pixel 1 of the second line is at the pixel 2 of the source, whose value is 6.
* `C96_translation_wide_refuted`: and takes the pixels of a wider source for those of other lines.
* `C97_default_refuted`: the default value is not used; what comes from outside of the image is extrapolated.
* `C97_identity_refuted`: so not even the translation by nothing gives back the image; its last line and its last column are lost (the same for a scaling by 1, and a rotation by an angle of 0).
* `C97_middle_refuted`: in an image of two lines even the middle pixel is lost.
* `C97_rotate_single_UB`: the bicubic rotation of an image of a single line reads outside of it.
* `C97_scale_zero_UB`: a factor of 0 is not refused; it makes positions that are not numbers.
* `C97_spread_undefined`: a single pixel that is not finite makes the whole result of the translation by splines not finite, even if the translation is by nothing.
* `C98_default_refuted`: with a finite default value, 0 for instance, the part of the square that is outside of the first image is not taken from the others, which have finite values there.
* `C98_far_UB`: a source that projects further than any integer is undefined behaviour.
* `C98_no_images_abort`: asking for a header when there are no images is a failure, unless the caller's header has something in it.
* `C98_no_scale_UB`: a cutout from images with no pixel size, or a null one, converts a value that is not finite to an integer.
* `C98_uncovered_header_refuted`: for a source outside of all images the header has no pixel at all, since its dimensions are written before the placeholder is made; and the projection of the caller's header is kept.
* `C99_ampersand_refuted`: when the old comment fills the card and ends with an ampersand, the end of a long new value is overwritten by the ampersand.
* `C99_blank_key_refuted`: a key with a blank at its end or in front is accepted, but is never found again: it can be added many times.
* `C99_end_refuted`: without a card END, the letters END anywhere in the last card are taken for it: the new card is inserted in the middle, and neither key can be read afterwards.
* `C99_quotes_refuted`: the quotes at the end of a string are all removed, and doubled quotes are not made single: 'a''' is a', 'it''s' is it's in the FITS standard.
* `C99_slash_comment_refuted`: and writing a new value leaves the rest of the old string as the comment.
* `C99_slash_refuted`: a slash within the quotes of a string is taken for the beginning of the comment: the string is cut there.
* `C99_unaligned_refuted`: in a header whose length is not a multiple of 80, a new card is not aligned, and cannot be read; the call says that it succeeded.

## 5. Assumptions per theorem
`Print Assumptions` follows every property theorem.  For all of them except those of C120
(`SphProperties`) the build prints "Closed under the global context": no axiom is used, neither of the
standard library nor of another one.  The theorems of C120 are about the real numbers of the standard library, and `Print Assumptions`
lists its axioms `ClassicalDedekindReals.sig_not_dec`, `ClassicalDedekindReals.sig_forall_dec`,
`FunctionalExtensionality.functional_extensionality_dep` for each of them and `Classical_Prop.classic` for all but `C120_move`, `C120_move_pole` and `C120_move_vec`.
The theorems, by file:
* `AngProperties.v`: C108_estimator, C108_dims_abort, C108_no_correlation_refuted, C108_pairs_above_zero, C108_self_pairs_refuted
* `ArgvProperties.v`: C75_read_args, C75_unrecognized, C75_invalid, C75_not_modified_refuted, C75_blocked_refuted, C75_too_few_names_throws, C75_name_text_refuted, C76_write_args, C76_too_few_names_throws, C76_round_trip, C76_text_round_trip_refuted, C76_write_named_refuted, C76_serialize, C76_serialize_blank_refuted, C76_make_cmd, C76_make_cmd_refuted
* `AsciiProperties.v`: C70_used_lines, C70_fields_unique, C70_fields_exist, C70_read_table, C70_bad_row_aborts, C70_layout_vector, C70_layout_columns, C70_scalar_rows_aborts, C70_never_undefined, C70_columns_overflow_UB, C70_skip_first_too_large_refused_by_exception, C70_empty_first_field_refuted, C70_empty_pattern_refuted
* `AsciiProperties2.v`: C71_write_table, C71_aligned, C71_roundtrip, C71_roundtrip_vectors, C71_csv_roundtrip, C71_csv_roundtrip_vectors, C71_header_mismatch_aborts, C71_size_mismatch_uncaught, C71_empty_column_UB, C71_columns_too_many_UB, C71_columns_too_few_refuted
* `AstarProperties.v`: C16_astar_find, C16_empty_map, C16_start_lost_refuted
* `AstwProperties.v`: C116_axes, C116_ad2xy, C116_xy2ad, C116_roundtrip, C116_shapes, C116_no_dec_UB, C116_no_ra_UB
* `AstwProperties2.v`: C117_x2w, C117_w2x, C117_roundtrip, C117_build, C117_stops, C117_default_refuted, C117_turned_refuted, C116_pixel_size, C116_mirror_refuted, C116_move, C116_dirty_refuted
* `BilinProperties.v`: C66_bilinear, C66_pixels, C66_bilinear_pixel, C66_bilinear_exact, C66_bilinear_between, C66_single_line_UB, C66_single_column_UB, C66_strict, C66_strict_last_refuted, C66_grid, C66_grid_exact, C66_grid_sizes, C66_grid_vec, C66_grid_vec_dims, C66_rebin
* `BootProperties.v`: C124_draw, C124_fair, C124_bootstrap, C124_short_cube_aborts, C124_no_sources_abort, C124_mean, C124_weighted_mean, C124_mean_bootstrap, C124_weighted_bootstrap, C124_median_bootstrap, C124_median_empty_aborts, C124_no_pixels_refuted
* `CatmergeProperties.v`: C86_pool, C86_first, C86_add, C86_target, C86_merge, C86_merge_scalar, C86_merge_rows, C86_merge_guard, C86_rows_guard, C86_plain, C86_flux_guard, C86_merge_flux, C86_empty_selection_refuted, C86_plain_first_undefined, C86_empty_pool_aborts, C86_stale_match_refuted, C86_notes_refuted, C86_late_flux_aborts
* `CmaskProperties.v`: C90_mask, C90_mask_negative, C90_mask_edge_refuted, C90_mask_empty_UB, C90_mask_far_UB, C90_symmetric, C90_middle_refuted, C90_circle, C90_small_circle_refuted, C90_box, C90_flat_box_refuted, C90_far_box_UB, C90_profile_first, C90_profile_constant, C90_profile_refuted, C90_profile_none_abort
* `ConvProperties.v`: C69_sum, C69_affine, C69_linear, C69_refused, C69_positive_refuted
* `CosmoProperties.v`: C109_small, C109_large, C109_increasing, C109_same_redshift_refuted, C109_no_positive_abort, C109_cosmo, C109_cosmo_planck_refuted
* `CureProperties.v`: C119_patterns, C119_cure, C119_text, C119_unchanged, C119_others, C119_sip_refuted, C119_comment_refuted, C119_continue_UB
* `CutProperties.v`: C98_cutout, C98_mosaic, C98_distortion, C98_default_refuted, C98_uncovered_header_refuted, C98_no_scale_UB, C98_no_images_abort, C98_far_UB
* `DblendProperties.v`: C94_segments, C94_peaks, C94_separation, C94_threshold, C94_connected, C94_highest, C94_account, C94_barycentre, C94_lowest, C94_area_refuted, C94_barycentre_refuted, C94_single_refuted, C94_island_refuted, C94_highest_refuted, C94_reuse_abort, C94_empty_UB, C94_first_id
* `DirProperties.v`: C80_list_files, C80_list_directories, C80_no_directory, C80_session, C80_close_UB, C81_mkdir, C81_mkdir_fails, C81_file_refuted
* `DrizProperties.v`: C95_overlap, C95_area_unique, C95_area, C95_area_refuted, C95_pixel, C95_tiling, C95_regrid, C95_linear, C95_mean, C95_uniform, C95_holes, C95_flux, C95_translation, C95_rotation_refuted, C95_border_refuted, C95_aligned_refuted, C95_coincident_refuted, C95_linear_drop_refuted, C95_skewed_refuted, C95_far_UB, C95_dims
* `DsregProperties.v`: C91_region, C91_unreadable, C91_comment, C91_global, C91_system, C91_file, C91_wcs_round_trip, C91_physical_round_trip_refuted, C91_other_axes_refuted, C91_write_converted, C91_conversions, C91_reset_refuted, C91_text_refuted, C91_options_lost_refuted, C91_write_guard, C91_physical_only
* `FfileProperties.v`: C114_reach, C114_missing, C114_create, C114_create_refuted, C114_write, C114_many, C114_remove, C114_no_axis, C114_table_refuted
* `FfileProperties2.v`: C115_write, C115_lookup, C115_replace_refuted, C115_copy_refuted, C115_copy, C115_end_refuted
* `FilterdbProperties.v`: C106_database, C106_map, C106_id, C106_ids, C106_get, C106_filters, C106_file, C106_range, C106_blanks_refuted, C106_colon_refuted, C106_path_refuted, C106_empty_UB, C106_scale_refuted, C106_bounds_refuted
* `FimgProperties.v`: C112_roundtrip, C112_pixel, C112_pixel_outside, C112_subset, C112_whole, C112_subset_outside, C112_start_UB, C112_wrapped_UB, C112_update, C112_update_dims, C112_update_types_refuted, C112_mismatch, C112_once, C112_unsigned_refuted
* `FluxProperties.v`: C101_sed2flux, C101_flat, C101_linear, C101_bounds, C101_uncovered, C101_rows, C101_end_refuted, C101_before_UB, C101_single_refuted, C101_luminosity, C101_luminosity_uncovered, C101_luminosity_refuted, C101_lir_end_refuted
* `GenProperties.v`: C67_rgen_evenly, C67_rgen_ends, C67_rgen_one, C67_rgen_none, C67_rgen_unsigned_decreasing_refuted, C67_step_refused, C67_step_point, C67_step_range, C67_step_ends, C67_step_type_dependent_refuted, C67_clamp, C67_clamp_within, C67_clamp_mixed_refuted, C67_sign
* `HdistProperties.v`: C84_distance, C84_sign, C84_constructed, C84_vec, C84_vec_dims, C84_caches, C84_single_point_refuted
* `HdistProperties2.v`: C84_integer_hull_refuted, C84_aligned_refuted, C84_stale_vectors_refuted, C84_checked_sizes
* `HdrProperties.v`: C100_parse, C100_serialize, C100_roundtrip, C100_continue, C100_filter, C100_filter_get, C100_comment_refuted, C100_quotes_refuted, C100_first_continue_UB, C100_empty_continue_UB, C100_continue_blank_refuted, C100_long_refuted, C100_double_refuted, C100_prefix_refuted
* `HistProperties.v`: C26_histogram, C26_contiguous, C26_make_bins, C26_from_edges, C26_from_centers, C26_too_few_nodes, C26_weighted, C26_callback, C26_callback_overlap_refuted, C26_callback_stops_refuted, C26_histogram2d, C26_checks, C26_in_bin, C26_in_bin_open, C26_in_bin_open_single_refuted, C27_cumul, C27_cumul_reverse, C27_cumul_reverse_short, C27_cumul_reverse_refuted
* `HullProperties.v`: C42_build, C42_strict, C42_accepts_points, C42_membership, C42_vector, C42_dims, C42_polygon, C42_empty_UB, C42_collinear_line, C42_single_refuted, C42_collinear_refuted, C42_aligned_start_refuted, C42_integer_polygon_refused, C42_no_check_refused
* `ImageProperties.v`: C48_mask_inflate, C49_subregion, C49_index_lists, C49_region_size, C49_inverted_region_refuted, C49_enlarge, C49_shrink, C49_shrink_enlarge, C49_shrink_enlarge_refuted, C49_recenter, C50_translate, C50_translate_general, C50_large_shift_refuted, C50_shift, C50_empty_UB, C50_flip_x, C50_flip_y, C50_recenter, C51_convolve, C51_even_kernel, C51_large_kernel_UB, C59_boxcar, C59_large_window_UB
* `IndexProperties.v`: C01_range_n, C01_range_up, C01_range_down, C01_range_u64_refuted, C01_range_overflow, C02_unsigned_index, C02_signed_index, C02_signed_index_safe, C02_narrow_index_refuted, C02_narrow_index_diverges, C03_row_major, C03_no_collision, C03_every_element, C03_out_of_range_stops, C04_flat_then_mult, C04_mult_then_flat, C04_flat_out_of_range, C04_mult_wraps, C04_mult_out_of_range_refuted, C04_mult_zero_dim, C05_walk, C05_each_once, C05_back_to_zero, C10_full, C10_up_to, C10_from, C10_between, C10_out_of_bounds, C10_reversed_throws
* `IntegProperties.v`: C25_trapezoids, C25_linear_data, C25_split, C25_combination, C25_cumul, C25_cumul_last, C25_empty_refuted, C25_bounds, C25_area_adds_up, C25_area_of_all, C25_area_linear_data, C25_bounds_end_refuted, C25_reversed_bounds_refuted, C25_hinted, C25_hinted_end_refuted, C25_bad_hint_refuted, C25_binned, C25_binned_bounds_refuted
* `InterpProperties.v`: C41_point, C41_vector, C41_vector_is_point, C41_function, C41_nodes, C41_between, C41_linear, C41_with_errors, C41_errors_size_refuted, C41_repeated_node_refuted, C41_sizes, C41_point_sizes
* `KeyProperties.v`: C99_getkey, C99_getkey_string, C99_setkey, C99_set_get, C99_set_other, C99_set_size, C99_too_long, C99_end_refuted, C99_slash_refuted, C99_slash_comment_refuted, C99_quotes_refuted, C99_unaligned_refuted, C99_blank_key_refuted, C99_ampersand_refuted
* `KwProperties.v`: C128_has, C128_read, C128_read_one, C128_absent_refuted, C128_absent, C128_value, C128_write, C128_add, C128_remove, C128_others, C128_twice_refuted, C128_roundtrip, C128_quotes_refuted, C128_ends_refuted, C128_long_refuted, C128_true_string_refuted, C128_primary, C128_extension, C128_no_hdu
* `LinfitProperties.v`: C72_linfit, C72_linfit_exact, C72_linfit_pack, C72_linfit_pack_rows, C72_linfit_pack_mismatch_refused, C72_linfit_sizes_refused, C72_linfit_dims_refuted, C73_batch_new, C73_batch_update, C73_batch_fit, C73_batch_fit_nochi2, C73_pack_batch, C73_update_range_refused, C73_update_short_UB, C73_update_chi2_first_UB, C73_pack_batch_short_UB, C73_batch_scalar_error_refused, C74_linfit_nn, C74_linfit_nn_optimal, C74_linfit_nn_pack, C74_linfit_nn_success_refuted
* `LinfitProperties2.v`: C74_linfit_nn_nan_refuted, C74_linfit_nn_negative_refuted
* `MacroProperties.v`: C78_split, C78_pop, C78_total, C78_header, C78_header_unique, C78_bake, C78_dot_refuted, C78_literal_UB, C78_empty_refuted, C78_no_column_UB
* `MatProperties.v`: C43_lu_solve, C43_lu_invert, C43_lu_invert_no_pivot_refuted, C43_lu_success, C43_lu_total, C43_determinant, C43_invert, C43_solve, C43_dims, C43_solve_dims, C44_decompose, C44_decompose_lower, C44_use, C44_lower, C44_dims, C44_solve_dims, C44_symmetrize, C61_mat_mat, C61_mat_vec, C61_vec_mat, C61_dims, C61_diagonal, C61_diagonal_dims, C61_as_diagonal, C61_identity, C61_transformations
* `MfitProperties.v`: C89_inversion, C89_fit, C89_best, C89_singular_refuted, C89_limits_constraint_refuted, C89_limits_flux_refuted, C89_sim_deviate_refuted, C89_no_lapack_refuted, C89_no_library_UB
* `MinimProperties.v`: C130_result, C130_success, C130_no_success, C130_exception_refuted, C130_exception_start, C130_zero_refuted, C130_function, C130_short_UB
* `NormProperties.v`: C102_range, C102_same, C102_direction, C102_normal, C102_vector, C102_vector_dims, C102_nan, C102_far_refuted, C102_unique_refuted, C102_inf_diverges
* `NumProperties.v`: C77_from_string_signed, C77_from_string_unsigned, C77_negative_refuted, C77_blank, C77_out_of_range, C77_failure_modifies_refuted, C77_to_string, C77_round_trip, C77_from_string_vec, C77_from_string_view, C77_special, C77_special_blank_refuted, C77_int_argument
* `OpProperties.v`: C63_vec_vec, C63_vec_scalar, C63_scalar_vec, C63_temp_vec, C63_vec_temp, C63_temp_vec_types, C63_vec_temp_types, C63_temp_temp, C63_temp_scalar, C63_scalar_temp, C63_temp_view_refuted, C63_temp_scalar_refuted, C63_compare, C63_compare_scalar, C63_scalar_compare, C63_logical, C63_logical_scalar, C63_logical_temp, C63_unary, C63_not_temp, C63_total, C63_int_div, C63_print, C64_vectorize, C64_vectorize2, C64_vectorize2_scalar, C64_vectorize_temp, C64_vectorize2_temp, C64_vectorize2_temp_scalar, C64_lambda_first, C64_lambda_first_moved_refuted, C64_lambda, C64_lambda_void, C64_lambda_scalar, C64_same_dims, C64_same_dims_refuted, C64_same_size_refuted
* `OrderProperties.v`: C11_where, C11_where_increasing, C11_where_first, C11_where_last, C11_complement, C11_complement_reject, C11_partition, C11_complement_repeated_refuted, C12_unique_ids, C12_unique_ids_sorted, C12_unique_ids_with, C12_unique_values, C12_unique_values_sorted, C12_nan_refuted, C13_pairs_equal, C13_left_once, C13_exact, C13_small_first, C13_large_first_refuted, C13_size_dependent_refuted, C13_nan_refuted, C14_intersection_sorted, C14_union_sorted, C14_intersection, C14_union, C14_as_sets, C15_lower_bound, C15_upper_bound, C15_bounds, C15_bounds_interval, C15_equal_range, C15_equal_range_doc_refuted, C15_int_argument, C15_int_argument_refuted, C17_sort_stable, C17_stable_unique, C17_inplace_sort, C17_agree, C17_float_order, C17_nan_last, C17_greater_order, C18_is_sorted_strict, C18_after_sort_refuted, C18_empty_refuted, C19_reverse, C19_shift, C19_shift_inverse, C19_shift_empty_refuted, C19_transpose, C19_transpose_involutive, C54_is_any_of
* `ParforProperties.v`: C40_each_once, C40_terminates, C40_two_chunks, C40_serial, C40_one_worker_refuted, C40_first_index_refuted
* `PathProperties.v`: C35_no_slash, C35_split, C35_trailing_slash, C35_root, C35_trailing_slash_refuted, C35_cases, C35_extension, C35_extension_refuted, C35_directorize, C35_directorize_idempotent, C35_is_absolute, C35_mkdir
* `PickProperties.v`: C129_pick, C129_infinite, C129_first_refuted, C129_edge_abort, C129_nan_UB, C129_missing
* `PoolProperties.v`: C39_safe, C39_no_worker_ub, C39_in_order, C39_round_robin, C39_drain_join, C39_consume_all_returns, C39_join_returns, C39_join_refuted, C39_consume_after_join_refuted, C39_restart_refuted
* `PrettyProperties.v`: C126_demangled, C126_plain, C126_template, C126_operator_refuted, C126_void_refuted, C126_digit_refuted, C126_filename, C126_filename_refuted, C126_long_long_refuted
* `ProgProperties.v`: C123_line, C123_run, C123_print, C123_tick, C123_tick_end_UB, C123_tick_end_refuted, C123_last_UB, C123_zero_UB
* `PsfProperties.v`: C107_fit, C107_fit_exact, C107_fit_centre, C107_fit_uniform, C107_subtract_exact, C107_subtract, C107_subtract_centre, C107_fit_psf_shape_abort, C107_fit_error_shape_abort, C107_subtract_transposed_refuted, C107_subtract_even_abort
* `PsfmProperties.v`: C122_fields, C122_unknown, C122_few, C122_gaussian, C122_gaussring, C122_point, C122_text_refuted, C122_empty_argument_UB, C122_file, C122_file_whole, C122_file_missing, C122_border_refuted, C122_symmetry_refuted, C122_far_refuted
* `QstackProperties.v`: C85_centre, C85_offset, C85_cutout, C85_window, C85_qstack, C85_sources, C85_overlay, C85_weights, C85_half_pixel_aborts, C85_last_column_refuted, C85_weights_covered_refuted, C85_weights_sections_refuted, C85_weights_sections_lost_refuted, C85_other_size_aborts
* `QueueProperties.v`: C36_linearizable, C36_fifo, C36_no_data_race, C36_wait_free, C37_memory_safe, C37_destructor, C37_clear
* `RandProperties.v`: C104_rejection, C104_limit, C104_box, C104_circle, C104_power_base, C104_power, C104_level, C104_last_refuted, C104_option_refuted, C104_zero_levels_refuted, C104_short_range_abort
* `RandintProperties.v`: C105_range, C105_exact, C105_even, C105_negative_refuted, C105_round_refuted, C105_overflow, C105_whole_range_refuted, C105_coin, C105_coins, C105_zero_refuted
* `RealProperties.v`: C82_from_string, C82_special, C82_to_string, C82_to_string_plain, C82_round_trip, C82_digits_refuted
* `ReduceProperties.v`: C22_reduce, C22_reduce_defined, C22_slices_partition, C22_partial_total, C22_bad_dimension, C22_total, C22_mean, C22_count, C22_weighted_sums, C22_weighted_shape, C22_empty_slices_abort, C23_order_stat_unique, C23_median_plain, C23_median, C23_median_nan, C23_percentile, C23_percentile_one_refuted, C23_empty, C23_weighted_percentile, C23_weighted_percentile_no_weight, C23_weighted_median_differs_refuted, C24_min, C24_max, C24_minmax, C24_min_plain, C24_values_and_ids, C24_minmax_tie_refuted, C24_empty, C24_min_pairs, C24_min_pairs_shape, C24_min_pairs_nan_refuted, C24_min_conversion_refuted
* `RegProperties.v`: C118_match, C118_vector, C118_search, C118_extract, C118_replace, C118_unique, C118_constant, C118_groups, C118_empty_diverges, C118_extract_empty_diverges, C118_extract_no_groups, C118_absent_throws, C118_groups_refuted, C118_anchor_refuted
* `RegridProperties.v`: C96_regrid, C96_linear, C96_place, C96_on_pixel, C96_between, C96_translation, C96_translation_refuted, C96_translation_UB, C96_translation_wide_refuted, C96_first_refuted, C96_axes_UB, C96_axes_refuted, C96_small_UB
* `RombProperties.v`: C92_result, C92_shift_UB, C92_jump_UB, C92_total, C92_cubic, C92_three_zeros, C92_exact_refuted, C92_empty, C92_reversed, C92_multiple, C92_clip, C92_clip_half, C92_clip_nan, C92_clip_empty_abort, C92_clip_equal_refuted
* `SconvProperties.v`: C127_convert, C127_observed, C127_normalisation, C127_distance, C127_uncovered, C127_before_UB, C127_sizes
* `SdistProperties.v`: C93_total, C93_segments, C93_distance, C93_aligned, C93_labels, C93_empty, C93_distance_refuted, C93_label_refuted
* `SectProperties.v`: C121_sections, C121_every_text, C121_sections_here, C121_no_section, C121_sections_refuted, C121_header, C121_header_plain, C121_header_missing, C121_band, C121_band_refuted, C121_band_note, C121_band_note_checked, C121_band_cat, C121_band_cat_abort
* `SegProperties.v`: C47_labels, C47_output, C47_area_refuted, C47_first_id, C47_min_area, C47_min_area_refuted, C60_foreach_segment, C60_seed_twice, C60_once_refuted
* `SexProperties.v`: C83_accepts, C83_sex2deg, C83_sign_refuted, C83_deg2sex, C83_round_trip, C83_lost_sign_refuted, C83_sixty_refuted, C83_tiny_refuted, C83_range_UB, C83_vec
* `Sha1Properties.v`: C34_sha1, C34_padding, C34_length, C34_hash, C34_boundaries_refuted
* `SphProperties.v`: C120_distance, C120_domain, C120_degrees, C120_symmetric, C120_zero, C120_triangle, C120_vectors, C120_vectors_checked, C120_point, C120_point_checked, C120_less, C120_less_refuted, C120_move, C120_move_meridian, C120_move_pole, C120_move_vec, C120_rotation, C120_isometry, C120_vernal, C120_vernal_refuted, C120_qdist, C120_qdist_refuted, C120_qdist_checked, C120_area, C120_area_checked, C120_area_refuted
* `SplineProperties.v`: C65_uniform, C65_unique, C65_value_unique, C65_uniform_node, C65_uniform_line, C65_uniform_far_UB, C65_nonuniform, C65_nonuniform_node, C65_equal_spacing, C65_nonuniform_refuted, C65_kink, C65_sizes, C65_sizes_uniform, C65_vec, C65_vec_uniform, C65_bicubic, C65_bicubic_node, C65_bicubic_exact, C65_bicubic_default, C65_bicubic_single_UB
* `StrProperties.v`: C28_split, C28_cut_at_unique, C28_round_trip, C28_split_collapse, C28_collapse, C28_empty_separator_diverges, C28_split_collapse_refuted, C29_replace, C29_identity, C29_split_collapse, C29_empty_pattern_diverges, C30_trim, C30_idempotent, C30_unchanged, C31_align_left, C31_align_right, C31_align_center, C32_distance, C32_zero, C32_symmetric, C32_triangle, C33_cut, C33_cut_exact, C33_cut_refuted, C33_cut_zero, C33_get_word, C33_get_word_from_end, C33_get_word_refuted, C55_split_any_of, C55_words_unique, C56_begins_with, C56_ends_with, C56_erase_begin, C56_erase_end, C56_counts, C57_replace_block, C57_empty_marks_diverge, C58_wrap, C58_wide_indent_refuted, C58_ellipsis_refuted
* `StrideProperties.v`: C68_visits, C68_visits_once, C68_lines_cover, C68_outside_refused, C68_distance, C68_iterator_laws, C68_column_end_refuted, C68_row_end_legal
* `TblProperties.v`: C110_write_read, C110_read_as, C110_refused, C110_types, C110_others, C110_wrong_rows, C110_missing, C110_remove, C110_remove_absent, C110_update, C110_scalar, C110_allocate, C110_create, C110_reopen, C110_duplicate_refuted, C110_one_column_refuted, C110_one_row_refuted, C110_empty_rows_abort, C110_update_only_refuted, C110_scalar_of_rows_refuted, C110_row_string_refuted, C110_blanks_refuted, C110_signs_refuted
* `TblProperties2.v`: C111_write, C111_read, C111_info, C111_read_block, C111_read_element, C111_places, C111_update_block, C111_update_element, C111_wrong_count, C111_bounds, C111_rows_abort, C111_bool_abort, C111_char_abort, C111_empty_abort, C111_overrun_refuted, C111_wrong_dims, C111_boolean
* `TfitProperties.v`: C88_fit, C88_best_renorm, C88_best_plain, C88_sim, C88_sizes_abort, C88_plain_flux_refuted
* `TimeProperties.v`: C79_time_str, C79_time_str_small, C79_zero_UB, C79_thousand_refuted, C79_seconds_str, C79_seconds_range_UB
* `TransfProperties.v`: C97_translate, C97_translate_whole, C97_identity_refuted, C97_scale, C97_scale_bicubic, C97_scale_zero_UB, C97_rotate, C97_rotate_bicubic, C97_rotate_single_UB, C97_quarter, C97_middle, C97_middle_refuted, C97_between, C97_translate_bicubic, C97_bispline_zero, C97_default_refuted, C97_spread_undefined, C97_thin
* `UnitProperties.v`: C103_flux, C103_lsun_roundtrip, C103_ujy_roundtrip, C103_mag_roundtrip, C103_flux_roundtrip, C103_absolute, C103_lsunmag_roundtrip, C103_cgs_roundtrip, C103_cgs, C103_cgs_refuted
* `UtestProperties.v`: C125_float, C125_exact, C125_nan_refuted, C125_small_refuted, C125_vectors, C125_dims_abort, C125_empty_refuted, C125_counts
* `VecProperties.v`: C06_fresh, C06_size_is_product, C06_move_assign_refuted, C06_overflow_refuted, C06_reform_overflow_refuted, C06_remove_repeated_refuted, C07_push_scalar, C07_push_slice, C07_push_accepts, C07_push_stops, C07_push_first, C07_push_empty_slice_refuted, C20_removes_rows, C20_past_the_end_stops, C20_row_check_refuted, C20_repeated, C21_append1, C21_prepend1, C21_append1_accepts, C21_self_append_refuted, C21_append_dim, C21_prepend_dim, C21_empty, C21_shape_check_refuted, C52_rectangular, C52_ragged_stops, C52_empty_first_refuted, C53_cartesian, C53_safe, C53_outside_stops, C53_reversed_refuted
* `ViewProperties.v`: C08_index_index, C08_view_view, C08_view_vec, C08_vec_view, C08_view_scalar, C08_stored_distinct, C08_size_mismatch, C08_const_vec_refuted, C08_const_view_refuted, C08_range_of_view_refuted, C09_view_view, C09_view_vec, C09_vec_view, C09_vec_vec, C09_view_scalar, C09_vec_scalar, C09_combined_distinct, C09_vec_scalar_refuted
* `WcshProperties.v`: C113_make, C113_texts, C113_ill_formed, C113_again, C113_naxes_refuted, C113_half_refuted, C113_matrix_refuted
* `WorkerProperties.v`: C38_in_order, C38_wait_complete, C38_wait_returns, C38_push_never_blocks
* `XbuckProperties.v`: C62_nearest, C62_mirror, C62_same_as_brute, C62_far_corner_refuted, C62_twice_refuted, C62_aligned_UB, C62_self_no_reverse, C62_sqrt_up
* `XmatchProperties.v`: C45_nearest, C45_unique, C45_mirror, C45_no_mirror, C45_threads, C45_thread_ties_refuted, C45_more_threads_than_sources, C45_missing_angular_refuted, C45_empty, C46_clean_best, C46_mutual_nearest, C46_unmatched_abort, C46_no_mirror_abort
* `XthreadProperties.v`: C87_same, C87_floor, C87_sizes, C87_idle_aborts
