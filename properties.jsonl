{"id": "C01", "title": "Integer ranges enumerate exactly the requested interval", "statement": "For bounds below 2^63: looping over range(n) visits 0,1,...,n-1 and looping over range(b,e) with b<=e visits b,b+1,...,e-1, each value once, in increasing order, and never visits e. (Documented as: the last value is excluded.) When e<b the loop instead visits the b-e values b,b-1,...,e+1, so range(b,e) is empty only for b=e; code that relies on range(1,v.size()) being empty for an empty v is wrong. For 64-bit bounds from 2^63 on the claim fails: range(0,npos) visits only 0, and other bounds overflow a signed integer.", "quantifier": "all unsigned 64-bit bounds b,e and counts n", "why_tests_cant": "The interval bounds are unbounded 64-bit values; tests only sample a few pairs and in practice only b<=e.", "anchors": ["include/vif/core/range.hpp: range_t, range(i,e), range(n), range(container)"]}
{"id": "C02", "title": "Signed subscripts behave like Python indices or stop the program", "statement": "Subscripting with a signed 64-bit integer i into a vector (or dimension) of length n never touches memory outside the vector: if i>=0 the element i is used when i<n and the program stops with an error otherwise; if i<0 the element (i mod n) in 0..n-1 is used; if n=0 the program always stops. For narrower signed index types (8/16/32 bit) the same holds whenever n is at most 2^(w-1); beyond that bound the wrap-around of the narrow type gives a wrong element (n=200, int8 index -1) or an endless loop (n=256).", "quantifier": "all index values, all lengths, all index widths", "why_tests_cant": "Errors depend on the relation between a length and the width of the index type; wrong results only appear for lengths above 127, 32767 or 2^31.", "anchors": ["include/vif/core/bits/access.hpp: to_idx_ (signed and unsigned)"]}
{"id": "C03", "title": "Multi-dimensional subscripts are row-major and collision free", "statement": "For a vector with dimensions d1..dk, v(i1,..,ik) with every ij<dj addresses the flat element i1*(d2*..*dk)+...+ik, which lies inside the storage; two different in-range subscript tuples address different elements and every flat element is addressed by exactly one tuple; a tuple with any component out of range stops the program instead of aliasing another element.", "quantifier": "all ranks, all dimensions, all subscript tuples", "why_tests_cant": "Injectivity and surjectivity quantify over all pairs of tuples of unbounded rank.", "anchors": ["include/vif/core/bits/access.hpp: pitch, vec_access scalar access", "include/vif/core/vec.hpp: to_idx, pitch, operator()"]}
{"id": "C04", "title": "flat_id and mult_ids are inverse of each other", "statement": "mult_ids(dims, flat_id(dims, ids)) = ids for every in-range multi-index and flat_id(dims, mult_ids(dims, i)) = i for every i below the number of elements. flat_id stops the program on an out-of-range multi-index. mult_ids does not detect an out-of-range flat index: it returns the multi-index of i modulo the number of elements, and it divides by zero when a dimension is zero.", "quantifier": "all ranks, dimension lists, flat indices and multi-indices", "why_tests_cant": "Round trip over an unbounded family of shapes.", "anchors": ["include/vif/utility/bits/generic-indices.hpp: mult_ids, flat_id"]}
{"id": "C05", "title": "increment_index_list walks every multi-index once, in memory order", "statement": "Starting from all-zero indices, after k calls the index list is the multi-index of flat element k (k below the number of elements), so a loop of that many calls visits every multi-index exactly once, and one more call returns to all zeros.", "quantifier": "all ranks, dimension lists and step counts", "why_tests_cant": "Needs induction on the number of steps with carries through an unbounded number of dimensions.", "anchors": ["include/vif/utility/bits/generic-indices.hpp: increment_index_list"]}
{"id": "C06", "title": "The size of a vector is always the product of its dimensions", "statement": "After any sequence of public shape-changing operations (construction by dimensions, from nested lists, copy, move construction, resize, clear, push_back of scalars or sub-vectors, append/prepend in any dimension, reform, flatten, transpose, inplace_remove with distinct indices), each vector's number of stored elements equals the product of its dims. Exceptions found in the code: move assignment leaves the moved-from vector with its old dims but no data (it is documented to become empty); dims whose product is a multiple of 2^64 are accepted with no storage; inplace_remove with repeated indices can reduce dims[0] more often than it removes rows.", "quantifier": "all finite operation sequences and all arguments", "why_tests_cant": "An invariant over all histories; unit tests exercise single operations from fresh vectors.", "anchors": ["include/vif/core/vec.hpp: constructors, operator=, resize, clear, push_back", "include/vif/core/bits/initializer_list.hpp", "include/vif/utility/bits/generic-dims.hpp: reform, flatten", "include/vif/utility/bits/generic-rearrange.hpp: inplace_remove, append, prepend"]}
{"id": "C07", "title": "push_back on multi-dimensional vectors appends one slice and keeps the others", "statement": "Pushing a (D-1)-dimensional vector t onto a non-empty D-dimensional vector v succeeds when t has the dimensions of v's slices; afterwards v(i,...) is unchanged for every old i, v(last,...) equals t, and dims[0] grew by one. With other dimensions the program stops. Pushing onto a vector without elements makes its shape 1 x dims(t) whatever its previous shape, so slices without elements are not counted.", "quantifier": "all ranks, shapes, contents and push sequences", "why_tests_cant": "Quantifies over all shapes and all histories of pushes.", "anchors": ["include/vif/core/vec.hpp: push_back"]}
{"id": "C08", "title": "Assigning through index views has no aliasing", "statement": "For v[a]=v[b], v[a]=v, v=v[b] (views taken directly from the non-const vector v) the result is as if the right-hand side had been copied to a temporary first: element a[k] receives the old value of element b[k] (the last k wins for repeated targets) and all other elements are unchanged. The documented guarantee 'aliasing never occurs' fails for two ways of building a view: when the right-hand side view comes from a const reference to the same vector, and when the left-hand side is a range-indexed view of a view.", "quantifier": "all vectors, all index vectors (including overlapping, repeated and permuting ones)", "why_tests_cant": "Depends on every overlap pattern of two index lists of unbounded length.", "anchors": ["include/vif/core/vec.hpp: vec<Dim,Type*>::operator=, assign_, view_same, vec::operator=(vec<D,T*>)", "include/vif/core/bits/access.hpp: bracket_access", "doc/sphinx/view.rst: Aliasing"]}
{"id": "C09", "title": "Compound assignment has no aliasing", "statement": "v op= w, v op= v[b] and v[a] op= v[b] combine each target element with the value its partner had before the statement; v[a] op= s with s an element of v uses the old value of s for all targets. The documented claim that scalar operands are always taken by value is false for plain vectors: v op= v[k] re-reads v[k] after it has been modified.", "quantifier": "all vectors, operators, index vectors and scalar positions", "why_tests_cant": "Depends on every overlap pattern; the failing case gives a plausible but wrong vector.", "anchors": ["include/vif/core/vec.hpp: OPERATOR macros for vec and view, compound operators", "doc/sphinx/view.rst: Aliasing"]}
{"id": "C10", "title": "Range subscripts select exactly the inclusive interval", "statement": "For one-dimensional (flat) range subscripts, v[a-_-b], v[a-_], v[_-b] and v[_] with a,b<n and a<=b+1 select the elements a..b (inclusive), a..n-1, 0..b and 0..n-1 in order; bounds outside the vector never yield a view (the program stops, or the allocation throws). A reversed range with a>b+1 inside the bounds is not diagnosed: the computed size wraps around 2^64 and the allocation throws std::length_error.", "quantifier": "all vector lengths and 64-bit bounds", "why_tests_cant": "The wrap-around outcome needs reasoning modulo 2^64 for all bounds.", "anchors": ["include/vif/core/range.hpp: check_bounds, range_size, placeholder operators", "include/vif/core/bits/access.hpp: bracket_access"]}
{"id": "C11", "title": "where, where_first, where_last and complement partition the indices", "statement": "where(m) lists exactly the flat indices whose value is true, in increasing order; where_first/where_last are its first/last entry or npos; complement(v,ids) lists in increasing order exactly the indices of v not occurring in ids (ids without duplicates), so where(m) and complement(m,where(m)) partition all indices. With duplicated ids whose count equals the size of v, complement wrongly returns nothing.", "quantifier": "all boolean vectors and index lists", "why_tests_cant": "Exactness in both directions for all lengths and contents.", "anchors": ["include/vif/utility/bits/generic-find.hpp: where, where_first, where_last, complement"]}
{"id": "C12", "title": "unique_ids / unique_values return each distinct value exactly once", "statement": "unique_ids(v) returns valid indices, pointing to pairwise different values in increasing order, covering every value of v, and pointing to the first occurrence of each value; unique_values(v) is the strictly increasing list of values of v; unique_ids_sorted does the same on already sorted input. For floating-point vectors containing NaN, every NaN is returned as a separate value.", "quantifier": "all vectors over a totally ordered element type", "why_tests_cant": "Set equality and minimality for all inputs, including many repeats.", "anchors": ["include/vif/utility/bits/generic-find.hpp: unique_ids, unique_ids_sorted, unique_values, unique_values_sorted", "include/vif/utility/bits/generic-rearrange.hpp: sort"]}
{"id": "C13", "title": "match pairs equal elements", "statement": "After match(v1,v2,id1,id2), id1 and id2 have the same length, all indices are valid and v1[id1[k]]==v2[id2[k]] for every k; if v1 and v2 have no repeated values every common value is paired exactly once. With repeated values, the small-input (below 64 elements) and large-input code paths return different pairings for the same values.", "quantifier": "all pairs of vectors", "why_tests_cant": "Two algorithms selected by size must agree on a contract; the disagreement only appears above 64 elements with repeats.", "anchors": ["include/vif/utility/bits/generic-find.hpp: match"]}
{"id": "C14", "title": "set_intersection and set_union compute the set operations", "statement": "On sorted inputs set_intersection_sorted/set_union_sorted return a sorted result in which each value occurs min/max as many times as in the inputs (so plain set operations on duplicate-free inputs); the unsorted versions do the same for arbitrary inputs.", "quantifier": "all pairs of vectors over a totally ordered type", "why_tests_cant": "Exact set characterisation for all inputs.", "anchors": ["include/vif/utility/bits/generic-find.hpp: set_intersection_sorted, set_union_sorted, set_intersection, set_union"]}
{"id": "C15", "title": "Binary searches agree with linear search on sorted vectors", "statement": "On a sorted vector, lower_bound(v,x) is the index of the last element <= x or npos, upper_bound(v,x) the first element > x or npos, bounds returns both, and equal_range(v,x) is the half-open index interval [first,second) of the elements equal to x (both ends equal the insertion point when there is none; the documentation promises npos). With an integer vector and a fractional argument the answer is right for x >= 0 and may be wrong for x < 0 because the argument is truncated.", "quantifier": "all sorted vectors (with repeats) and all x", "why_tests_cant": "Off-by-one behaviour at every boundary for all lengths.", "anchors": ["include/vif/utility/bits/generic-find.hpp: lower_bound, upper_bound, bounds, equal_range"]}
{"id": "C16", "title": "astar_find returns a nearest true cell", "statement": "astar_find(m,x,y) returns false iff m has no true cell; otherwise it terminates and returns a true cell whose 4-neighbour (Manhattan) distance to the start (clamped into the map) is minimal.", "quantifier": "all map shapes, contents and start positions", "why_tests_cant": "Optimality quantifies over all true cells of all maps.", "anchors": ["include/vif/utility/bits/generic-find.hpp: astar_find"]}
{"id": "C17", "title": "sort returns a stable sorting permutation", "statement": "sort(v) returns a permutation of 0..n-1 such that v[sort(v)] is non-decreasing with NaNs last, and equal elements keep their relative order; inplace_sort leaves the same multiset, sorted.", "quantifier": "all vectors, including NaN elements", "why_tests_cant": "Permutation + order + stability for all inputs.", "anchors": ["include/vif/utility/bits/generic-rearrange.hpp: sort, inplace_sort", "include/vif/core/bits/helpers.hpp: NaN-aware comparators"]}
{"id": "C18", "title": "is_sorted decides strictly increasing order", "statement": "For a non-empty vector is_sorted(v) is true iff every element is strictly smaller than its successor, so it is false on a sorted vector with repeated values (contrary to its documentation: is_sorted after inplace_sort can be false); on an empty vector it reads outside the data.", "quantifier": "all vectors", "why_tests_cant": "Exact characterisation for all inputs.", "anchors": ["include/vif/utility/bits/generic-rearrange.hpp: is_sorted"]}
{"id": "C19", "title": "reverse, shift and transpose are exact rearrangements", "statement": "reverse is an involution with reverse(v)[i]=v[n-1-i]; shift(v,n) is the circular rotation by n positions so shift(shift(v,n),-n)=v for non-empty v; transpose(v)(i,j)=v(j,i) and transpose(transpose(v))=v.", "quantifier": "all vectors, shapes and shift amounts", "why_tests_cant": "Holds for all lengths/shift values including those far beyond the length.", "anchors": ["include/vif/utility/bits/generic-rearrange.hpp: reverse, inplace_shift, shift, transpose"]}
{"id": "C20", "title": "inplace_remove deletes exactly the given rows", "statement": "For pairwise distinct valid first-dimension indices (in any order), inplace_remove(v,ids) leaves the remaining rows in order and dims[0] reduced by the number of ids; an id at or past the size of v stops the program. The bound check uses the total size rather than dims[0], so for multi-dimensional v an id in [dims[0],size) reaches undefined behaviour.", "quantifier": "all vectors, ranks and id lists", "why_tests_cant": "All subsets in all orders; failure depends on the relation between dims[0] and size.", "anchors": ["include/vif/utility/bits/generic-rearrange.hpp: inplace_remove, remove"]}
{"id": "C21", "title": "append and prepend concatenate along the chosen dimension", "statement": "For 1-D vectors append(v,t) is v followed by t and prepend is t followed by v. For N-th dimension append of shapes agreeing on the other dimensions, element (..,i,..) of the result is that of v for i below v's old extent and that of t shifted otherwise. Shapes that only agree in total size per slice are accepted although they disagree on individual dimensions.", "quantifier": "all shapes and contents", "why_tests_cant": "Quantifies over shapes; the missing shape check only shows for special factorizations.", "anchors": ["include/vif/utility/bits/generic-rearrange.hpp: append, prepend"]}
{"id": "C22", "title": "Reductions along a dimension see each element exactly once", "statement": "partial_X(d,v) for a reduction X applies X to the slice obtained by fixing all other subscripts, in order; each element of v belongs to exactly one slice; in particular summing partial_total over its result equals total(v).", "quantifier": "all ranks, dimensions d, shapes and contents", "why_tests_cant": "Stride arithmetic must be right for every rank and dimension.", "anchors": ["include/vif/math/reduce.hpp: run_index_, run_dim_final_, reduce, partial_*"]}
{"id": "C23", "title": "median and percentile return the requested order statistic", "statement": "For a vector without NaN, median(v) is the element of rank floor(n/2) of the sorted vector and percentile(v,u) the element of rank clamp(floor(n*u),0,n-1); NaNs are ignored by median. percentile(v,1.0) on data containing NaN returns NaN instead of the largest finite value.", "quantifier": "all vectors and all u", "why_tests_cant": "nth_element based selection for all inputs; the NaN clamp error needs NaN plus extreme u.", "anchors": ["include/vif/math/reduce.hpp: median, inplace_median, inplace_percentile, percentile"]}
{"id": "C24", "title": "min, max and their indices agree", "statement": "min_id/max_id return the first index of a smallest/largest element, min/max its value, and minmax/minmax_ids return both; minmax_ids picks the last largest element where max_id picks the first.", "quantifier": "all non-empty vectors", "why_tests_cant": "Tie-breaking for all inputs.", "anchors": ["include/vif/math/reduce.hpp: min_, max_, minmax_, min_id, max_id, minmax_ids"]}
{"id": "C25", "title": "Trapezoid integration is additive and exact on linear functions", "statement": "integrate(x,y) over increasing x is the trapezoid sum: it is exact for linear y, additive when the grid is split at a node, and linear in y; cumul(x,y) gives its running values, so its last value equals integrate(x,y).", "quantifier": "all grids of at least one point and all values (exact arithmetic)", "why_tests_cant": "Algebraic laws over all grids.", "anchors": ["include/vif/math/reduce.hpp: integrate, cumul"]}
{"id": "C26", "title": "Histogram counts each value once", "statement": "With contiguous increasing bins (as built by make_bins), histogram(v,bins)[b] is the number of values in [lower_b, upper_b); each value is counted in at most one bin, the total equals the number of values inside the overall range and weighted histograms sum the corresponding weights.", "quantifier": "all data vectors and all contiguous bin sets", "why_tests_cant": "Conservation over all inputs including values on bin edges.", "anchors": ["include/vif/math/histogram.hpp: make_bins, histogram, in_bin"]}
{"id": "C27", "title": "cumul and cumul_reverse are prefix and suffix sums", "statement": "cumul(v)[i] is the sum of v[0..i]. cumul_reverse(v)[i] should be the sum of v[i..n-1] but the code returns v[i]+v[i+1].", "quantifier": "all vectors", "why_tests_cant": "The error disappears for vectors of at most two elements.", "anchors": ["include/vif/math/histogram.hpp: cumul, cumul_reverse"]}
{"id": "C28", "title": "split and collapse are inverse", "statement": "For a non-empty separator, collapse(split(s,sep),sep)=s for every s, no piece contains the separator, and split(collapse(w,sep),sep)=w for a non-empty list w of pieces when no separator occurs in the joined text except at the joints; an empty separator never terminates.", "quantifier": "all strings and separators", "why_tests_cant": "Round trip over all strings including overlapping occurrences.", "anchors": ["include/vif/utility/bits/string-split.hpp: split, collapse"]}
{"id": "C29", "title": "replace substitutes every occurrence left to right", "statement": "For a non-empty pattern, replace(s,pat,rep) = the pieces of s between non-overlapping left-to-right occurrences of pat, joined by rep; it terminates even when rep contains pat, and is the identity when pat does not occur or rep=pat; an empty pattern never terminates.", "quantifier": "all strings, patterns and replacements", "why_tests_cant": "Termination and exactness for all strings.", "anchors": ["include/vif/utility/bits/string-find-replace.hpp: replace"]}
{"id": "C30", "title": "trim removes exactly the outer characters", "statement": "trim(s,chars) is the middle part m of s = a ++ m ++ b with a and b made only of chars and m empty or beginning and ending with characters not in chars; trim is idempotent.", "quantifier": "all strings and character sets", "why_tests_cant": "All strings, including all-blank and empty ones where the code relies on unsigned wrap-around.", "anchors": ["include/vif/utility/bits/string-find-replace.hpp: trim"]}
{"id": "C31", "title": "align_left/right/center pad to the requested width", "statement": "The result has length max(width, length of s), contains s unchanged, and all other characters are the fill character, placed on the documented side.", "quantifier": "all strings, widths and fill characters", "why_tests_cant": "All widths relative to the length.", "anchors": ["include/vif/utility/bits/string-format.hpp: align_left, align_right, align_center"]}
{"id": "C32", "title": "String distance is a metric", "statement": "distance(a,b)=0 iff a=b, it is symmetric, and satisfies the triangle inequality.", "quantifier": "all triples of strings", "why_tests_cant": "Triangle inequality over all triples.", "anchors": ["include/vif/utility/bits/string-base.hpp: distance"]}
{"id": "C33", "title": "cut and get_word return the requested pieces", "statement": "cut(s,n) should return the consecutive pieces of n characters whose concatenation is s; the code drops the trailing partial piece, so concatenation yields only the first n*floor(len/n) characters. get_word(s,k,sep) should return the k-th separated word; the code returns an empty string when the word is the whole string.", "quantifier": "all strings, sizes and word indices", "why_tests_cant": "Losing data only for lengths not divisible by n / single-word strings.", "anchors": ["include/vif/utility/bits/string-split.hpp: cut", "include/vif/utility/bits/string-find-replace.hpp: get_word"]}
{"id": "C34", "title": "The SHA-1 digest follows FIPS 180", "statement": "The digest used by hash() equals SHA-1 as specified by FIPS 180-4 (padding, schedule, 80 rounds, big-endian output) for every byte string shorter than 2^28 bytes.", "quantifier": "all byte strings of length below 2^28", "why_tests_cant": "Padding has a distinct case for each length modulo 64; tests check a few strings.", "anchors": ["include/vif/utility/bits/string-hash.hpp: impl::sha1, hash"]}
{"id": "C35", "title": "A path splits into directory and base name", "statement": "For a path not ending in '/', get_directory(p)+get_basename(p)=p up to the './' prefix used when there is no directory; remove_extension(p)+get_extension(p)=p for every p; directorize is idempotent and its result is empty or ends with '/'.", "quantifier": "all strings used as paths", "why_tests_cant": "All placements of '/' and '.'.", "anchors": ["include/vif/io/filesystem.hpp: get_basename, get_directory, remove_extension, get_extension, split_extension, directorize"]}
{"id": "C36", "title": "The lock-free queue is a FIFO for one producer and one consumer", "statement": "Under every interleaving of one pushing thread and one popping thread, the sequence of popped values is a prefix of the sequence of pushed values, in order, without loss or duplication; pop fails only when the queue was empty, and empty()/size() called by the consumer never report more than what is present.", "quantifier": "all interleavings and all operation sequences of the two threads (sequentially consistent memory)", "why_tests_cant": "Interleavings are unbounded; races hide from tests.", "anchors": ["include/vif/utility/bits/thread-queue.hpp: lock_free_queue::push, pop, empty, size"]}
{"id": "C37", "title": "The lock-free queue never touches freed memory and leaks nothing", "statement": "Under every interleaving of one producer and one consumer no node is read or freed after it has been freed, and after both finished, clear()/destruction frees every node ever allocated exactly once.", "quantifier": "all interleavings and operation sequences", "why_tests_cant": "Use-after-free depends on exact interleavings of reclaim and pop.", "anchors": ["include/vif/utility/bits/thread-queue.hpp: push (reclamation loop), pop, clear, ~lock_free_queue"]}
{"id": "C38", "title": "A worker runs each pushed job exactly once, in order, before wait returns", "statement": "For the single background worker: in every execution, jobs run in push order, none twice, and when wait() returns all pushed jobs have been run.", "quantifier": "all interleavings of the pushing thread and the worker thread", "why_tests_cant": "Shutdown races (stop flag versus last push) cannot be sampled.", "anchors": ["include/vif/utility/bits/thread-worker.hpp: worker::push, wait, consume_loop_"]}
{"id": "C39", "title": "A worker pool processes every item exactly once when drained before joining", "statement": "Items given to process() are distributed round-robin; after consume_all() followed by join() every item has been processed exactly once; join() alone may lose pending items.", "quantifier": "all schedules, worker counts and item sequences", "why_tests_cant": "Lost items depend on the schedule.", "anchors": ["include/vif/utility/bits/thread-worker-pool.hpp: worker_pool::process, consume_all, join, worker loops"]}
{"id": "C40", "title": "parallel_for runs the body once per index", "statement": "parallel_for over [0,n) with at least two chunks runs f(i) exactly once for each i in 0..n-1 under every schedule and finishes; for a non-zero first index, or a single worker, the code runs the wrong set of indices.", "quantifier": "all n, worker counts, chunk sizes and schedules", "why_tests_cant": "Chunk arithmetic for all n/worker/chunk combinations and all schedules.", "anchors": ["include/vif/utility/bits/thread-parallel-for.hpp: query_chunk, execute"]}
{"id": "C41", "title": "Linear interpolation is the piecewise linear function through the nodes", "statement": "For strictly increasing nodes, interpolate(y,x,nx) equals y[i] at node x[i], lies on the segment between the neighbouring nodes inside the range, and extends the first/last segment outside; vector and scalar versions agree; it is exact for linear data.", "quantifier": "all node sets of at least two points and all abscissae (exact arithmetic)", "why_tests_cant": "All positions, including exactly on nodes and outside the range.", "anchors": ["include/vif/math/interpolate.hpp: interpolate (scalar, vector, point)"]}
{"id": "C42", "title": "The convex hull contains all points and membership is decided exactly", "statement": "build_convex_hull returns a closed counter-clockwise chain of input points such that every input point lies on the left of (or on) every hull edge; unless all points are aligned the chain turns strictly left at every vertex, no vertex is repeated, and in_convex_hull accepts exactly the points of the convex hull; in_convex_hull accepts every input point; the vector version agrees with the scalar one; strictly convex closed polygons of either orientation given by the user are handled alike. Findings: no points is undefined behaviour; one point or aligned points accept points outside the hull; a polygon with its first three vertices aligned gets the wrong orientation; polygons of integers are never recognised as closed.", "quantifier": "all finite point sets, exact coordinates, every implementation of std::sort", "why_tests_cant": "Geometric containment for all point sets including collinear and duplicated points.", "anchors": ["include/vif/math/convex_hull.hpp: convex_hull::validate, build_convex_hull, in_convex_hull"]}
{"id": "C43", "title": "LU decomposition solves the linear system", "statement": "If decompose reports success, A is invertible, solve(b) returns the unique x with A x = b, invert() returns A^-1 and determinant() returns det A (exact arithmetic, row pivoting). With pivoting decompose succeeds exactly for invertible matrices, and the free functions determinant, invert and solve are right for every square matrix; other dimensions are rejected. invert() without pivoting returns a wrong matrix.", "quantifier": "all square matrices of any size and right-hand sides over a field (an ordered field for success)", "why_tests_cant": "Algebraic identity for all sizes and all pivot sequences.", "anchors": ["include/vif/math/bits/matrix-functions.hpp: decompose_lu, determinant, invert, solve"]}
{"id": "C44", "title": "Cholesky decomposition reproduces the matrix", "statement": "On a symmetric matrix the decomposition succeeds exactly if the matrix is positive definite; then L is lower triangular with positive diagonal and L L^T is the matrix. solve, invert, lower_inverse, lower_determinant and the two substitutions return the solution, A^-1, L^-1, det L and the solutions of L x = b and L^T x = b.", "quantifier": "all symmetric matrices of any size (exact real arithmetic, implementation without LAPACK)", "why_tests_cant": "Algebraic identity for all sizes; success for exactly the positive definite matrices quantifies over all vectors.", "anchors": ["include/vif/math/bits/matrix-functions.hpp: decompose_cholesky, inplace_symmetrize"]}
{"id": "C45", "title": "Brute-force cross matching returns the n nearest neighbours in order", "statement": "For each source of the first catalogue the brute-force cross match lists the nth nearest sources of the second one with their distances, by increasing distance and by increasing index at equal distances, never the source itself in self mode; missing neighbours are npos. For each source of the second catalogue the reverse match is at the smallest distance. Matches, distances and reverse distances do not depend on the number of threads. Not true as one would expect: the reverse match at equal distances depends on the number of threads, the distance of a missing neighbour is NaN in angular mode, and more threads than sources stop the program.", "quantifier": "all catalogues, distances, nth, numbers of threads, self/no_mirror/linear modes", "why_tests_cant": "Insertion into a bounded sorted list and the merge of the threads must be right for all distance sequences.", "anchors": ["include/vif/astro/qxmatch.hpp: qxmatch (brute force)"]}
{"id": "C46", "title": "xmatch_clean_best keeps a one-to-one matching", "statement": "The pairs returned by xmatch_clean_best use every source of either catalogue at most once and consist exactly of the pairs matched in both directions (mutual nearest neighbours after a brute-force match), and lost lists the other sources of the first catalogue. A source without any match, or a result computed with no_mirror, stops the program.", "quantifier": "all match results", "why_tests_cant": "Uniqueness over all pairs.", "anchors": ["include/vif/astro/qxmatch.hpp: xmatch_clean_best"]}
{"id": "C47", "title": "segment labels exactly the connected components", "statement": "segment(map) gives label 0 exactly to zero pixels and gives two non-zero pixels the same label iff they are connected by a 4-neighbour path of non-zero pixels; labels are consecutive from first_id, and each output entry has as origin the first pixel of its segment. The reported area should be the number of pixels but is one plus the number of pairs of neighbouring pixels (a 2x2 block reports 5). min_area should remove the segments with fewer pixels, but when it acts a segment of k>1 pixels counts for k+1.", "quantifier": "all maps", "why_tests_cant": "Reachability over all shapes; area errors only for segments containing a cycle.", "anchors": ["include/vif/astro/image.hpp: segment"]}
{"id": "C48", "title": "mask_inflate dilates by Manhattan distance", "statement": "mask_inflate(m,d) is true exactly at the pixels within Manhattan distance d of a true pixel of m.", "quantifier": "all masks and distances", "why_tests_cant": "Set equality over all masks; the implementation only grows from edge pixels.", "anchors": ["include/vif/astro/image.hpp: mask_inflate"]}
{"id": "C49", "title": "subregion maps the overlap of region and image", "statement": "subregion(v,reg) returns the region with every pixel inside the image copied from v and every other pixel equal to the default; the two index lists enumerate exactly the overlapping pixels once; enlarge and shrink are inverse for non-empty images: shrink(enlarge(v,u),u)=v; recenter with new dimensions shows the part around the given pixel. A region turned inside out (upper corner below the lower one) gives an object whose dimensions do not match its data.", "quantifier": "all images, regions (possibly outside the image) and paddings", "why_tests_cant": "All relative positions of a region and an image.", "anchors": ["include/vif/astro/image.hpp: subregion, enlarge, shrink, recenter"]}
{"id": "C50", "title": "Integer translation moves every pixel", "statement": "translate_integer(v,dx,dy) has pixel (x,y) equal to v(x-dx,y-dy) when that lies in the image and the default otherwise, for |dx|,|dy| below the dimensions; for larger shifts the code reduces the shift modulo the dimension and keeps data that should have left the image; shift is the circular version and flip_x/flip_y are involutions.", "quantifier": "all images and shifts", "why_tests_cant": "Failure only for shifts at least as large as the image.", "anchors": ["include/vif/astro/image.hpp: inplace_translate_integer, inplace_shift, flip_x, flip_y"]}
{"id": "C51", "title": "convolve2d_naive is the discrete convolution with zero padding", "statement": "For an odd-sized kernel whose half-size h does not exceed the image, convolve2d_naive(map,kernel)(p) = sum over the kernel's pixels k, row by row, of map(p-k+h)*kernel(k) with map zero outside; an even-sized kernel is refused; a kernel whose half-size exceeds an image dimension runs out of the arrays.", "quantifier": "all images and kernels (any arithmetic in which zero is neutral and absorbing)", "why_tests_cant": "Index arithmetic for all relative sizes.", "anchors": ["include/vif/astro/image.hpp: convolve2d_naive"]}
{"id": "C52", "title": "Nested initializer lists fill a vector in reading order or stop the program", "statement": "A rectangular nested list of depth D gives a D-dimensional vector with those extents whose elements are the list elements in reading order; a list that is not rectangular stops the program. Exception found in the code: when the first inner list is empty, all following data are silently dropped.", "quantifier": "all depths, all nested lists", "why_tests_cant": "Quantifies over all depths and shapes of nested lists; the data loss needs an empty first list.", "anchors": ["include/vif/core/bits/initializer_list.hpp: ilist_t", "include/vif/core/vec.hpp: constructor from nested_initializer_list"]}
{"id": "C53", "title": "Multi-dimensional subscripts select the Cartesian product", "statement": "v(s1,...,sD) with scalars, ranges and index lists as subscripts is a view whose extents are those of the non-scalar subscripts and whose elements, in row-major order, are those at the Cartesian product of the selected indices; the view never refers to memory outside the vector whatever the subscripts, and a subscript outside its dimension never yields a view. Exception found in the code: several reversed ranges can combine to a view claiming (2^64-1)^2 elements with one pointer.", "quantifier": "all ranks, shapes and combinations of subscripts", "why_tests_cant": "Combinations of subscript kinds over unbounded rank and extents.", "anchors": ["include/vif/core/bits/access.hpp: helper_::access_, make_indices_", "include/vif/core/range.hpp"]}
{"id": "C54", "title": "is_any_of marks exactly the elements occurring in the other vector", "statement": "is_any_of(v1,v2) has one boolean per element of v1, true iff the element equals some element of v2.", "quantifier": "all pairs of vectors and any element equality", "why_tests_cant": "Exactness in both directions for all contents.", "anchors": ["include/vif/utility/bits/generic-find.hpp: is_any_of"]}
{"id": "C55", "title": "split_any_of returns exactly the words of a string", "statement": "split_any_of(s, chars) returns, in order, exactly the maximal non-empty runs of characters of s that are not in chars: no empty word is ever produced, leading and trailing separators are ignored, no word contains a separator character, and this decomposition is unique. It terminates for every string and every set of separators (including the empty set, for which the whole non-empty string is one word).", "quantifier": "all strings s and all character sets chars", "why_tests_cant": "The loop alternates two searches whose results are npos in many combinations (string starting/ending with separators, only separators, empty string); tests only sample these.", "anchors": ["include/vif/utility/bits/string-split.hpp: split_any_of"]}
{"id": "C56", "title": "begins_with / ends_with / erase_begin / erase_end / keep_first / keep_last", "statement": "begins_with(s,p) is true exactly when s = p + b for some b, ends_with(s,p) exactly when s = a + p; erase_begin(s,p) and erase_end(s,p) return that b or a, and abort with an error message when there is none. erase_begin(s,n), erase_end(s,n), keep_first(s,n), keep_last(s,n) drop or keep min(n, s.size()) characters; none of them ever reads outside of the string.", "quantifier": "all strings s, p and all counts n", "why_tests_cant": "Index arithmetic on unsigned sizes (s.size() - p.size()) must be guarded for every pair of lengths, including p longer than s.", "anchors": ["include/vif/utility/bits/string-find-replace.hpp: begins_with, ends_with, erase_begin, erase_end", "include/vif/utility/bits/string-base.hpp: keep_first, keep_last"]}
{"id": "C57", "title": "replace_block converts each delimited block once, from left to right", "statement": "replace_block(s, begin, end, f) returns s in which each block (leftmost begin, then the leftmost end after it) is replaced, delimiters included, by f(contents), all text outside of blocks being kept; it aborts with an error exactly when a begin mark has no end mark after it, and it terminates unless both marks are empty.", "quantifier": "all strings s, all marks, all conversion functions f", "why_tests_cant": "The result of f may itself contain marks (it must not be rescanned), and marks can overlap or be equal; the space of such inputs is unbounded.", "anchors": ["include/vif/utility/bits/string-find-replace.hpp: replace_block"]}
{"id": "C58", "title": "wrap keeps all the words and respects the width", "statement": "wrap(s, width, indent) without ellipsis terminates for every input and returns lines (the first one bare, the next ones preceded by indent) whose words, concatenated, are exactly the words of s in order; every line fits in width characters, indent included, or contains no space at which it could have been broken, provided the indent is not longer than the width.", "quantifier": "all strings s, widths and indents", "why_tests_cant": "Termination and loss of text depend on the interplay of backward search, forward search and trimming, for every position of the spaces.", "anchors": ["include/vif/utility/bits/string-split.hpp: wrap"]}
{"id": "C59", "title": "boxcar applies its function to the clipped window", "statement": "boxcar(img,h,f) has at every pixel f of the list of the pixels of img in the (2h+1)x(2h+1) window around it clipped to the image, row by row, as long as h does not exceed the dimensions; with a larger h the clipping bound wraps around and pixels outside the image are read.", "quantifier": "all images, window sizes and functions", "why_tests_cant": "Edge clipping for all positions; the failure needs a window larger than the image.", "anchors": ["include/vif/astro/image.hpp: boxcar"]}
{"id": "C60", "title": "foreach_segment visits exactly the pixels of each segment", "statement": "For seeds of distinct non-zero label, foreach_segment calls the function with the seed followed by the pixels of the seed's connected segment that have a neighbour in it, once each: every pixel is visited, and the seed is listed twice as soon as the segment has two pixels.", "quantifier": "all segmentation maps and seeds", "why_tests_cant": "Reachability over all shapes; the duplicate only matters to functions that count.", "anchors": ["include/vif/astro/image.hpp: foreach_segment"]}
{"id": "C61", "title": "Matrix products, diagonals and plane transformations", "statement": "operator* of matrices and vectors is the matrix product (wrong dimensions are rejected); diagonal, as_diagonal and make_identity address exactly the diagonal; make_scale, make_translation and make_rotation map the point (x,y,1) as their names say.", "quantifier": "all matrices and vectors of any dimensions over a ring", "why_tests_cant": "Index arithmetic on three nested loops for all (rectangular) dimensions.", "anchors": ["include/vif/math/bits/matrix-types.hpp: operator*", "include/vif/math/bits/matrix-functions.hpp: diagonal, as_diagonal, make_*"]}
{"id": "C62", "title": "Bucket cross matching finds the nearest neighbour within its reach", "statement": "The default (bucket) cross match in linear mode ends, returns for each source of either catalogue only sources of the other one with their true distance, and the first match is the nearest neighbour (same distance as brute force) if the field has at most six buckets in each direction or if a source lies within max(nx, ny) - 1.5 buckets. Not true as one would expect: in larger fields a source in the opposite corner is not found at all; with nth >= 2 a neighbour in the same row or column of buckets is listed twice; a second catalogue without extent in x or y gives undefined behaviour; in self mode the reverse matches are not computed.", "quantifier": "all catalogues, all square root implementations accurate to ten percent", "why_tests_cant": "The stopping rule of the search must be safe for every position of the sources relative to the buckets.", "anchors": ["include/vif/astro/qxmatch.hpp: qxmatch (buckets), depth_cache"]}
{"id": "C63", "title": "Element-wise operators act on corresponding elements", "statement": "For operands that are vectors or views, v op u (op among + - * / %, the comparisons, && and ||), v op s, s op v, -v and !v return a new vector of the same shape whose element i is the scalar operator applied to elements i in the right order; a shape mismatch stops the program, and an undefined scalar operation (integer division by zero or overflow) makes the whole statement undefined. Expressions that reuse a temporary operand give the same value and leave the temporary empty, provided that the other operand does not point into it: std::move(v)+v[ids] and std::move(v)*v[k] read elements already overwritten. Printing gives {a, b, c}.", "quantifier": "all vectors, views, scalars, operators and overloads", "why_tests_cant": "Fifteen operators with eight overloads each, over every combination of shapes, views and aliasing.", "anchors": ["include/vif/core/bits/operators.hpp: VECTORIZE macros, operator !, operator <<", "include/vif/core/vec.hpp: unary operator -"]}
{"id": "C64", "title": "Vectorized functions call the scalar function once per element", "statement": "Functions made with VIF_VECTORIZE, VIF_VECTORIZE2, vectorize_lambda and vectorize_lambda_first return the vector of the calls on the elements i (scalar arguments are repeated), in order; vector arguments of different dimensions stop the program; functions without return value receive references to the elements. vectorize_lambda_first moves a temporary argument into the first call only. same_dims_or_scalar only compares numbers of elements and accepts anything after an empty first vector; same_size does not compare sizes at all.", "quantifier": "all functions, argument lists and vectors or views", "why_tests_cant": "Argument lists mix scalars, vectors and views in any number and position.", "anchors": ["include/vif/core/bits/vectorize.hpp", "include/vif/core/bits/helpers.hpp: same_size, same_dims_or_scalar"]}
{"id": "C65", "title": "Cubic interpolation is the natural cubic spline through the data", "statement": "interpolate_3spline(y, t) evaluates the natural cubic spline through (i, y[i]): one cubic per interval, passing through all data, with continuous first and second derivatives, zero second derivative at both ends and straight continuations outside; that curve is unique, so data are returned at the nodes and straight lines everywhere. With explicit increasing nodes the pieces pass through the data with a continuous second derivative, and the curve is the natural spline when the nodes are equally spaced; otherwise the slope has a jump (y[i]-y[i-1])(1/h[i-1]-1/h[i]) at node i. Data of unequal size or with fewer than two points are refused; the vector versions are the scalar ones element by element. bicubic_strict returns the pixel values at inner pixels, is exact for bilinear maps and returns the default outside the inner cells.", "quantifier": "all data, increasing nodes and positions", "why_tests_cant": "Smoothness at every node and uniqueness are statements about all real positions; tests on equally spaced nodes do not see the jump.", "anchors": ["include/vif/math/interpolate.hpp: interpolate_3spline, impl::interpolate_3spline_make_coefs, bicubic_strict"]}
{"id": "C66", "title": "Bilinear interpolation and rebinning of maps", "statement": "bilinear(map, x, y) is the bilinear patch through the four pixels around (x, y), or through the outermost four outside: it returns pixels exactly, reproduces a + bx + cy + exy everywhere and stays between the extreme pixel values inside the map; with increasing axes mx and my the same holds in axis coordinates. bilinear_strict returns the same for 0 <= x < dims[0]-1, 0 <= y < dims[1]-1 and the default elsewhere. rebin(map, mx, my, x, y) has pixel (i, j) equal to the map at (x[i], y[j]). Axes of the wrong size are refused; maps with a single line or column are read out of bounds.", "quantifier": "all maps, axes and positions", "why_tests_cant": "All cells, positions on and outside the borders, and degenerate dimensions.", "anchors": ["include/vif/math/interpolate.hpp: bilinear, bilinear_strict, rebin"]}
{"id": "C67", "title": "Generated ranges, clamp and sign", "statement": "rgen(i,j,n) for n >= 2 lists n equally spaced values starting at i and ending at j (increasing or decreasing), {i} for n = 1, nothing for n = 0. rgen_step(i,j,s) refuses s <= 0, is {i} for i = j, and otherwise starts at i, advances by s towards j without passing it and ends at j exactly; its last step is in [s/2, 3s/2) with a floating point argument and in [s, 2s) with integers, or shorter if no step fits. clamp(t,a,b) returns a below a, b above b, t in between. sign is 1 from zero up, -1 below. Unsigned decreasing ranges and clamp with mixed types are findings.", "quantifier": "all ends, counts, steps and values of floating point, signed and unsigned types whose differences fit", "why_tests_cant": "Rounding of the number of steps, wrap-around of unsigned differences and conversions between types depend on the values and types.", "anchors": ["include/vif/math/base.hpp: rgen, rgen_step, clamp, sign"]}
{"id": "C68", "title": "Strided traversal of one dimension", "statement": "Iterating over v.stride(i, ..., _, ..., k), with one placeholder, visits the elements v(i, ..., j, ..., k) for j = 0, 1, ..., d-1 in this order, each once, and stops; the lines along a dimension partition the vector. Fixed indices outside their dimension stop the program. end - begin is d, advancing and going back cancel, and iterators are ordered as their indices. The end iterator of a column other than the first points past the end of the storage, which std::vector does not allow (finding).", "quantifier": "all numbers of dimensions, sizes, positions of the placeholder and fixed indices", "why_tests_cant": "All shapes and placeholder positions, including empty dimensions; the position of the end iterator is not observable in a normal run.", "anchors": ["include/vif/core/bits/access.hpp: get_stride_offset_, strided_range", "include/vif/core/bits/iterator.hpp: strided_iterator_policy", "include/vif/core/iterator_base.hpp"]}
{"id": "C69", "title": "Convolution of sampled functions", "statement": "convolve(x, y1, y2)[k] is the sum over i of y1[i] dx[i] y2(x[k]-x[i]), where y2 is the piecewise linear function through its samples extended by its end segments, and dx[i] is the distance to the previous sample; it is linear in y1 and exact for affine kernels. Different sizes and fewer than four samples are refused. The kernel is extrapolated, so that non-negative inputs can give negative results (finding).", "quantifier": "all increasing axes and samples", "why_tests_cant": "Non-uniform axes and the extrapolated part of the kernel contribute to every output value.", "anchors": ["include/vif/math/transform.hpp: convolve"]}
{"id": "C70", "title": "Reading ASCII tables", "statement": "read_table ignores blank lines and, with auto_skip, lines that start with the skip pattern; drops trailing carriage returns and the first skip_first used lines; splits each remaining line in fields (words, or pieces between single delimiters) and stores field j of line i in the element given by the order of the arguments, columns(m, ...) being interleaved. All the vectors get one row per line. A missing or unreadable field and several rows for a scalar are errors. Except when n*m overflows, no file, format or argument list gives undefined behaviour. Findings: with delim_single a line with an empty first field gives empty strings for all its fields; skip_first larger than the file wraps around; columns(m, ...) with n*m = 2^64 writes out of bounds; an empty skip pattern ignores unindented lines.", "quantifier": "all file contents, formats, argument lists and parsers", "why_tests_cant": "Files are unbounded and the interplay of delimiters, skipped lines and column groups cannot be enumerated.", "anchors": ["include/vif/io/ascii.hpp: read_table, line_splitter_t"]}
{"id": "C71", "title": "Writing ASCII tables and round trips", "statement": "write_table writes the header and one line per row, with the cells padded to the width of their column and separated by the delimiter; with auto_width the widths are the smallest that fit everything and all the lines have the same length. Tables written with blanks (cells non-empty and without blanks) or as CSV (cells without commas, first cell visible) are read back with the same content. A header of the wrong size is refused. Findings: different column sizes throw an exception that is not caught; an empty first column is read out of bounds; columns(m, v) does not check m.", "quantifier": "all tables and formats", "why_tests_cant": "Alignment and round trips must hold for every table, including wide cells, empty fields and grouped columns.", "anchors": ["include/vif/io/ascii.hpp: write_table"]}
{"id": "C72", "title": "linfit and linfit_pack: weighted linear least squares", "statement": "linfit(y, ye, x1, x2, ...) with y a vec, errors without 0, and errors and models that are vecs of the same dims or scalars: success is true exactly when the models are linearly independent; then the parameters are the only minimum of chi2 = sum((sum_i a_i x_i - y)/e)^2, chi2 is the value there, the covariance is the inverse of the curvature matrix and the errors are the square roots of its diagonal. Otherwise chi2, parameters and errors are NaN. Exact data give back the exact parameters with chi2 0. linfit_pack(y, ye, x) is linfit() with the rows x(i,_). Sizes that do not match are refused. Finding: with a scalar error the dims of the models are not compared, only their sizes.", "quantifier": "all dims, data, errors (non-zero) and lists of models, over every real closed field", "why_tests_cant": "Optimality and uniqueness compare the result with all the other parameters, and success must follow linear independence for every set of models.", "anchors": ["include/vif/math/linfit.hpp: linfit, linfit_pack, impl::linfit_do_, impl::linfit_make_alpha_beta_, impl::linfit_make_cache_"]}
{"id": "C73", "title": "linfit_batch: repeated fits with changing models", "statement": "After any sequence of update_model, update_models, fit and fit_nochi2 on a linfit_batch object, fit(y) gives the success flag, chi2, parameters, errors and covariance that linfit() gives for the current models; fit_nochi2 gives the same but for chi2, which it leaves. linfit_pack_batch is linfit_batch on the rows. An index of a model that does not exist is refused. Findings: update_model reads too short models past their end; update_chi2 before any fit reads an empty vec; linfit_pack_batch reads rows that are too short past their end; a batch with a scalar error refuses all vec models with other than one element.", "quantifier": "all sequences of calls, all dims, data, errors and models", "why_tests_cant": "The incremental update of one row and column of the matrix must agree with a full recomputation after every history of calls.", "anchors": ["include/vif/math/linfit.hpp: linfit_batch_t, linfit_batch, linfit_pack_batch"]}
{"id": "C74", "title": "linfit_nn: non-negative linear fits", "statement": "When no two models are anti-correlated and each model overlaps with one that is correlated with the data, linfit_nn gives, for any number of iterations and any tolerance, finite parameters that are positive for the models correlated with the data and 0 for the others, with their chi2, which is not larger than the one of the first guess. With tolerance 0, parameters that one more iteration does not change are the best of all those that are not negative. linfit_nn_pack is linfit_nn on the rows. Findings: success is always false; a model that overlaps with no model correlated with the data makes parameters and chi2 NaN; anti-correlated models can give negative parameters.", "quantifier": "all data, errors and models with the stated correlations, all iteration limits and tolerances", "why_tests_cant": "That every step decreases chi2 and keeps the signs must hold for every matrix and at every iteration.", "anchors": ["include/vif/math/linfit.hpp: linfit_nn, linfit_nn_pack, impl::linfit_do_nn_"]}
{"id": "C75", "title": "read_args: command line arguments", "statement": "Reading named variables from the program arguments gives each variable the value of the last argument with its name (name=value, -name=value, or name alone for 1), or leaves it when there is none; exactly the arguments used are marked as read, so that the ones reported as unrecognized are those that match no variable; the defaults are added to the list. An argument that cannot be converted stops the reading of its variable with a warning. Findings: a failed conversion changes a number, although the documentation says it is not modified; one argument that is not convertible blocks other variables whose name it contains; the text of name() is cut at the first ')'.", "quantifier": "all lists of arguments, names and variables, all conversions", "why_tests_cant": "Names may contain one another, arguments may repeat, and every variable sees the list changed by the previous ones.", "anchors": ["include/vif/utility/argv.hpp: read_args, program_arguments, impl::read_args_, impl::read_args_impl_"]}
{"id": "C76", "title": "program_arguments: writing, serialize and make_cmd", "statement": "write() adds name=value for every variable in order; for variables whose text survives the reading conversions, reading what was written gives the same values and leaves no unrecognized argument. serialize() separates the arguments by blanks; make_cmd() gives a command line from which a shell finds the same words, for arguments without special characters. Findings: strings with outer blanks, quotes or commas do not survive; after a name() write() reads; serialize() does not quote; make_cmd() loses empty arguments, line breaks and quotes.", "quantifier": "all variables, names, lists of arguments", "why_tests_cant": "The round trip has to hold for every value, and the exceptions are particular characters at particular places.", "anchors": ["include/vif/utility/argv.hpp: program_arguments::write, serialize, make_cmd, impl::write_args_"]}
{"id": "C77", "title": "from_string and to_string on integers", "statement": "from_string into a signed integer type succeeds exactly when the string is a decimal number in the range of the type, surrounded by white space, and stores this number; into an unsigned type negative numbers are reduced modulo 2^bits. to_string gives the shortest decimal text; every value of a type is read back. The vectorised version converts element by element, resizing the output or refusing a view of other dims. The fallback accepts exactly the words nan and inf with their signs in any case. Findings: -1 is accepted for an unsigned type; a failed conversion modifies the output; white space around nan and inf is refused.", "quantifier": "all strings, all values, all numbers of bits", "why_tests_cant": "The accepted language is infinite and the range limits concern single values out of 2^64.", "anchors": ["include/vif/core/string_conversion.hpp: from_string, to_string, impl::from_string_fallback"]}
{"id": "C78", "title": "ftable: column names from macro arguments", "statement": "The text of the macro arguments is split exactly at the commas that are outside of brackets, each part without the blanks around it; the column name is what follows the first dot, and a two-dimensional vec gives one numbered name per column. The parsing always ends. Findings: the first dot may be the one of a number or of an inner call; brackets inside of literals are counted, with undefined behaviour or a stop; empty names are given together with all that follows; a vec<2> without columns is undefined behaviour.", "quantifier": "all lists of expressions with matching brackets, all numbers of columns", "why_tests_cant": "Expressions nest to any depth, with commas and brackets of three kinds at any place.", "anchors": ["include/vif/io/ascii.hpp: impl::ascii_impl::pop_macroed_name, split_macroed_names, bake_macroed_name, write_table_hdr_fix_2d_"]}
{"id": "C79", "title": "time_str and seconds_str: durations as text", "statement": "From one second, time_str(t) gives the days, hours, minutes and seconds that add up to the integer part of t, each in its range, without the fields that are zero (but for the seconds), the first field without useless zeros and the others with two digits; below one second the closest number of ms, us or ns. seconds_str(t) gives the seconds and three digits for ms, us and ns, which add up to the integer number of nanoseconds, from the first field that is not zero. Findings: time_str(0) is undefined behaviour; the rounding can give 1000ms.", "quantifier": "all durations below 2^64 seconds (exact arithmetic)", "why_tests_cant": "The fields carry into each other, and the text depends on which of them are zero and on their number of digits.", "anchors": ["include/vif/utility/time.hpp: time_str, seconds_str"]}
{"id": "C80", "title": "list_files, list_directories and explorer", "statement": "list_files and list_directories give, in the order of the directory, exactly the names that match the pattern, are not hidden and are (not) directories, and close what they opened; a directory that cannot be opened gives an empty list. For any sequence of calls on an explorer, if no open directory is closed explicitly, all the streams it opened are closed exactly once; otherwise (finding) a closed stream is used or closed again, at the latest by the destructor.", "quantifier": "all directory contents, patterns, sequences of calls", "why_tests_cant": "The use of a closed stream often goes unnoticed, and the sequences of calls are unbounded.", "anchors": ["include/vif/io/filesystem.hpp: file::explorer, file::list_files, file::list_directories"]}
{"id": "C81", "title": "mkdir creates all the directories of a path", "statement": "file::mkdir(path) makes exactly the missing directories of the path, for any number of slashes and '.' in it, and returns true, when no file is in the way and the system allows them; it returns false when a file is in the way before the last name, or a missing directory is refused. Finding: it returns true when the path itself is a file.", "quantifier": "all file systems, paths without '..', working directories", "why_tests_cant": "The result depends on every prefix of the path and on which of them exist.", "anchors": ["include/vif/io/filesystem.hpp: file::mkdir"]}
{"id": "C82", "title": "Floating point numbers as text", "statement": "from_string() into a double succeeds exactly for decimal numbers (sign, digits, fractional part, power of ten) that are not too large, with white space around them, and for the words nan and inf with a sign, in any case, without white space. to_string() of a double writes a number with 6 significant digits that is closest to it, in plain notation without useless zeros when it is neither tiny nor large, and every double is read back up to this rounding, exactly when it has 6 significant digits. Finding: with more digits the number read back is another one.", "quantifier": "all strings and all rational numbers (in the range of a double for the round trip)", "why_tests_cant": "The decimal texts and the numbers are unbounded in number, and the wrong ones are at the limits between notations and at the ties of the rounding.", "anchors": ["include/vif/core/string_conversion.hpp: to_string, from_string, from_string_fallback"]}
{"id": "C83", "title": "Sexagesimal coordinates", "statement": "sex2deg() returns true exactly for two texts made of an integer, an integer and a number separated by colons, and gives both coordinates, in degrees, with the sign of the first number when it is not zero; both are NaN otherwise. deg2sex() writes h:mm:ss.s with the whole part, the minutes, and the seconds rounded to 6 significant digits, and what it writes is read back up to 1/20000 second. Findings: the sign is lost by both functions between -1 and 0; the seconds may be written as 60.0; tiny seconds are written as a text that sex2deg() refuses; coordinates too large for an integer are undefined behaviour.", "quantifier": "all texts; all rational coordinates below 2^63", "why_tests_cant": "The exceptions are in small regions: the first unit below zero, seconds that round to 60, seconds below 1/10000.", "anchors": ["include/vif/astro/astro.hpp: sex2deg, deg2sex"]}
{"id": "C84", "title": "Signed distance to a convex hull", "statement": "convex_hull_distance(x, y, hull) returns the Euclidean distance from the point to the closest point of the border of the hull, with a positive sign when in_convex_hull accepts the point and a negative sign otherwise; it is zero exactly on the border. The version for vectors of points returns, for every point, what the version for one point returns, and the vectors kept inside the hull by a first call never change later results as long as mark_as_dirty() is called after a change of the vertices.", "quantifier": "all closed hulls of any number of vertices and either orientation, with or without repeated vertices, not all equal; all points; over any real closed field", "why_tests_cant": "The distance involves a minimum over a continuum of border points and square roots; tests only sample points near a few faces, and the pruning of faces with the distance to the supporting line is only wrong for particular positions.", "anchors": ["include/vif/math/convex_hull.hpp:36-97", "include/vif/math/convex_hull.hpp:152-167", "include/vif/math/convex_hull.hpp:193-300"]}
{"id": "C85", "title": "Stacking collects, for every source, the window of pixels around it", "statement": "qstack appends to the cube one plane per source that has at least one usable cutout on the images given, and its number to ids, in the order in which the sources are found; no source appears twice. The plane is the (2*hsize+1)^2 window centred on the pixel closest to the position of the source, with non finite pixels outside of the image; a pixel that is not finite on the first image is taken from the next image where it is finite. Without keep_nan only cutouts without any non finite pixel are used. The offsets saved are the distances to the centre of that pixel, the sections the number of the first image. The version with weights fills both cubes for the same sources.", "quantifier": "all image sizes, pixel values and positions (not half way between two pixels within hsize of 0), all hsize, all numbers of images and of sources, any previous contents of cube and ids", "why_tests_cant": "the result depends on how windows cross the edges of each image and on which pixels of which images are finite; tests use a source in the middle of one image", "anchors": ["include/vif/astro/qstack.hpp:80-205", "include/vif/astro/qstack.hpp:207-356"]}
{"id": "C86", "title": "Merging catalogues keeps sources and columns in correspondence", "statement": "A catalog_pool made of any sequence of catalogues has one position and one origin per source. Each catalogue maps its selected sources to different sources of the pool: to their mutual nearest neighbour if there is one, else to a new source with its position (add_catalog), or nowhere (match_catalog). catalog_t::merge puts the value of each source of the catalogue at its place and the default everywhere else; merge_flux appends one column per band, for fluxes and errors, with NaN for the other sources, and never merges twice into the same variable.", "quantifier": "all sequences of catalogues, selections, cross matches in which every source has a nearest neighbour, and all columns long enough", "why_tests_cant": "correctness depends on the bookkeeping of indices over a sequence of catalogues of any length; a test sees one sequence and one set of matches", "anchors": ["include/vif/astro/catalog_merge.hpp:140-250", "include/vif/astro/catalog_merge.hpp:296-322", "include/vif/astro/catalog_merge.hpp:447-476"]}
{"id": "C87", "title": "Multi-threaded bucket cross matching equals the single-threaded one", "statement": "qxmatch with the bucket algorithm returns, for any number of threads, exactly the result of a single thread (ids, distances, reverse ids and reverse distances), as long as every thread gets at least one source of each catalogue. With fewer sources than threads the call aborts although one thread works (a finding; it affects catalog_pool, which asks for 4 threads).", "quantifier": "for all catalogues, numbers of neighbours, modes, numbers of threads and shares per thread", "why_tests_cant": "The division of the sources between threads depends on the sizes and the number of threads; a lost or overwritten column at the border of two shares shows up only for some combinations.", "anchors": ["include/vif/astro/qxmatch.hpp:408-489", "include/vif/astro/qxmatch.hpp:302-389", "include/vif/astro/catalog_merge.hpp:194"]}
{"id": "C88", "title": "template_fit returns the best template and its best amplitude", "statement": "template_fit gives each template the amplitude minimising its chi2 and returns the first index of the smallest chi2: with renorm no template fits better with any amplitude, without renorm none fits better as it is. Each simulation is the same fit applied to the perturbed fluxes. Sizes that do not match and empty libraries abort. Without renorm the fluxes returned are still multiplied by the amplitudes, so that they are not the model whose chi2 is returned (a finding).", "quantifier": "for all libraries of templates, fluxes, non-zero errors and random numbers", "why_tests_cant": "Optimality is a statement about all real amplitudes and all templates; tests compare a few known fits.", "anchors": ["include/vif/astro/template_fit.hpp:130-343"]}
{"id": "C89", "title": "multi_template_fit finds the best sum of templates", "statement": "multi_template_fit tries every choice of one template per library that the constraints allow and returns the choice and the amplitudes of the smallest chi2 over all of them and all amplitudes, for the measured fluxes and for each simulation, with the fluxes of each component, provided that the templates of the choices allowed are linearly independent. Otherwise everything after the first dependent choice is ignored (a finding). Further findings: with upper limits a choice that is not allowed stops the search, the fluxes returned are multiplied by the errors, and the simulations overwrite their own data; without LAPACK the amplitudes are wrong.", "quantifier": "for all libraries, fluxes, non-zero errors, constraints, random numbers and all inversions of symmetric matrices that are right", "why_tests_cant": "Optimality is over all combinations and all real amplitudes; the combinations skipped after a singular matrix are noticed only if the best one is among them.", "anchors": ["include/vif/astro/template_fit.hpp:346-544"]}
{"id": "C90", "title": "Masks of circles and boxes select the pixels inside", "statement": "Each pixel of circular_mask is a quarter of the number of its corners in the circle, also for circles partly or wholly out of the image. The mask of a DS9 circle adds the pixels with at least three corners inside, that of a rotated DS9 box the pixels with their centre inside, and pixels masked before stay masked. radial_profile starts with the central pixel and is constant for constant images. Findings: circles ending less than half a pixel below the first row or column are ignored; images without pixels and far circles or boxes are undefined; the default centre is half a pixel off; circles without corners mask nothing; boxes without height mask pixels beyond their ends; radial_profile gives its arguments to circular_mask in the wrong order, so that the profile is not that of rings around the centre.", "quantifier": "for all image sizes, centres, radii, rectangles with positive sizes and rational cosines, previous masks and sorting routines", "why_tests_cant": "Circles and rectangles are arbitrary; the single existing test writes a file and checks nothing, and uses the old order of the arguments.", "anchors": ["include/vif/astro/image.hpp:358-403", "include/vif/astro/ds9.hpp:247-289"]}
{"id": "C91", "title": "DS9 region files are read and written faithfully", "statement": "read_regions adds one region for each line with a well formed circle or box, with the centre, sizes and angle given (pixel coordinates minus one after a line 'physical', degrees or sexagesimal coordinates and sizes in arcsec otherwise), the colour of the line or of the last global line, and the text; blank lines, comments, other shapes and unreadable lines add nothing and change nothing. Regions in sky coordinates that are written are read again with the same parameters. Conversion to sky coordinates and back is the identity. Findings: regions in pixels are moved by one pixel when written and read again; colours and texts are not written; nothing ends the physical mode, so that later sky regions are lost; texts are cut at the first space; with axes that are not spatial no region can be read again.", "quantifier": "for all lines of the format, all region vectors, conversions between numbers and text, and coordinate transformations", "why_tests_cant": "No test reads or writes a region file; the shift by one pixel is only seen by comparing a file written with the regions in memory.", "anchors": ["include/vif/astro/ds9.hpp:9-245", "include/vif/astro/ds9.hpp:303-403"]}
{"id": "C92", "title": "integrate_func extrapolates until two values agree, and sigma_clip keeps what is near the median", "statement": "integrate_func(f, x0, x1, e) returns the last value of the first row of Romberg's table, obtained from trapezium sums with 2, 4, 8, ... intervals, whose last two values agree within the relative tolerance e; when no row agrees up to the fifteenth the next round shifts an int out of range. Polynomials up to degree 3 are integrated exactly; exchanging x0 and x1 changes the sign; a multiple of f has the same multiple as integral. A function that vanishes at x0, x1 and in the middle gives 0 whatever it does elsewhere. sigma_clip(v, sigma) is true exactly for the numbers whose distance to the median is at most 1.48 sigma times the median of these distances; NaNs neither count nor are kept, and more than half of the numbers are kept when sigma >= 1/1.48.", "quantifier": "for all functions of a number, bounds, tolerances, polynomials, vectors with and without NaN, arrangements left by nth_element and sigma", "why_tests_cant": "The integral is checked against a handful of smooth functions; the number of rounds depends on the function, and the premature stop or the overflow needs particular ones.", "anchors": ["include/vif/math/reduce.hpp:881-916", "include/vif/math/reduce.hpp:255-266"]}
{"id": "C93", "title": "segment_distance spreads the segments over the whole map and gives the distance to one of their pixels", "statement": "segment_distance(map, dmap, imap) always ends. The pixels of the segments keep their label, with distance 0 and their own index. If there is a segment, every pixel of the map gets the label of a segment, imap holds the index of a pixel of a segment, dmap the squared distance to that very pixel, and this distance is not larger than the number of steps along rows and columns to any pixel of any segment; it is exact when the nearest pixel is on the same row or column. A map without segment is left alone.", "quantifier": "for all segmentation maps (any labels, connected or not, any dimensions that fit in memory)", "why_tests_cant": "The growth interleaves all segments and pixels are taken over by one segment from another; whether it ends, and what the distances mean, depends on the whole history and not on a few small maps.", "anchors": ["include/vif/astro/image.hpp:1281-1391"]}
{"id": "C94", "title": "segment_deblend finds the peaks of an image and gives each bright pixel connected to a peak to one segment", "statement": "segment_deblend(img, out, params) with a new out returns for every non-empty image, NaN and infinities included. The peaks are the pixels above detect_threshold that are not within deblend_threshold steps of a brighter one, listed from the brightest on with consecutive identifiers from first_id; any two are at least deblend_threshold steps apart. Each other bright pixel joins the segment of the nearest brighter pixel (at equal steps, the one nearest to its own peak). Only finite pixels above the threshold are labelled, each segment is in one piece with its peak, and without a minimum area the peak is its brightest pixel and area, flux and barycentre are sums over its pixels. Segments smaller than min_area go whole to the neighbour with the nearest peak, or are erased if no large segment touches them.", "quantifier": "for all images of doubles (any dimensions, infinities and NaN), all thresholds, minimum areas, first identifiers and flux limits", "why_tests_cant": "Each pixel depends on all brighter ones, the three passes reuse the same marks, and merged segments change the areas seen by the following ones; small images do not reach the combinations, and a wrong area goes unnoticed.", "anchors": ["include/vif/astro/image.hpp:992-1279"]}
{"id": "C95", "title": "regrid_drizzle spreads each pixel over the pixels its projection overlaps, in proportion to the overlap, and conserves flux", "statement": "regrid_drizzle(imgs, astros, astrod, weights, opts) projects each pixel of the source (or a drop of side pixfrac) on the destination. When the projections are strictly convex with the same orientation, the call succeeds without out-of-range access; the weight that a pixel of the destination receives from a projection is the area of their overlap (up to the tolerance 5 * 2^-52 around the edges), or the whole area when the projection falls in one pixel. The result is the mean of value * pixfrac^2 / area, weighted by the overlaps; it is not finite where nothing falls or where something that is not finite falls; it never leaves the range of the contributions, so that a uniform image remains uniform. If all the projections are on the image, the sum of the result times the weights is the sum of the source times pixfrac^2. With opts.linearize, a translation by whole pixels copies the pixels exactly, and an affine projection gives the same as without.", "quantifier": "for all images (values may be not finite), all dimensions, all projections of the sky with convex images of pixels, all pixfrac, linearised or not, pixfrac applied before or after projection; the overlap for all polygons", "why_tests_cant": "The area of an overlap depends on where each edge crosses each side: a test tries a few rotations, and a wrong vertex at one configuration shows as a flux error of a few per cent in some pixels.", "anchors": ["include/vif/astro/image.hpp:1617-1803", "include/vif/astro/image.hpp:2010-2203"]}
{"id": "C96", "title": "regrid_interpolate gives each pixel of the destination the value of the source at its projection", "statement": "regrid_interpolate(imgs, astros, astrod, opts) returns an image with the dimensions of astrod. Each pixel receives the value of the source at the mean of the projected corners of the pixel (the projection of its centre, for an affine projection): that of the nearest pixel, the bilinear value of the four pixels around, or the value of natural cubic splines through the sixteen pixels around; times the area of the pixel on the source if conserve_flux. Where the method has not enough pixels around, or one of them is not finite, the result is not finite. At the centre of a pixel of the source all methods give its value, and the bilinear method never leaves the range of the source. With linearize, an affine projection gives the same.", "quantifier": "for all images (values may be not finite), all dimensions, all projections with coordinates below 2^62, the three methods, linearised or not, with and without conserve_flux", "why_tests_cant": "Tests compare a few smooth images far from the borders with a tolerance; the borders, missing values, images of different sizes and projections close to a translation are separate branches.", "anchors": ["include/vif/astro/image.hpp:1805-1826", "include/vif/astro/image.hpp:1839-1841", "include/vif/astro/image.hpp:1856-2008"]}
{"id": "C97", "title": "translate, scale and rotate resample an image at the displaced, scaled and rotated positions", "statement": "translate(v, dx, dy, def), scale(v, factor, def), rotate(v, angle, def) and their bicubic versions return an image of the same size. Its pixel (y, x) is the interpolated value of v at (y - dx, x - dy), at the position whose distance from the middle pixel is divided by factor, or at the position rotated about the middle pixel; it is def where the interpolation has too few pixels around, and never leaves the range of the image otherwise (bilinear). Translations by whole pixels and quarter turns copy pixels; the middle pixel is fixed by scalings and rotations. translate_bicubic uses natural splines through whole lines, then whole columns, and a translation by 0 gives back the image.", "quantifier": "for all images (values may be not finite), dimensions, displacements, factors other than 0, and all cosines and sines, with positions below 2^62", "why_tests_cant": "Tests compare a few images away from the borders; the last line and column, single lines, missing values and the middle of small images are separate cases.", "anchors": ["include/vif/astro/image.hpp:126-155", "include/vif/astro/image.hpp:179-260", "include/vif/math/interpolate.hpp:228-246", "include/vif/math/interpolate.hpp:464-488"]}
{"id": "C98", "title": "cutout_extractor returns the square around a source, mosaicked from the images that cover it", "statement": "get_cutout(ra, dec, size, def) returns a square of 2 hs + 1 pixels, where hs is the smallest positive number for which the square is as large as asked, centred on the pixel nearest to the source. Each pixel is the first finite one found at the same offset among the images that the square touches, in the order in which they were added; pixels outside of an image count as def. With def not finite this is the first finite pixel among all images. If no image is touched, the result is false and a square of def. The header has the projection of the first image touched, and its reference pixel is the exact position of the source in the cutout. The distortion map, if there is one, corrects the position by its nearest pixel.", "quantifier": "for all lists of images (values may be not finite), projections, positions below 2^62 pixels, sizes up to 2^29 pixels, default values and distortion maps", "why_tests_cant": "Sources near each border and corner, sources covered by several images, and missing values combine into many cases; tests try a few with one image.", "anchors": ["include/vif/astro/image.hpp:1465-1567"]}
{"id": "C99", "title": "getkey and setkey read and write the keywords of a FITS header", "statement": "In a header made of cards of 80 characters, fits::getkey(hdr, key, v) reads the first card whose name is key: the text between the equal sign and the next slash, without blanks, and without its quotes for a string; it is false if no card has that name. fits::setkey(hdr, key, v, comment) replaces the first card with that name where it is, or adds a card at the end, before END. It keeps the comment of the card replaced if none is given. What was set is read back, all other keys keep their values, the other cards are not touched, and the header stays made of cards of 80 characters. A key of more than 8 characters or an entry of more than 80 is refused without a change.", "quantifier": "for all headers made of cards (with END as the last card, or no END in the last card), all keys, values and comments", "why_tests_cant": "Tests use one or two well formed headers; comments, slashes, END inside other words, repeated keys and full cards combine freely.", "anchors": ["include/vif/io/fits/base.hpp:778-896"]}
{"id": "C100", "title": "Parsed FITS headers", "statement": "fits::parse_header gives one keyword per 80-character card, in order: the name, the text of the value with its quotes, the comment with its slash, and whether there is a value; HISTORY cards are kept whole, and a CONTINUE card appends its string to the last keyword, without the ampersands, and replaces its comment. fits::serialize_header writes each keyword as one card of exactly 80 characters, and what it writes is parsed back to the same keywords whenever they fit in a card. filter_wcs keeps exactly the cards whose name begins with one of the words of the astrometry, in order, so that getkey gives the same values for these keys and finds no other key. Findings: COMMENT cards and doubled quotes are misread, CONTINUE on nothing is undefined, long strings are cut, some cards come out twice.", "quantifier": "all headers made of cards of 80 characters and all lists of keywords, for the round trip all keywords whose texts have no blanks at the ends and none of the delimiters and fit in a card", "why_tests_cant": "The texts of the cards are arbitrary and the three functions interact: an example round trip says nothing about other values, comments or orders of the cards.", "anchors": ["include/vif/io/fits/base.hpp:897-1018", "include/vif/astro/wcs.hpp:207-226"]}
{"id": "C101", "title": "Flux of a spectrum through a filter", "statement": "For a filter and a spectrum on strictly increasing wavelengths, where the spectrum starts no later than the filter and ends after it, sed2flux is the trapezoid rule for the product of the linearly interpolated filter and spectrum at all the nodes of the filter and the nodes of the spectrum within it. It is linear in the spectrum, a flat spectrum of value c gives c times the area of the filter (c for a normalised filter), and with a non-negative filter it is between the least and the greatest value of the spectrum times this area. A spectrum that starts after the filter, or ends within it, gives NaN. The form for many spectra does each line by itself. sed_luminosity is the trapezoid rule for sed/lam over the whole cells of the grid that touch the interval, and NaN when the spectrum does not cover it.", "quantifier": "all filters with at least two points, all spectra, all values", "why_tests_cant": "The two grids can interleave in unboundedly many ways, and equality with the trapezoid rule on the merged grid must hold for every one.", "anchors": ["include/vif/astro/astro.hpp:1288-1386"]}
{"id": "C102", "title": "Normalised sky coordinates", "statement": "For finite coordinates normalize_coordinates ends and gives the same point on the sky, up to whole turns and passages over a pole, so that the direction in space is the same for every cosine and sine; the right ascension is then between 0 and 360, and the declination between -90 and 90 if it was between -270 and 450. Coordinates in these ranges are not changed, NaN is kept, and vectors are done pair by pair after a check of the dimensions. Findings: declinations beyond -270 or 450 stay out of range, 0 and 360 are both normal, an infinite right ascension never ends.", "quantifier": "all rational coordinates, infinities and NaN, all vectors of them", "why_tests_cant": "The coordinates are unbounded, the loops depend on each other, and that the geometry is unchanged is a statement about all cosines and sines at all positions.", "anchors": ["include/vif/astro/astro.hpp:135-167"]}
{"id": "C103", "title": "Conversions of photometric units", "statement": "lsun2uJy obeys the inverse square law with the constants of the source, and uJy2lsun at the observed wavelength is its inverse in both directions. uJy2mag and mag2uJy are inverse for every zero point, lsun2mag is the magnitude of the flux at 10 parsec, and mag2lsun is its inverse. uJy2cgs is F_lambda = F_nu c / lambda^2, and cgs2uJy is its inverse when it is given the wavelength in Angstrom. Finding: with the same wavelength in both the result is 10^8 times too small.", "quantifier": "all fluxes, luminosities, redshifts, distances, wavelengths and zero points for which no division by zero occurs, and all inverse pairs of logarithm and power", "why_tests_cant": "The relations are between pairs of functions over unbounded ranges of several physical quantities; an error in a constant that two functions share cannot be seen in a round trip.", "anchors": ["include/vif/astro/astro.hpp:429-516"]}
{"id": "C104", "title": "Random positions", "statement": "randpos_uniform_box and randpos_uniform_circle give on success exactly the number of positions asked for, all accepted by the region function and inside the box or circle; by rejection sampling the positions are the accepted ones of those drawn, in order, and it fails only after max_iter rejections in a row. randpos_power_base gives eta^levels positions. randpos_power_circle gives on success eta^(levels-1)*eta_end positions, all in the region; at each level every cell gets its share of the positions in proportion to the filled fraction of its circle, rounded up or down, and these shares add up.", "quantifier": "all generators (any state and function), all regions, all radii, numbers of sources, levels and limits", "why_tests_cant": "The results depend on the random generator and the region function; a test has a few seeds and shapes.", "anchors": ["include/vif/astro/astro.hpp:713-1026 (randpos_rejection_sampling, randpos_uniform_box, randpos_uniform_circle, randpos_power_base, randpos_power_circle)", "include/vif/math/random.hpp:28-45 (randomu)"]}
{"id": "C105", "title": "Random integers and coins", "statement": "randomi(seed, mi, ma, dims...) gives integers from mi to ma, each for an interval of random numbers of the same width, so that of N equally spaced random numbers each value gets N/(ma+1-mi) within one; random_coin is true with the given probability, within one of N equally spaced random numbers.", "quantifier": "all bounds, integer types, random numbers and probabilities", "why_tests_cant": "Uniformity and rare values (one random number in 2^53) cannot be seen in samples.", "anchors": ["include/vif/math/random.hpp:58-64 (randomi for vectors)", "include/vif/math/random.hpp:105-135 (random_coin)"]}
{"id": "C106", "title": "Filter databases", "statement": "read_filter_db and read_filter_map give for each name the file, or the number, of the first line that says name=value. get_filter_id gives the number of a known name, else npos and the names that differ in the fewest places. get_filter gives the filter of a name of the database, or of 'name:range:min:max' (response of integral 1, positive between the bounds, central wavelength in the middle), or of 'name:file:path'; get_filters adds the filters in order until one is unknown.", "quantifier": "all file contents, names, bounds and tables", "why_tests_cant": "All texts, names with separators, repeated names, and tables are possible; tests use one database.", "anchors": ["include/vif/astro/astro.hpp:1502-1639 (read_filter_db, get_filter, get_filters)", "include/vif/astro/astro.hpp:1656-1736 (read_filter_map, get_filter_id)"]}
{"id": "C107", "title": "Point sources: psffit and srcsub", "statement": "psffit(img, err, psf, pos) with a square PSF of an odd number of pixels: the background and the flux are the only minimum of the sum over the pixels of the PSF of ((bg + flux psf - img)/err)^2, pixels that are outside of the image or not finite having the value 0 and the largest error; chi2 is the minimum and both errors are positive; a source that is exactly bg + flux psf gives back both, with chi2 0. srcsub(img, psf, flux, pos) subtracts flux times the PSF centred at pos from the pixels of the image it covers and leaves the others.", "quantifier": "all images, errors, PSFs, fluxes and positions (inside, at the edge or outside)", "why_tests_cant": "All positions with respect to the edges, shapes of the PSF, and patterns of missing pixels are possible; tests use a few.", "anchors": ["include/vif/astro/astro.hpp:223-272 (psffit)", "include/vif/astro/astro.hpp:274-288 (srcsub)"]}
{"id": "C108", "title": "Angular correlation: angcorrel", "statement": "angcorrel(ra, dec, rra, rdec, bins) gives for each bin ((DD nr (nr-1)/(n (n-1)) - DR nr/n) + (RR - DR nr/n))/RR where n and nr are the numbers of sources and random positions and DD, DR, RR the numbers of pairs source-source, source-random and random-random with a separation in the bin; the pairs are those of different sources if the bin is above 0; a number that is not finite stands where RR is 0 or with fewer than two sources.", "quantifier": "all catalogues, separations and contiguous bins", "why_tests_cant": "The counts depend on all the pairs of positions; tests use one catalogue, and a bias of the order of 1/nr is not seen in noise.", "anchors": ["include/vif/astro/astro.hpp:664-698 (angcorrel)"]}
{"id": "C109", "title": "Cosmological functions of many redshifts", "statement": "lumdist, lookback_time, propsize and vuniverse of a vec with fewer redshifts than twice the number of nodes are the function of each redshift. With more, redshifts that are not positive get the value at 0 and the others the linear interpolation between the values at the two nodes around them, the nodes going from the smallest to the largest positive redshift; if the function increases, the result keeps the order and is within the difference of the values at these nodes. get_cosmo knows exactly the names of cosmo_list, and all cosmologies are flat.", "quantifier": "all vecs of redshifts, also with NaN, numbers of nodes and functions", "why_tests_cant": "The result depends on the range of all the redshifts and on exceptional ones (NaN, not positive, all the same); tests use a few short vecs, where nothing is interpolated.", "anchors": ["include/vif/astro/astro.hpp:290-341 (cosmologies)", "include/vif/astro/astro.hpp:343-388 (lumdist, lookback_time, propsize, vuniverse)", "include/vif/astro/astro.hpp:389-424 (VECTORIZE_INTERPOL)"]}
{"id": "C110", "title": "A column written in a FITS table is read back, and writing, updating or removing a column leaves the others alone", "statement": "After fits::table::write_column(name, v) for a vec v of any type and number of dimensions (row- or column-oriented table, new name, matching number of rows), read_column with the same number of dimensions returns the same dimensions and the same elements, whatever the case of the name and the options; other types that can represent the values give the same values; dim_promote puts dimensions of 1 in front, flatten gives the row-major list; anything else is refused by the sentry, which aborts when it is not inspected. All other columns read as before. remove_column and update_column affect the named column only, and an updated column is the last one. Violations found: two columns of the same name make both unreadable and not removable; a row-oriented vec<2> of n x 1 does not come back; a row-oriented table of one row is reopened as column-oriented; empty vectors lose the number of rows; updating the only column of a row-oriented table keeps the old number of rows; a scalar is read from a row-oriented column of many rows; a string in a row-oriented table is refused; strings are trimmed; unsigned and negative integers are mixed up without a complaint.", "quantifier": "for all tables, names, element types, dimensions, data and reading options", "why_tests_cant": "The shapes, element types, orientations and options multiply, and the shapes that fail are isolated ones (a single column, a single row, no elements) among infinitely many that work.", "anchors": ["include/vif/io/fits/table.hpp:474-664", "include/vif/io/fits/table.hpp:1086-1328", "include/vif/io/fits/table.hpp:1453-1536", "include/vif/io/fits/base.hpp:65-317", "include/vif/io/fits/base.hpp:462-485"]}
{"id": "C111", "title": "read_elements and update_elements access the block selected by the leading indices, in row-major order, and nothing else", "statement": "For a numeric column holding a vec of dimensions ds, read_elements(name, v, at(i1,...,ik,_,...)) returns the block of dimensions ds[k..] at those indices, all the indices return that element, and update_elements replaces exactly this block: the rest of the column and all the other columns stay. Distinct indices are distinct elements; a wrong number of indices or an index out of bounds aborts; column_info reports the dimensions in the order of the vec. Violations found: a vec<1> of a row-oriented table is reported as n x 1 and at(i) aborts; the type reported for bytes depends on the values, so that the elements of bool or char columns can sometimes not be read or updated; the information on an empty bool column aborts; the number of dimensions of the value is not compared with the number of ranges, and an update can run over the end and add rows to the table.", "quantifier": "for all tables, columns, dimensions, indices and values", "why_tests_cant": "The place of an element is a product of all the trailing dimensions; a test exercises a few shapes, and the data-dependent type of byte columns only shows for particular values.", "anchors": ["include/vif/io/fits/table.hpp:63-73", "include/vif/io/fits/table.hpp:153-270", "include/vif/io/fits/table.hpp:844-985", "include/vif/io/fits/table.hpp:1611-1712"]}
{"id": "C112", "title": "A FITS image is read back as it was written, and pixels and subsets of it are elements and sub-arrays of the whole", "statement": "After fits::output_image::write(v) for a vec of any number of dimensions and type, input_image::read returns the same dimensions and elements, also as another type that has room for them; read_pixel(p) is the element of the array at the indices p, in the order of the program; read_subset with ranges that select pixels returns exactly the sub-array they select (an index keeps a dimension of 1), and all full ranges return the whole image. A pixel or the given end of a range outside of the image, a wrong number of dimensions or a type without room for that of the file throw. image::update replaces all the elements of an image of the same dimensions, and throws for other dimensions. An HDU with data is never overwritten. Violations found: the start of a range is not checked, so that n-_ or (l+1)-_-l give an array without elements into which pixels are written, and reversed ranges make dimensions of about 2^64; the type of an update is checked in the direction of reading, so that a double image refuses floats and a short image accepts doubles; unsigned integers from 2^63 on are negative for every other type.", "quantifier": "for all numbers of dimensions, shapes, element types, data, pixels and ranges", "why_tests_cant": "The axes of the file are in the reverse order of the dimensions, which a test on square or few shapes does not see; the ranges on every axis and the types of the file and of the program multiply, and the unchecked starts only show for out-of-bounds ranges.", "anchors": ["include/vif/io/fits/image.hpp:25-42", "include/vif/io/fits/image.hpp:44-113", "include/vif/io/fits/image.hpp:115-202", "include/vif/io/fits/image.hpp:224-285", "include/vif/io/fits/image.hpp:305-330", "include/vif/io/fits/base.hpp:65-329"]}
{"id": "C113", "title": "make_wcs_header writes exactly the keywords of the parameters it is given, and rejects ill-formed parameters without touching the header", "statement": "For a header that is empty or made of cards ending with END, make_wcs_header(params, hdr) returns true, the result is a header, the keywords of the pixel scale (CDELT1, CDELT2, CTYPE1, CTYPE2, EQUINOX), of the reference pixel (CRPIX1, CRPIX2), of the reference position (CRVAL1, CRVAL2) and of the dimensions have the values of the parameters that are set, and every other keyword reads as before; calling it twice changes nothing more. With texts NAME:value the name can be in any case with blanks around it, the last value of a name counts, and any text that is not of this form, is unknown or cannot be read returns false with the header untouched. Violations found: the number of axes is written under NAXES instead of NAXIS; a reference with one coordinate that is not finite is ignored and true is returned; a new scale does not change the CD matrix of a header that has one.", "quantifier": "for all headers, parameters and lists of texts; for all conversions of numbers whose text fits on a card", "why_tests_cant": "The texts of parameters and the existing headers are unbounded; that all the other keywords are kept is a statement about every key and every header.", "anchors": ["include/vif/astro/wcs.hpp:21-30", "include/vif/astro/wcs.hpp:33-121", "include/vif/astro/wcs.hpp:124-211"]}
{"id": "C114", "title": "The HDUs of a FITS file are numbered, created, filled and removed independently", "statement": "reach_hdu(n) goes to HDU number n and changes nothing when it exists; in a file opened for reading a missing HDU is an error; in a file opened for writing, from the last HDU, the missing HDUs are created empty after the others. An image written in an HDU is read back from it, with its dimensions, and the other HDUs are unchanged; any list of images written one HDU after the other is read back HDU by HDU; remove_hdu removes only the current HDU. Findings: from an HDU that is not the last, reach_hdu inserts in the middle and reaches an old HDU; axis_count and image_dims fail on tables though documented to give 0.", "quantifier": "all files (any list of HDUs, any current HDU), all HDU numbers, all lists of images of any type, dimensions and values", "why_tests_cant": "The number of HDUs, the current one and the one asked for vary independently; tests open a file and write HDUs in increasing order, which hides the insertion in the middle.", "anchors": ["include/vif/io/fits/base.hpp:532-550", "include/vif/io/fits/base.hpp:587-646", "include/vif/io/fits/base.hpp:767-774", "include/vif/io/fits/image.hpp"]}
{"id": "C115", "title": "write_header adds the cards of a header, without those that describe the HDU", "statement": "write_header appends the cards of a header to those of the HDU, in order, without END, SIMPLE, BITPIX, NAXIS*, EXTEND, XTENSION, EXTNAME, PCOUNT and GCOUNT; an incomplete last card is completed with blanks; keywords not yet in the HDU are then found with the values of the header; a header that is read and written elsewhere keeps its other cards. Findings: an existing keyword is not replaced and keeps its old value; every header of complete cards adds one blank card, so copies grow; END without a blank after it is written as a card.", "quantifier": "all headers (any number of cards with any characters), all HDU headers, all keywords", "why_tests_cant": "Headers are texts of any length; tests copy one header and read a few keywords back, and never count the cards or write over an existing keyword.", "anchors": ["include/vif/io/fits/base.hpp:489-501", "include/vif/io/fits/base.hpp:685-710"]}
{"id": "C116", "title": "Sky positions and pixels: the right axes, one position at a time", "statement": "astro::wcs finds the axes RA and DEC, the types, units and dimensions of all the axes from the keywords of their number, in the order of the arrays. ad2xy and xy2ad convert each position by WCSLIB with RA and DEC at their axes (in any order, with any number of other axes), keep the dimensions of the arrays, refuse arrays of different dimensions and an invalid WCS, and are inverse of each other when WCSLIB is; get_pixel_size is s when one arcsecond is 1/s pixels in any direction; a moved WCS keeps everything. Findings: RA without DEC, or a single axis that is not RA, is an access outside of the array; without RA the first two axes are taken; the rotation ignores mirrored images; the flag of update() is not moved.", "quantifier": "all numbers and orders of axes, all texts CTYPE and CUNIT, all conversions of WCSLIB, all numbers of positions", "why_tests_cant": "Tests use one or two headers with RA and DEC as the first axes, and WCSLIB has infinitely many conversions; the accesses outside of the array are silent.", "anchors": ["include/vif/astro/wcs.hpp:349-532", "include/vif/astro/wcs.hpp:534-590", "include/vif/astro/wcs.hpp:645-910"]}
{"id": "C117", "title": "Values along an axis of an image, in the unit asked for", "statement": "x2w and w2x convert the pixels of an axis to values and back by WCSLIB, with the other axes at their reference, in the unit asked for; they are inverse of each other for an axis that does not depend on the others; build_axis gives the values at pixels 1 to n; an invalid WCS, an axis that does not exist and a unit that is not one of the axis stop the program. Findings: the default unit is refused for an axis without CUNIT and native for an axis with it; for an axis that depends on others, w2x is not the inverse of x2w.", "quantifier": "all WCS, axes, units, pixels and values", "why_tests_cant": "Fifteen units times the types of axes times any number of pixels; a wrong factor or a wrong axis gives plausible numbers.", "anchors": ["include/vif/astro/wcs.hpp:300-346", "include/vif/astro/wcs.hpp:483-532", "include/vif/astro/wcs.hpp:945-1130"]}
{"id": "C118", "title": "Regular expressions: matching, extracting and replacing", "statement": "regex_match holds for a text exactly when some part of it, at the ends asked for by the anchors, is described by the pattern; the match is the longest of those that begin first; arrays are taken element by element. regex_extract gives one row per match with the text of each group, and regex_replace gives the text with each match replaced by the value of the function for its groups, each match being looked for after the previous one; a pattern without groups has all its occurrences replaced, from left to right. Findings: an empty match never ends; a group that is not in the match makes regex_replace throw; parentheses between brackets are counted as groups, and a group after an escaped backslash is not; ^ matches again after each match.", "quantifier": "all texts, all regular expressions (syntax trees over any sets of characters, with star), all functions, all behaviours of regexec within its contract", "why_tests_cant": "Infinitely many patterns and texts; the loops that never end and the wrong counts of groups need particular patterns.", "anchors": ["include/vif/utility/bits/string-regex.hpp:31-53", "include/vif/utility/bits/string-regex.hpp:57-89", "include/vif/utility/bits/string-regex.hpp:91-155"]}
{"id": "C119", "title": "Headers are made acceptable for WCSLIB without losing other keywords", "statement": "cure_header writes the keywords of the header in the same order, with micron(s) and degree(s) replaced by um and deg in CUNITn, without the SIP keywords, and without the other distortion keywords if CPDISn or CQDISn uses a lookup table; all other keywords keep their value and comment; correcting twice is the same as once, and a header with nothing to correct is unchanged. Findings: the type of the axes still ends with -SIP and A_DMAX is kept; cards that are read and written again are changed (comments with an equal sign); a first card CONTINUE is undefined behaviour.", "quantifier": "all headers, all keywords, values and comments", "why_tests_cant": "The patterns accept infinitely many names; tests use a few headers, and a keyword lost or kept wrongly gives wrong positions without an error.", "anchors": ["include/vif/astro/wcs.hpp:236-296"]}
{"id": "C120", "title": "Angular distances, moves and rotations on the sky", "statement": "angdistr and angdist give the angle between the two directions (in radians, and in seconds of arc for degrees), the only such number in [0, pi]; the arguments of sqrt and asin are in their domains. The distance is symmetric, 0 only for equal directions, and satisfies the triangle inequality; array versions give the distance of each pair of elements. angdist_less with a radius up to half a turn tells which distances are below it. move_ra_dec moves the declination exactly and the right ascension by dra/cos(dec); along a meridian the distance is exactly the displacement. angrot_vernal turns each direction about the x axis, keeps distances, and gives coordinates in [0,360] and [-90,90]; for y >= 0, turning back by vernal_angle leads to the equator. qdist holds angdist below the diagonal; field_area_hull is the sum of flat triangles with the distances as sides, never the root of a negative number. Findings: negative or large radii of angdist_less, the sign test of vernal_angle on radians, the empty half of qdist, flat triangles for large fields.", "quantifier": "all real coordinates, all arrays of any dimensions, all hulls", "why_tests_cant": "The inequalities hold over a continuum of positions; tests sample a few, rarely near poles, antipodes or across RA = 0.", "anchors": ["include/vif/astro/astro.hpp:23-132", "include/vif/astro/astro.hpp:167-221", "include/vif/astro/astro.hpp:518-545", "include/vif/astro/qxmatch.hpp:680-717"]}
{"id": "C121", "title": "Sections of images and bands of catalogs are chosen by name", "statement": "read_sectfits gives, in order, the files named by the lines of the list that are neither empty nor comments, in the directory of the list; a missing list, or one that names no file, is an exception. read_header_sectfits(_hdu) reads the header of the file of the section, stops past the last section, and reads any other file itself. get_band succeeds exactly if one and only one band (and its note) matches the pattern and gives its index; otherwise it returns false and leaves the index as it is, with or without notes in the catalog. Findings: absolute paths in a list are looked for below its directory, blank lines and carriage returns are names of files, the section is ignored for a plain file, a band cannot be chosen by its name if this is part of another name, and a catalog with fewer notes than bands makes the program stop.", "quantifier": "all file names, contents, section numbers, lists of bands and notes, patterns", "why_tests_cant": "Unbounded lists and texts; ambiguous names and unusual line ends are rarely tried.", "anchors": ["include/vif/io/fits.hpp:60-117", "include/vif/astro/astro.hpp:1139-1236"]}
{"id": "C122", "title": "Point spread functions are built as their textual model says", "statement": "make_psf cuts the model at commas and strips the fields. An unknown name or too few arguments give false and leave the image as it is. gaussian gives amp*exp(-r^2/(2 w^2)) at every pixel, gaussring adds the ring; further arguments are ignored. file reads an image, moves its first largest pixel to the centre asked for, keeps the lines and columns up to the first cross of zeros or the closest side, interpolates between them, and gives 0 elsewhere; for a centre that is a pixel the pixels are copied. Findings: an argument that is not a number counts as 0, an empty one is undefined behaviour, a file whose largest pixel is on its border gives an image of zeros, the far line and column are always lost, and what is beyond the first cross of zeros is lost.", "quantifier": "all texts, image sizes, centres and files of finite pixels", "why_tests_cant": "Unbounded texts, sizes and pixel values; the losses at borders show only for unusual files.", "anchors": ["include/vif/astro/astro.hpp:1387-1500", "include/vif/astro/image.hpp:405-414"]}
{"id": "C123", "title": "Progress bars show the work done and end once", "statement": "Every line of a progress bar shows the part of the bar, the number of iterations and the percentage that are done, the time elapsed, the time left in proportion and their sum, and hides the lines before. With progress, the line is written at the first iteration, at every m-th one and at the last one, and it ends at the last iteration and only there; nothing is written afterwards. print_progress does the same for the iteration it is given, and later ones count as the last. progress_tick writes the line for the first ten iterations and then whenever the speed last seen says so. Findings: at its end progress_tick counts one iteration too many, which is undefined behaviour if there are at most as many iterations as dashes, and else shows more than 100%; the time left at the last iteration is 0, for which time_str is undefined; no iterations at all is a division by zero.", "quantifier": "all numbers of iterations, bar lengths, intervals and clock readings", "why_tests_cant": "Unbounded runs and clock readings; the text is only looked at by people.", "anchors": ["include/vif/utility/time.hpp:99-200"]}
{"id": "C124", "title": "Stacks and their bootstrap use the sources that are drawn", "statement": "qstack_mean gives for every pixel the average over the images, its weighted version the weighted average, and not a number where there are no images or the weights add up to 0. qstack_bootstrap calls the function once for each trial, with as many sources as asked for, drawn in equal shares, the same from all cubes; every source drawn exists, also when the product is rounded. qstack_mean_bootstrap, with or without weights, and qstack_median_bootstrap give one image for each trial, the mean or median of the sources drawn. Findings: a cube without sources, and another cube with fewer sources than the first, abort only when a source is drawn; images without pixels give one image instead of one for each trial.", "quantifier": "all cubes, numbers of trials and sources, sequences of random numbers and roundings of double precision", "why_tests_cant": "The draws are random; the largest random number below 1 is practically never seen.", "anchors": ["include/vif/astro/qstack.hpp:358-461"]}
{"id": "C125", "title": "Unit tests count the tests and those that fail", "statement": "check(a, b) adds one to tested and, if a and b are not the same, one to failed. Numbers of floating point are the same when they differ by at most the epsilon of float or are infinities of the same sign, other values when they are equal; vectors when all their elements are, and a single value is compared with every element. Findings: NaN is the same as any number, the tolerance is absolute so that all small numbers are the same, vectors of other dimensions abort the program, and an empty vector is the same as any single value.", "quantifier": "all values, vectors and sequences of tests", "why_tests_cant": "The tests themselves rest on this comparison: what it accepts wrongly, no test can show.", "anchors": ["include/vif/test/unit_test.hpp:9-76"]}
{"id": "C126", "title": "Names in a backtrace are shortened", "statement": "dbg_pretty_demangled writes uint_t for unsigned long, writes the arguments of the outer templates without blanks and without a void at the end, and removes the suffix ul of constants; a name without any of these is not changed, and the function always ends without error. dbg_pretty_filename removes directory and mark from files generated by the reflection tool and changes no other name. Findings: the bracket of operator< is taken for a template and the last character is lost; the argument of future<void> is removed; ul is also removed from names such as h2ultra; unsigned long long becomes uint_t long; without a directory the mark is kept.", "quantifier": "all strings", "why_tests_cant": "All names of functions; the functions are only used when a program fails.", "anchors": ["include/vif/core/error.hpp:145-255"]}
{"id": "C127", "title": "Conversion factor from observed flux to luminosity", "statement": "sed_convert(from, to, z, d, lam, sed) times the flux of the redshifted spectrum received in the filter from is the luminosity of the emitted spectrum in the filter to; the factor does not depend on the normalisation of the spectrum and grows with the square of the distance; it is NaN if a filter is not covered. Finding: a spectrum received entirely before the filter from is read beyond its end.", "quantifier": "all increasing wavelengths, spectra, filters, redshifts above -1 and distances other than zero", "why_tests_cant": "All spectra, filters, redshifts and distances.", "anchors": ["include/vif/astro/astro.hpp:1358-1368"]}
{"id": "C128", "title": "Keywords of a FITS header", "statement": "read_keyword gives the text of a card of that name without the blanks and quotes around it, T and F being 1 and 0 for other types than strings; write_keyword changes one card or adds one, add_keyword adds one, remove_keyword removes one, and no other keyword is touched; a string of at most 68 characters without quotes, and without blanks at its ends, is read back; hdu_type is what SIMPLE, XTENSION and the number of axes say. Findings: the string given to read_keyword is cleared if there is no such keyword; quotes within a string are read back twice; blanks at the ends are lost; longer strings are cut without a message; the string T is read as the number 1; a keyword added twice is still there when it was removed.", "quantifier": "all headers, names, values and positions of the last card read", "why_tests_cant": "All headers and strings; what is read depends on what was read before if a keyword is there twice.", "anchors": ["include/vif/io/fits/base.hpp:502-537", "include/vif/io/fits/base.hpp:558-585", "include/vif/io/fits/base.hpp:711-765"]}
{"id": "C129", "title": "Cutouts of the sources of an image", "statement": "pick_sources adds, in order, the identifiers of the sources that are further than the half size from the limits of the image and have only finite pixels, and to the cube the squares of pixels around them; nothing else changes. Findings: a source at the lowest pixel whose cutout is within the image is not picked; a source in the first half of the first pixel that is too far at the high side ends the program; NaN coordinates are converted to an unsigned integer, which is undefined.", "quantifier": "all images, half sizes, lists of coordinates, tests of being finite, and previous cubes and identifiers", "why_tests_cant": "All positions of sources, with the rounding at the limits.", "anchors": ["include/vif/astro/astro.hpp:1244-1275"]}
{"id": "C130", "title": "Minimisation of a function", "statement": "minimize_bfgs always ends, after at least one iteration and at most max_iter (or one) of them; it is a success exactly if the minimizer makes no progress or has a small gradient within these; params and value are those of the minimizer at that time; the function gives its value and then the derivatives. Findings: an exception of the function does not reach the caller and leaves the position 0; max_iter = 0 does one iteration; a function that gives too few derivatives is read beyond its end.", "quantifier": "all minimizers (states, iterations, tests of the gradient), starts, and numbers of iterations", "why_tests_cant": "All ways in which a minimizer may end, and all numbers of iterations.", "anchors": ["include/vif/math/optimize.hpp:13-150"]}
