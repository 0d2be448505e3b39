{"id": "C01", "title": "for_each visits every element exactly once, in order, and nothing else", "statement": "At run time, without an alignment prologue, vir::for_each(policy, first, last, fun) calls fun on chunks whose concatenation, in call order, is exactly the sequence of elements in [first,last): no element is skipped, duplicated or reordered, and no memory outside [first,last) is read or written.", "quantifier": "every range length, start address, SIMD width (power of two or not), unroll factor, element type size, optimisation-for-size setting, memory content and (stateful) callable", "why_tests_cant": "Tests try a few lengths around a few hardware widths; the chunking is a nest of unrolled loop, main loop, jump table and recursion whose boundaries depend on length, width and unroll factor together.", "anchors": ["vir/simd_execution.h: for_each (1110-1172)", "vir/simd_execution.h: simd_for_each_epilogue, simd_for_each_jumptable_epilogue, simd_load_and_invoke"]}
{"id": "C02", "title": "for_each write-back equals element-wise update", "statement": "If fun takes its argument by lvalue reference and updates every chunk lane-wise with f, then after vir::for_each every element x of [first,last) has become f(x) and every byte outside the range is unchanged; if fun takes its argument by value, no memory changes at all.", "quantifier": "every range, width, unroll factor, alignment, memory content and element function f", "why_tests_cant": "Whether an element is written twice or missed depends on length modulo width and unroll step; a test with an idempotent f or a convenient length cannot see it.", "anchors": ["vir/simd_execution.h: for_each (1110-1172)", "vir/simd_execution.h: simd_load_and_invoke (50-61)"]}
{"id": "C03", "title": "Alignment prologue stays inside the range", "statement": "With prefer_aligned() or auto_prologue(), for_each, transform and transform_reduce never access an element outside [first,last) (of any of their ranges), whatever the alignment of the start address and however short the range.", "quantifier": "every start address, range length, vector width, element size, prologue policy", "why_tests_cant": "It needs the combination of a short range and a particular misalignment; the test-suite always aligns or uses long ranges.", "anchors": ["vir/simd_execution.h: prologue::operator() (583-608)", "vir/simd_execution.h: simd_for_each_prologue, simd_transform_prologue, simd_transform_reduce_prologue"]}
{"id": "C04", "title": "Aligned accesses are aligned", "statement": "Whenever an algorithm accesses memory through the vector_aligned flag with a chunk of k elements, the byte address is a multiple of the required alignment of a k-element simd; so prefer_aligned() introduces no misaligned (undefined) access.", "quantifier": "every start address, range length, width, unroll factor, prologue policy, optimisation setting", "why_tests_cant": "A misaligned aligned-load does not fail on most hardware/compilers, and which chunk is misaligned depends on address and length; tests cannot observe it.", "anchors": ["vir/simd_execution.h: prologue (560-609)", "vir/simd_execution.h: simd_for_each_jumptable_prologue (90-180)", "vir/simd_execution.h: simd_for_each_prologue (182-219)"]}
{"id": "C05", "title": "for_each gives the same result in constant evaluation and at run time", "statement": "Evaluating vir::for_each (and count_if) in a constant expression processes each element exactly once, just like the run-time path.", "quantifier": "every range length and SIMD width", "why_tests_cant": "Constant evaluation is a separate code path; a static_assert checks a single length, width and callable.", "anchors": ["vir/simd_execution.h: for_each (1134-1141)", "vir/simd_execution.h: simd_for_each_epilogue (314-356)"]}
{"id": "C06", "title": "transform is std::transform", "statement": "vir::transform(policy, inputs..., d_first, op) with a lane-wise op writes op(x_i, y_i, ...) to d_first[i] for every i in [0,n), leaves all other memory unchanged, returns d_first+n, also when the output range coincides with an input range; both at run time and in constant evaluation.", "quantifier": "every n, number of input ranges, width, unroll factor, policy, address, memory content and element operation; output disjoint from or identical to each input", "why_tests_cant": "Prologue, unrolled loop (loads before stores), main loop and recursive epilogue must agree on positions of several ranges simultaneously for all lengths; tests sample a handful.", "anchors": ["vir/simd_execution.h: detail::transform (710-806)", "vir/simd_execution.h: simd_transform_prologue (636-669)", "vir/simd_execution.h: simd_transform_epilogue (671-708)"]}
{"id": "C07", "title": "transform_reduce / reduce is a generalised sum of init and every transformed element, each exactly once", "statement": "vir::transform_reduce (and reduce) returns a value obtained by combining init and the transformed elements, each exactly once, with reduce_op in some order and grouping (GENERALIZED_SUM); for an associative and commutative reduce_op this equals the sequential fold. No element outside the ranges is read.", "quantifier": "every length, width (also non power of two), unroll factor, policy without prologue, initial value, reduction and transform operation, number of inputs", "why_tests_cant": "Accumulators are kept per lane and per unrolled chunk and merged by trees and splits; a lost or doubled lane only shows for particular (length, width, unroll) triples.", "anchors": ["vir/simd_execution.h: detail::transform_reduce (939-1088)", "vir/simd_execution.h: simd_transform_reduce_epilogue (836-934)", "vir/simd_execution.h: unroll (tree reduction 1037-1046)"]}
{"id": "C08", "title": "transform_reduce with an alignment prologue", "statement": "With prefer_aligned() or auto_prologue(), transform_reduce/reduce over a non-empty valid range long enough for the prologue returns the generalised sum and never executes undefined behaviour.", "quantifier": "every start address, length, width, unroll factor, operations", "why_tests_cant": "The failing case (the prologue consumes exactly the whole range) needs one specific length for each misalignment, and the symptom is undefined behaviour.", "anchors": ["vir/simd_execution.h: detail::transform_reduce (939-1088)", "vir/simd_execution.h: prologue::operator() (583-608)", "vir/simd_execution.h: simd_transform_reduce_epilogue (891-934)"]}
{"id": "C09", "title": "count_if counts", "statement": "vir::count_if(policy, range, pred) returns the number of elements for which pred holds, whenever that number is representable in int, without signed overflow in any intermediate counter.", "quantifier": "every range, width, unroll factor, policy without prologue or with sufficiently long range, predicate, content", "why_tests_cant": "Counting is distributed over vector lanes and a scalar counter; tests cannot vary length, width, unroll factor and predicate jointly nor see overflow of a lane.", "anchors": ["vir/simd_execution.h: count_if (1493-1522)"]}
{"id": "C10", "title": "assume_matching_size is checked before anything happens and gives uniform chunks", "statement": "With assume_matching_size(), if the length is not a multiple of the width the precondition handler fires before any element is read, written or passed to the callable; otherwise every chunk passed to the callable has exactly the SIMD width, and the result is the same as without the modifier.", "quantifier": "every length, width, unroll factor, algorithm", "why_tests_cant": "The loop condition changes to !=, which never terminates or runs away if the length does not match for some unroll factor; only a proof covers all combinations.", "anchors": ["vir/simd_execution.h: for_each (1122-1172)", "vir/simd_execution.h: transform (737-803)", "vir/simd_execution.h: transform_reduce (963-1088)"]}
{"id": "C11", "title": "Callable sees only width-W chunks and smaller power-of-two chunks", "statement": "Each invocation of the callable of for_each gets either unroll_by chunks of the SIMD width W, one chunk of W, or one chunk whose size is a power of two smaller than W; each smaller size occurs at most once after the main loop.", "quantifier": "every length, width, unroll factor, start address, policy", "why_tests_cant": "A user's callable must be instantiable for, and correct on, every size it is given; tests only see the sizes of the lengths tried.", "anchors": ["vir/simd_execution.h: for_each", "vir/simd_execution.h: simd_for_each_epilogue", "vir/simd_execution.h: simd_for_each_prologue"]}
{"id": "C12", "title": "Policy modifiers are consistent for every chain of calls", "statement": "Any policy object obtainable by chaining modifiers on vir::execution::simd carries at most one of prefer_aligned, auto_prologue, assume_matching_size, an unroll factor that is either unset or the single value (>1) requested, and a size that is unset or the single value (>0) requested; the result does not depend on the order in which compatible modifiers were applied.", "quantifier": "every sequence of modifier calls", "why_tests_cant": "The set of chains is infinite; tests check a couple of them.", "anchors": ["vir/simd_execution.h: execution::simd_policy (424-509)"]}
{"id": "C13", "title": "Unsigned element-wise arithmetic is modular", "statement": "For simd of an unsigned integer type of w bits, +, -, *, unary -, ++, --, ~, &, |, ^ give in each lane the mathematical result modulo 2^w and are never undefined.", "quantifier": "every unsigned element type, width and operand values", "why_tests_cant": "Integer promotion makes some operand values undefined only for some types; a test has to hit those operand values and UB is not reliably observable.", "anchors": ["vir/simd.h: simd<T, fixed_size<N>> operators (1522-1765)", "vir/simd.h: simd_int_operators (1108-1228, 1418-1520)"]}
{"id": "C14", "title": "simd operators are the scalar C++ operators on each lane", "statement": "Each arithmetic, bitwise, shift and comparison operator of simd<T,A> yields in each lane exactly static_cast<T> of the scalar C++ expression on those lanes (after integral promotion), and is undefined exactly when the scalar expression is undefined on some lane; the compound assignment forms agree with the binary forms.", "quantifier": "every integer element type (width and signedness), number of lanes, operand values and operator", "why_tests_cant": "Operand spaces are 2^64 and larger; the interesting ones are corner values after promotion.", "anchors": ["vir/simd.h: simd operators (1230-1765)"]}
{"id": "C15", "title": "Load/store round trip and frame", "statement": "copy_from after copy_to at the same address gives back the simd; copy_to modifies exactly the size() addressed elements and copy_from reads exactly those; a generator constructor and operator[] are inverse.", "quantifier": "every memory content, address, number of lanes and element value", "why_tests_cant": "Out-of-range stores are invisible unless the test checks every other address.", "anchors": ["vir/simd.h: simd::copy_from, copy_to, simd(G&&), operator[] (1230-1765)"]}
{"id": "C16", "title": "where() changes selected lanes only", "statement": "where(k, v) OP= x (and assignment, ++, --) leaves every lane i with !k[i] unchanged and makes every lane with k[i] equal to v[i] OP x[i]; unselected lanes cannot cause undefined behaviour (e.g. division by zero, overflow).", "quantifier": "every mask, value, operand, operator and lane count", "why_tests_cant": "2^N masks times operand values; UB in unselected lanes is unobservable by testing.", "anchors": ["vir/simd.h: where_expression (1947-2276)"]}
{"id": "C17", "title": "Masked loads and stores touch selected memory only", "statement": "where(k,v).copy_from(p) reads p[i] only for selected i and keeps the other lanes; where(k,v).copy_to(p) writes p[i] only for selected i; simd_mask masked loads likewise read only selected elements. In particular addresses of unselected lanes may be invalid.", "quantifier": "every mask, memory, address", "why_tests_cant": "A stray read of a valid neighbour address is invisible to a test; a proof with inaccessible memory shows its absence.", "anchors": ["vir/simd.h: const_where_expression::copy_to, where_expression::copy_from (1947-2276)", "vir/simd.h: simd_mask(const bool*, simd_mask, flags)"]}
{"id": "C18", "title": "Mask reductions agree with their logical meaning", "statement": "all_of, any_of, none_of, some_of, popcount, find_first_set and find_last_set of a mask equal, respectively: conjunction, disjunction, negated disjunction, 'any but not all', number of set lanes, least and greatest set index; hence all_of(k)==none_of(!k), some_of==any&&!all, popcount==size iff all_of, etc. find_first_set/find_last_set are undefined only for an empty mask.", "quantifier": "every mask of every size", "why_tests_cant": "2^N masks for every N.", "anchors": ["vir/simd.h: all_of..find_last_set (953-1106)"]}
{"id": "C19", "title": "split and concat are inverse and order preserving", "statement": "concat(split<Sizes...>(v)) == v and split<Sizes...>(concat(v1..vn)) == (v1..vn); the k-th part of split holds the consecutive lanes starting at the sum of the previous sizes; the array forms agree.", "quantifier": "every list of sizes, lane values", "why_tests_cant": "The number of partitions is exponential in the width.", "anchors": ["vir/simd.h: split, concat (1844-1945)"]}
{"id": "C20", "title": "reduce(simd, op) combines every lane exactly once", "statement": "reduce(v, op) returns some grouping/ordering of op over all lanes of v, each used exactly once; for an associative, commutative op it is the sequential fold. reduce(where(k,v), identity, op) folds exactly the selected lanes together with the identity element, giving identity when none is selected.", "quantifier": "every lane count (not only powers of two), lane values, mask and op", "why_tests_cant": "The recursion splits off bit_floor(N/2) halves plus a remainder; tests only run the few N supported by the hardware ABIs and small values.", "anchors": ["vir/simd.h: reduce (2278-2350)"]}
{"id": "C21", "title": "hmin/hmax over selected lanes", "statement": "hmin(where(k,v)) is the minimum of the selected lanes if any lane is selected (hmax: maximum), for integer and floating-point element types, including infinities; hmin(v)/hmax(v) are the minimum/maximum over all lanes.", "quantifier": "every mask with at least one selected lane, all values incl. +-infinity, all lane counts", "why_tests_cant": "Only the extreme values +-infinity together with a mask reveal a wrong identity element.", "anchors": ["vir/simd.h: hmin, hmax (2352-2405)"]}
{"id": "C22", "title": "Implicit simd conversions never change a value", "statement": "If simd<U> (or a scalar U other than int/unsigned corner cases of the TS) is implicitly convertible/broadcastable to simd<T> according to the value-preserving rule, every value of U is exactly representable in T.", "quantifier": "every pair of arithmetic types (any widths, signedness, IEEE formats) and all values", "why_tests_cant": "The trait is evaluated on numeric_limits only; that it implies exactness for all 2^64 values needs an argument.", "anchors": ["vir/simd.h: is_value_preserving (352-376)", "vir/simd.h: ValuePreservingOrInt (386-396)", "vir/simd.h: is_higher_integer_rank (326-350)"]}
{"id": "C23", "title": "simd_permute obeys its index function on every code path", "statement": "Lane i of simd_permute(v, idx) is v[j] for 0<=j<size, v[size+j] for -size<=j<0, 0 for simd_permute_zero, where j=idx(i[,size]); any other index is rejected at compile time; the shuffle-builtin path and the generic path return the same lanes wherever they are specified.", "quantifier": "every index function, lane count of input and output, content", "why_tests_cant": "Infinitely many index functions; which path is used depends on target and evaluation context.", "anchors": ["vir/simd_permute.h: simd_permute (175-276)"]}
{"id": "C24", "title": "rotate is a cyclic rotation", "statement": "simd_permute(v, rotate<O>) has lane i equal to v[(i+O) mod size] with the mathematical (non-negative) mod, for every positive or negative O; hence rotate<a> then rotate<b> is rotate<a+b> and rotate<-a> undoes rotate<a>.", "quantifier": "every offset, every size, on the generic path, the shuffle path and the AVX2 8xfloat path", "why_tests_cant": "Only some (size, sign, offset, target) combinations misbehave; tests use power-of-two sizes and small positive offsets.", "anchors": ["vir/simd_permute.h: simd_permutations::Rotate (139-152)", "vir/simd_permute.h: AVX2 control word (189-206)"]}
{"id": "C25", "title": "Neighbour swaps, reversal and duplication are well-formed permutations", "statement": "For every size divisible by 2N, swap_neighbors<N> exchanges blocks of N, stays in bounds and is an involution; reverse is an involution mapping i to size-1-i; duplicate_even/odd are idempotent and never index out of bounds for even sizes; broadcast<P> copies lane P (negative counts from the end).", "quantifier": "every N, size, lane content", "why_tests_cant": "Two different formulas (xor, +-N) are used depending on N; all sizes and N must be covered.", "anchors": ["vir/simd_permute.h: SwapNeighbors, Reverse, DuplicateEven, DuplicateOdd, Broadcast (66-137)"]}
{"id": "C26", "title": "shift and shift_in move lanes without losing or inventing values", "statement": "simd_permute(v, shift<O>) lane i is v[i+O] if that index exists and 0 otherwise; simd_shift_in<O>(a, more...) lane i is element i+O of the concatenation of all arguments, and 0 if there is none; simd_shift_in<O>(a) agrees with shift<O>.", "quantifier": "every offset (positive and negative), size, number of additional arguments, content", "why_tests_cant": "Boundary offsets (negative, beyond the concatenation) are a 2-parameter family for each size.", "anchors": ["vir/simd_permute.h: Shift (154-170)", "vir/simd_permute.h: simd_shift_in (310-331)"]}
{"id": "C27", "title": "_cw literals have the value C++ gives them", "statement": "Whenever a literal with suffix _cw is accepted, its value is the value of the same literal without suffix, including hexadecimal, octal and binary bases and digit separators; it is never silently wrapped around.", "quantifier": "every character sequence of a valid C++ integer literal of any length", "why_tests_cant": "Infinitely many literals; overflow is detected digit by digit with a bound that depends on the base.", "anchors": ["vir/constexpr_wrapper.h: cw_parse (380-458)"]}
{"id": "C28", "title": "_cw accepts every C++ integer literal that fits", "statement": "Every valid C++ integer literal (decimal, octal, hexadecimal with 0x/0X, binary with 0b/0B, with digit separators) whose value fits in unsigned long long is accepted with suffix _cw; those that do not fit are rejected at compile time.", "quantifier": "every valid integer literal", "why_tests_cant": "Tests enumerate some spellings; the accepted language is infinite.", "anchors": ["vir/constexpr_wrapper.h: cw_parse (380-458)", "vir/constexpr_wrapper.h: operator\"\"_cw"]}
{"id": "C29", "title": "_cw literals get the smallest signed type", "statement": "The type of an accepted _cw literal is the smallest of signed char, short, int, long, long long able to represent the value, and unsigned long long if none can; the value is representable in the chosen type.", "quantifier": "every value representable in unsigned long long", "why_tests_cant": "2^64 values; boundaries at each type.", "anchors": ["vir/constexpr_wrapper.h: cw_parse (435-458)"]}
{"id": "C30", "title": "struct_size finds the number of members", "statement": "vir::struct_size_v<T> of an aggregate is the largest number of initialisers accepted by T's aggregate initialisation (within its size bound), given that the accepted numbers form a contiguous interval; the search always terminates and only probes sizes in its bounds.", "quantifier": "every aggregate, i.e. every acceptance predicate that is an interval, every sizeof", "why_tests_cant": "The search is a recursive bisection with several index computations; tests only instantiate a few structs.", "anchors": ["vir/struct_reflect.h: struct_size (72-117)"]}
{"id": "C31", "title": "simdize loads put element i of the array into lane i", "statement": "For a simdized struct v loaded from it: v[i] is equal to it[i] member by member for all lanes i, on the generic path and on every shuffle-based fast path.", "quantifier": "every N for which a path is enabled, every array content, 2 and 3 members", "why_tests_cant": "Which path is used depends on target flags and the member type; each is an index permutation that must hold for every lane.", "anchors": ["vir/simdize.h: vectorized_struct copy_from / _load_elements_via_permute (593-811)"]}
{"id": "C32", "title": "simdize store writes lane i to element i, and load-store is the identity", "statement": "copy_to of a simdized struct writes member m of lane i to it[i].m for all i and nothing else; copy_from followed by copy_to leaves memory unchanged on every path (so for_each over structs with an unmodified argument does not change the range).", "quantifier": "every N, array content, path", "why_tests_cant": "Needs load and store shuffles of different shapes to be mutually inverse for all N.", "anchors": ["vir/simdize.h: _store_elements_via_permute (814-899)", "vir/simdize.h: simd_tuple (367-494)"]}
{"id": "C33", "title": "flattened member access reaches each member once", "statement": "For (nested) aggregates the flattened member list enumerates every scalar member exactly once in declaration order, and indexed access to flattened member I returns that member.", "quantifier": "every nesting structure of aggregates", "why_tests_cant": "Infinitely many nested struct shapes.", "anchors": ["vir/simdize.h: flat_member_count, flat_element, flat_get (230-298)"]}
{"id": "C34", "title": "simd_version comparison is a total order consistent with the encoded version number", "statement": "The comparison of vir::simd_version is the lexicographic total order on (major, minor, patchlevel) and, for components < 256, agrees with comparing the numeric VIR_SIMD_VERSION encodings; all six relational operators are mutually consistent.", "quantifier": "all version triples", "why_tests_cant": "Infinitely many pairs/triples (transitivity).", "anchors": ["vir/simd_version.h"]}
{"id": "C35", "title": "bitset conversion round trip", "statement": "to_simd_mask(to_bitset(k)) == k and to_bitset(to_simd_mask(b)) == b with bit i corresponding to lane i.", "quantifier": "every mask/bitset of every size", "why_tests_cant": "2^N values for every N.", "anchors": ["vir/simd_bitset.h"]}
{"id": "C36", "title": "simd_bit_cast and floating-point bit operations preserve object representation", "statement": "simd_bit_cast<To>(x) has the same bytes as x, and casting back returns x; the &, |, ^ operators on floating-point simd act on the bit patterns of each lane independently.", "quantifier": "every element width, lane count and bit pattern (incl. NaN payloads)", "why_tests_cant": "All bit patterns; float comparison in a test cannot distinguish NaN payloads or signed zero.", "anchors": ["vir/simd_bit.h", "vir/simd_float_ops.h"]}
{"id": "C37", "title": "Resizing keeps the common lanes and zero-fills the rest", "statement": "simd_resize<N>(v)/simd_size_cast<M>(v) keep lane i for every i below both sizes and value-initialise the others; growing and then shrinking back is the identity.", "quantifier": "every pair of sizes, lane values", "why_tests_cant": "Two-parameter family of sizes.", "anchors": ["vir/simd_resize.h", "vir/simd_cast.h"]}
{"id": "C38", "title": "ABI conversions preserve lanes", "statement": "to_fixed_size, to_native, to_compatible and static_simd_cast return a simd with the same number of lanes holding the same (converted) values in order.", "quantifier": "every lane count, value", "why_tests_cant": "Only certain element types have native width 1, so the instantiated combination decides.", "anchors": ["vir/simd.h: static_simd_cast, to_fixed_size, to_native, to_compatible (1767-1842)"]}
{"id": "C39", "title": "min, max, minmax, clamp are lane-wise and ordered", "statement": "min/max/minmax/clamp compute lane-wise; min(a,b) and max(a,b) together contain a and b; clamp(v,lo,hi) lies in [lo,hi] and equals v where v does, given lo<=hi.", "quantifier": "every lane count and every totally ordered value", "why_tests_cant": "All values of all lanes; boundary equalities.", "anchors": ["vir/simd.h: min, max, minmax, clamp (2407-2428)"]}
{"id": "C40", "title": "iota", "statement": "vir::iota_v<V> has lane i equal to i converted to the element type, for every simd, scalar and array type, for all sizes.", "quantifier": "every type shape and size", "why_tests_cant": "Infinitely many sizes.", "anchors": ["vir/simd_iota.h"]}
{"id": "C41", "title": "detail::bit_ceil is the least power of two not below its argument", "statement": "detail::bit_ceil(x) on an unsigned type terminates and returns the least power of two >= x whenever that power of two is representable; so does the loop of stdx::detail::bit_ceil.", "quantifier": "every width of the unsigned type and every x in 1..2^(w-1)", "why_tests_cant": "All 2^31 arguments; the recursion depth is not visible in results.", "anchors": ["vir/detail.h: bit_ceil (184-187)", "vir/simd.h: detail::bit_ceil (221-229)"]}
{"id": "C42", "title": "simdize_size and default_simdize_size", "statement": "simdize_size<T> of a (nested) aggregate is n > 0 exactly if every scalar member is a simd of n lanes, and 0 otherwise; default_simdize_size<T> is the largest native_simd size of any scalar member.", "quantifier": "every nesting structure of aggregates, every combination of member sizes", "why_tests_cant": "Infinitely many nested struct shapes and size combinations.", "anchors": ["vir/simdize.h: simdize_size (35-57), default_simdize_size (137-160)"]}
{"id": "C43", "title": "Math functions apply the scalar function lane by lane", "statement": "Every math function on simd (one, two and three arguments, and those with an output parameter: modf, frexp, remquo) yields in lane i the scalar std:: function of lane i of its arguments, writes lane i of the output object, and is undefined only if the scalar function is; modf(x, &x) equals modf with a separate output object. abs on signed integers is |x| per lane except at the lowest value.", "quantifier": "every scalar function, every number of lanes, every argument, every signed integer width", "why_tests_cant": "Every width, every lane value and every combination of lanes; aliasing of input and output is not tried.", "anchors": ["vir/simd.h: SIMD_MATH_* (2431-2487), abs (2489-2492), remquo (2505-2509), modf, frexp, scalbln, scalbn, ldexp (2531-2558)"]}
{"id": "C44", "title": "struct_get, to_tuple and to_pair return the members in declaration order", "statement": "For an aggregate with m <= 50 members whose number struct_size finds, struct_get<N> is the N-th member for N < m and ill-formed otherwise, to_tuple holds all members in order, to_pair is well-formed exactly if m = 2; m > 50 is ill-formed.", "quantifier": "every aggregate size, every member index, every member value", "why_tests_cant": "51 hand-written specialisations; a swapped, missing or duplicated identifier in one of them shows only for that size.", "anchors": ["vir/struct_reflect.h: detail::struct_get (119-371), struct_get (436-443), to_tuple, to_tuple_ref (462-479), to_pair, to_pair_ref (501-515)"]}
{"id": "C45", "title": "simdize<T, N> has N lanes at every level, or leaves T alone", "statement": "For an aggregate T made (recursively, without empty aggregates) of vectorizable types, simdize<T, N> with N > 0 has the structure of T with simds of N lanes for the scalars and size() N at every level if every scalar has a simd of width N, and is T itself otherwise; N = 0 means the largest native_simd size of any scalar of T. Any other type is left alone. simdize is well-formed for every N for which all scalars have a simd.", "quantifier": "every nesting of aggregates, every assignment of native sizes and permitted widths to scalar types, every N", "why_tests_cant": "Any depth and shape of the nesting, and any target's set of native sizes and permitted widths.", "anchors": ["vir/simdize.h: simdize_impl (100-107, 344-359), recursively_vectorizable (109-135), default_simdize_size (137-160), make_simd_tuple (165-174), simdize (1018-1019)"]}
{"id": "C46", "title": "ABI tags name the intended number of lanes", "statement": "simd_abi::native<T> fills exactly one vector register of the target for element types of 1, 2, 4, 8 bytes (64 bytes with AVX-512, 32 with AVX2 or for floating point with AVX, 16 otherwise), simd_abi::compatible<T> fills 16 bytes, both are scalar for larger elements; deduce_t<T, N> and resize_simd<N> have N lanes and agree, resize_simd<N> exists exactly for N > 0; rebind_simd keeps the lanes; rebind and resize commute and the last resize counts.", "quantifier": "every combination of the AVX macros, every element size and kind, every N below 2^31", "why_tests_cant": "A test binary is compiled for one set of target macros; the AVX-without-AVX2 branch is rarely built.", "anchors": ["vir/simd.h: simd_abi (414-455), simd_size (552-566), rebind_simd (584-598), resize_simd (600-621)"]}
{"id": "C47", "title": "The type traits and concepts accept exactly the types of the TS", "statement": "is_vectorizable and the concept vectorizable accept exactly the unqualified arithmetic types other than bool; is_abi_tag exactly the scalar and fixed_size tags; is_simd/is_simd_mask exactly the simd/simd_mask of a vectorizable type and an ABI tag, never both; the concepts any_simd, any_simd_mask, any_simd_or_mask agree with the traits; a pointer is accepted by a load or store exactly if both types are vectorizable or both are bool; is_simd_flag_type accepts exactly the alignment flags.", "quantifier": "every type (as built from arithmetic types, classes, cv-qualification, tags, simd and simd_mask)", "why_tests_cant": "The negative cases range over all types; a trait that accepts too much shows only for the type nobody tried.", "anchors": ["vir/simd.h: is_vectorizable (288-296), LoadStorePtr (398-411), traits (506-550)", "vir/simd_concepts.h: concepts (25-61)"]}
{"id": "C48", "title": "Construction, conversion, subscript and load of simd_tuple act lane by lane", "statement": "A simd_tuple built from an aggregate has in lane i the scalars of the aggregate and lane i of its simds, at every level; an aggregate of another shape or width is rejected; subscript i returns the aggregate of the i-th lanes of all members; converting to an aggregate of simds and back is the identity; a load of n consecutive objects puts object i into lane i, for every aggregate that can be simdized.", "quantifier": "every nesting of aggregates, every width, every lane, every content of memory", "why_tests_cant": "Any depth and shape of aggregate.", "anchors": ["vir/simdize.h: simd_tuple (367-494), vectorized_struct constructors (555-569)"]}
{"id": "C49", "title": "A binary operator with a constexpr_wrapper operand yields the wrapper of the result", "statement": "If at least one operand of a binary operator is a constexpr_wrapper (or derived from one) and the other has a constant value, there is exactly one viable overload and the result is constexpr_wrapper<a op b>; an operation that is undefined on the values is rejected.", "quantifier": "every operator, every pair of operand types and values", "why_tests_cant": "Overload resolution is checked for the pairs a test spells; a pair that becomes ambiguous is a compile error no positive test contains.", "anchors": ["vir/constexpr_wrapper.h: constexpr_value (37-42), detail concepts (50-62), binary operators (154-258)"]}
{"id": "C50", "title": "for_each over structs passes every struct once and updates it in place", "statement": "For a range of structs (simdized by template argument substitution or as a tuple), for_each passes every struct as a lane of exactly one argument, in the order of the range, and with a callable that takes its argument by reference every struct is afterwards what the callable left in its lane; nothing outside of the range is accessed.", "quantifier": "every struct, every range length, width, policy (with unrolling), callable and state", "why_tests_cant": "The path of load and store depends on member count, member type, width and target; the tests use for_each on structs with one of them.", "anchors": ["vir/simd_execution.h: simd_load_and_invoke (50-60), memory_alignment (538-558), for_each (1110-1172)", "vir/simdize.h: simd_tuple (367-494), vectorized_struct (516-979)"]}
{"id": "C51", "title": "Call, subscript and unary operators of constexpr_wrapper agree with the wrapped value", "statement": "Calling or subscripting a constexpr_wrapper gives what calling or subscripting its value with the argument values gives, wrapped again if all arguments are constants and plain otherwise; it is well-formed whenever that is; without arguments and if the value cannot be called it gives the value itself. A unary operator gives the wrapped result of the operator on the value.", "quantifier": "every wrapped object, argument list and unary operator", "why_tests_cant": "The set of wrapped objects and argument types is unbounded; ill-formed uses cannot be in a test that compiles.", "anchors": ["vir/constexpr_wrapper.h: unary operators (104-122), operator() (324-339), operator[] (341-368), conversion (76-78)"]}
{"id": "C52", "title": "transform over ranges of structs combines corresponding elements", "statement": "vir::transform with ranges of structs (or a mix of struct and arithmetic ranges) sets out[i] to op(in1[i], in2[i], ...) for every i, changes nothing else and returns the end of the output, whatever the policy, the alignment and the size; the output may be one of the inputs.", "quantifier": "every struct type, number of inputs, width, policy, range size, position and memory content", "why_tests_cant": "Struct types, widths, sizes and contents are unbounded; tests use a few types, and per-lane results that are permuted consistently in input and output go unnoticed.", "anchors": ["vir/simd_execution.h: detail::transform (710-806), simd_transform_prologue (636-669), simd_transform_epilogue (671-708), simdized_load_and_invoke (618-624)", "vir/simdize.h: load and store of vectorized_struct and simd_tuple (458-493, 579-929)"]}
{"id": "C53", "title": "transform of a zip_view applies the operation to corresponding elements", "statement": "vir::transform(policy, zip_view(r1, ..., rn), d, op) sets d[i] to op of the pair (n = 2) or tuple (otherwise) of the i-th elements of r1 ... rn for every i below the size of the shortest range, changes nothing else and returns d plus that size; an empty view changes nothing.", "quantifier": "every number of ranges, sizes, policy, width, position and memory content, at run time and in constant evaluation", "why_tests_cant": "Numbers and sizes of ranges are unbounded; tests zip two ranges of equal, positive size.", "anchors": ["vir/simd_execution.h: transform for zip_view (1251-1271)"]}
{"id": "C54", "title": "transform_reduce over ranges of structs sums corresponding elements once each", "statement": "vir::transform_reduce with ranges of structs (or a mix of struct and arithmetic ranges) returns a generalised sum of init and op2(in1[i], in2[i], ...) for i = 0 .. n-1, each taken exactly once, whatever the policy, the alignment and the size; in constant evaluation it returns the sequential fold.", "quantifier": "every struct type, number of ranges, width, policy, range size, position, memory content and pair of operations", "why_tests_cant": "Struct types, widths, sizes and contents are unbounded; a mispairing of elements shows only with several ranges, eight lanes and three-float structs.", "anchors": ["vir/simd_execution.h: detail::transform_reduce (808-1088), simdized_load_and_invoke (618-624), simdized_load_flag1_and_invoke (626-634)", "vir/simdize.h: load of vectorized_struct and simd_tuple (458-467, 579-912)"]}
{"id": "C55", "title": "count_if over ranges of structs counts each struct once", "statement": "vir::count_if over a range of structs returns the number of structs for which the predicate holds, each struct counted exactly once, for every policy, alignment and size, and never reads outside the range; if that number exceeds INT_MAX the behaviour is undefined rather than the result wrong.  In constant evaluation the same holds except for two-lane types and a non-empty even number of structs, where the last struct is counted twice.", "quantifier": "every struct type, predicate, width, policy, range size, position and memory content, at run time and in constant evaluation", "why_tests_cant": "Struct types, widths, sizes and contents are unbounded; the shuffled load of three-float structs permutes the lanes, so counting once per struct is a statement about all permutations of all ranges.", "anchors": ["vir/simd_execution.h: count_if (1493-1522), for_each (1110-1172)", "vir/simdize.h: load of vectorized_struct and simd_tuple (458-467, 579-912)"]}
{"id": "C56", "title": "Scalar conditions are exactly bool", "statement": "where(c, v) with a scalar c, and the mask reductions (all_of, any_of, none_of, some_of, popcount, find_first_set, find_last_set) of a scalar, accept an argument of type bool and of no other type; where never accepts a scalar condition for a simd; a mask condition has to be the mask type of the value or convert to it implicitly; and where yields an assignable expression exactly for non-const lvalues.", "quantifier": "all types of condition and value, and all value categories", "why_tests_cant": "That no other type compiles is a statement about all types; a test can only try some.", "anchors": ["vir/simd.h: detail::ExactBool (254-264), reductions of bool (1080-1106), where (2236-2276), conversions of simd_mask (645-657, 791-810)"]}
{"id": "C57", "title": "Reflection keeps the qualifiers of the members", "statement": "struct_get<N>(obj) is an lvalue reference to the type the expression obj.m has for the N-th member m (declared qualifiers, plus those of the object, unless m is a reference or mutable), whatever the number of members and the value category of obj; to_tuple_ref and to_pair_ref hold such references for all members; struct_element_t<N, T> is the declared type of member N with the qualifiers of T; to_tuple and to_pair hold objects of the declared types; copy_cvref adds exactly the qualifiers and reference of its first argument, and as_tuple_t<T> and as_pair_t<T> carry those of T.", "quantifier": "all member lists up to 50 members, declared types (const, volatile, references, mutable), arguments (lvalue, rvalue, cv)", "why_tests_cant": "The types of the test aggregates are a handful of all combinations of number, declared type, object qualifiers and value category.", "anchors": ["vir/struct_reflect.h: detail::struct_get (119-263), copy_cvref (383-395), struct_get, struct_element, to_tuple, to_tuple_ref, as_tuple, to_pair, to_pair_ref, as_pair (432-530)"]}
{"id": "C58", "title": "Structured bindings of simdized structs", "statement": "A structured binding declaration (auto, const auto, auto&, const auto&, auto&&) of a simdized struct with as many names as the struct has members is well-formed for every initializer for which it would be for a struct with the vectorized members, and name i is an lvalue for the i-th member, const exactly if the object bound is const or the member is declared const.", "quantifier": "all simd_tuple and vectorized_struct types, declaration forms, value categories", "why_tests_cant": "tuple_element is tested for single types, a declaration with structured bindings is not tested at all.", "anchors": ["vir/simdize.h: get (496-511, 981-1000), std::tuple_size and std::tuple_element (1029-1056)"]}
{"id": "C59", "title": "Calls of the algorithms select the documented overload", "statement": "Every documented call of for_each, transform, transform_reduce, reduce and count_if selects the overload documented for it: a pair of iterators (and further iterators) that over iterators, ranges that over ranges, a zip_view that over zip_view; no call is ambiguous. The selected overload over ranges is well-formed for every simd_execution_range and does what the one over iterators does with begin and end of the ranges; the overloads in namespace std do the same as those of vir.", "quantifier": "all argument lists made of pointers, built-in arrays, class iterators, contiguous ranges, zip_views and other values, lvalues and rvalues", "why_tests_cant": "Tests call the algorithms with std::vector and std::array of single types; overload resolution depends on the combination of all argument types.", "anchors": ["vir/simd_execution.h: simd_execution_range, simd_execution_iterator (404-415), the public overloads (1109-1532), the overloads of namespace std (1540-1652)"]}
{"id": "C60", "title": "Structs are vectorized through their template arguments exactly if the layout allows it", "statement": "For a specialisation of a class template whose type arguments can be simdized, vectorizable_struct_template holds exactly if replacing every type argument by its simdized type (and keeping the values) gives a struct with the same members, flattened, as simdizing the members one by one; in particular the concept never holds when the layouts differ, and it is never ill-formed.", "quantifier": "all class templates, argument lists of types and values, nested structs, simd types", "why_tests_cant": "The concept compares types index by index through two recursive traits; tests instantiate it for a handful of structs, most without nesting.", "anchors": ["vir/simdize.h: simdize_template_arguments (176-223), flat_member_count, flat_element (225-273), is_consistent_struct_vectorization, vectorizable_struct_template (308-340)"]}
{"id": "C61", "title": "The algorithms accept the callables and initial values they document", "statement": "transform is well-formed exactly for callables returning simds of the output's value type; transform_reduce and reduce are well-formed for every reduce_op that combines two simds of the aggregation type (the type of init) and every transform_op whose result is acceptable to it, as drop-in replacements for the standard algorithms; which callables are accepted does not depend on the execution policy.", "quantifier": "all element types of inputs, outputs and init, all result types of the callables, all simd widths, unroll factors and prologues", "why_tests_cant": "A call that is ill-formed cannot be part of a test program, so the tests only use the combinations that compile; which ones do depends on some thirty initialisations spread over recursive templates.", "anchors": ["vir/simd_execution.h: transform (636-806), transform_reduce (808-1088), reduce (1415-1472), documentation (1183-1211, 1275-1332)", "vir/simd.h: constructors (1262-1276, 1573-1599), operators, reduce (2279-2307)"]}
{"id": "C62", "title": "Operators on simdized structs are the struct's operators on every lane", "statement": "For a struct template with arithmetic or comparison operators, an operator applied to a vectorized_struct and a vectorized_struct, its base, the scalar struct (broadcast), a simd of the element type or a value of the element type is well-formed exactly if the operator is for the structs, and gives on every lane the result of the struct's operator; results that are structs are vectorized_structs again.", "quantifier": "all structs, all combinations of declared operators (between structs, with elements on either side, as friends or as function templates) and all operands", "why_tests_cant": "Which operator is called is decided by overload resolution between three forwarding friends and the user's operators through implicit conversions; the tests use one operator of one struct between two structs.", "anchors": ["vir/simdize.h: vectorized_struct constructors (545-569), VIR_OPERATOR_FWD (931-978)"]}
{"id": "C63", "title": "struct_size_v is the number of structured bindings", "statement": "For every array and every aggregate that can be decomposed and has either at most three empty bases or no members and one base class with all the members, struct_size_v is the number of elements of the identifier-list of a structured binding declaration; for types with std::tuple_size it is that; other types are not reflectable.", "quantifier": "all aggregates: any bases (nested), members (scalars, references, arrays, nested aggregates, other classes, with or without default member initialisers) and number of members", "why_tests_cant": "The count comes from trying T{...} with objects that convert to almost anything under the rules of aggregate initialisation with brace elision; the tests use structs of one to three floats or simds without bases.", "anchors": ["vir/struct_reflect.h: anything_but_base_of, any_empty_base_of, brace_constructible_impl, aggregate_with_n_members (29-70), struct_size (72-117), aggregate_without_tuple_size (373-381), struct_size_v (408-431)"]}
{"id": "C64", "title": "An exception leaves a finished prefix and nothing else", "statement": "At run time and under the preconditions of C01 and C06, if the callable of for_each or transform throws, the exception leaves the algorithm at once and memory is that of a finished run on a prefix of the range: for_each has written back exactly the chunks whose invocations returned, transform has stored the results of the first n elements where at most unroll-1 further chunks had been computed; the chunks the callable threw on are the unmodified elements after that prefix; nothing else has changed. If nothing throws the result is that of C01 and C06.", "quantifier": "all targets, policies, widths, ranges, memories, callables with state, and points at which they throw; any number of inputs of transform", "why_tests_cant": "No test throws. The guarantee depends on the order of loads, invocations and stores in every prologue, main loop and epilogue path.", "anchors": ["vir/simd_execution.h: simd_load_and_invoke (50-61), for_each (1110-1172), simdized_load_and_invoke (618-624), detail::transform (636-806)", "vir/detail.h: unroll2 (270-280)"]}
{"id": "C65", "title": "Iterator arithmetic stays within the array", "statement": "for_each, transform and transform_reduce form no iterator outside [begin, end] of the arrays they are called on: neither the iterators that are dereferenced nor those only computed for comparison (last - size, last - size*unroll, first + (size-1), first1 + step) are before the first or more than one past the last element, because such arithmetic is undefined behaviour and not a constant expression.", "quantifier": "all targets, policies, widths, ranges and arrays around them, run time and constant evaluation, any number of further inputs", "why_tests_cant": "Pointers before the beginning of an array compare as expected on common hardware, so tests pass; and the tests evaluate the algorithms in constant expressions for a single size.", "anchors": ["vir/simd_execution.h: detail::transform (710-806), detail::transform_reduce (936-1088), for_each (1110-1172)"]}
{"id": "C66", "title": "The sequence of simd sizes is a function of sizes and alignment", "statement": "Under the preconditions of C01, the sizes of the simd objects that for_each hands to its callable are determined by the number n of elements, the width w of the policy, the unroll factor u and the number d of elements in front of the main loop: one object per binary digit 1 of d, smallest first; then as many invocations with u full-width objects as fit (if u > 1); then as many single full-width objects as fit; then one object per binary digit 1 of the remainder, largest first. d is zero unless full-width objects can be aligned and the policy asks for it; with simd_policy_prefer_aligned d is the distance to the next aligned address; with auto_prologue it is that distance if the range has more than 4000 bytes or if every digit 1 of it is a digit 1 of n, else zero. Consequently optimising for size (no jump tables) changes nothing, the unroll factor only groups objects into invocations, on ranges of at most 4000 bytes auto_prologue costs no additional invocation, and constant evaluation behaves like a plain policy without unrolling. transform follows the same sequence for the alignment of its output range at run time; in constant evaluation it handles the remainder element by element.", "quantifier": "all element types, callables that keep the number of lanes, environments, policies, widths, addresses and range lengths (no bound on n)", "why_tests_cant": "Tests fix a handful of lengths, widths and alignments and compare results, not the partition; the partition depends on the address of the data and on compiler flags, so a deviating table entry or an additional invocation goes unnoticed as long as the values are right.", "anchors": ["vir/simd_execution.h:109-171", "vir/simd_execution.h:182-219", "vir/simd_execution.h:241-303", "vir/simd_execution.h:314-356", "vir/simd_execution.h:583-608", "vir/simd_execution.h:739-802", "vir/simd_execution.h:1110-1172"]}
{"id": "C67", "title": "Precondition checks do what the documentation says", "statement": "The library checks preconditions (subscripts of simd and simd_mask, find_first_set and find_last_set of an empty mask, assume_matching_size) under control of VIR_CHECK_PRECONDITIONS = 0..5, default 3. A precondition that holds has no effect. A precondition whose failure the compiler sees is diagnosed with a warning (0, 2, 4) or an error (1, 3, 5). A failure at run time is undefined behaviour (0, 1), traps (2, 3), or prints an error message and aborts (4, 5); the message consists of file, line, function, an explanation with the offending values, and the condition. A failure in constant evaluation does not compile.", "quantifier": "all values of VIR_CHECK_PRECONDITIONS including none, all compilers (with and without __GNUC__, __clang__, every GCC version), whether or not the optimiser knows the condition, all check sites, file names, function names, subscripts, sizes, range lengths and widths", "why_tests_cant": "The test suite never lets a precondition fail and is built with one configuration; the behaviour depends on preprocessor state, compiler and optimiser, and a wrong format string only shows at levels 4 and 5 on a failing range length.", "anchors": ["vir/simd.h:40-175", "vir/simd.h:685-698", "vir/simd.h:838-851", "vir/simd.h:983-991", "vir/simd.h:1058-1071", "vir/simd.h:1301-1309", "vir/simd.h:1630-1638", "vir/simd_execution.h:735-737", "vir/simd_execution.h:965-967", "vir/simd_execution.h:1126-1128", "README.md:586-600"]}
{"id": "C68", "title": "vir::cvt converts lane by lane to whatever type is wanted", "statement": "vir::cvt(x) makes x implicitly convertible to the type the context asks for: between arithmetic types, from an arithmetic value to all lanes of a simd, between simds and between masks with equally many lanes. In copy-initialisation, direct-initialisation, assignment and argument passing the result holds in every lane the corresponding lane of x converted as by static_cast; it does not depend on the context or the constness of the cvt object, equals the plain implicit conversion where there is one, and on simds does to each lane what the same code does to a scalar. It fails only where the conversion of a lane fails. Conversions that would lose lanes, invent lanes or turn masks into numbers do not compile.", "quantifier": "all arithmetic source and target types, all element types and ABIs (scalar, fixed_size<N> for every N >= 1), all values, all initialisation contexts, const and non-const cvt objects, all arithmetic conversions", "why_tests_cant": "vir/test.cpp:93-107 converts a few values between int and float; which conversion function or constructor is selected depends on pairs of types, sizes, contexts and constness, and the accepted-but-wrong conversions are programs nobody wrote.", "anchors": ["vir/simd_cvt.h:15-41", "vir/simd.h:326-396", "vir/simd.h:805-810", "vir/simd.h:1262-1276", "vir/simd.h:1573-1599", "vir/simd.h:1767-1791", "README.md:118-152"]}
{"id": "C69", "title": "The grouping of a reduction is fixed by element count, width, unroll factor and prologue length", "statement": "At run time vir::transform_reduce and vir::reduce combine the initial value and the transformed elements in one fixed expression, for every reduction operation, associative or not. The expression depends only on the number of elements, the simd width, the unroll factor and the number of elements in front of the first aligned address that the policy makes it process first: the chunks of the prologue are combined with the initial value from left to right, the full chunks are added up lane by lane in one accumulator (or, with at least two groups of u chunks, in u accumulators that are then combined as neighbours, neighbours of neighbours and so on), the accumulator is halved until the rest fits, and its lanes are combined in halves. So two runs on equal values give the same result, bit for bit, whatever the element types, memory contents elsewhere, targets and policies otherwise; without prefer_aligned and auto_prologue also whatever the addresses.", "quantifier": "all operations on all accumulator types, all numbers of input ranges and elements, all widths and unroll factors, all policies and alignments for which the prologue leaves an element (the other case is C08)", "why_tests_cant": "testsuite/tests/transform_reduce.cc compares with std::transform_reduce up to a few units in the last place for floating-point types, since the order differs; a change of the grouping, or one that depends on the address, is within that tolerance.", "anchors": ["vir/simd_execution.h:808-1088", "vir/simd.h:2278-2307"]}
{"id": "C70", "title": "Increment, assignment, address, dereference and arrow of constexpr_wrapper follow the wrapped value", "statement": "Applied to a constexpr_wrapper, each of the operators & * ++ -- (prefix and postfix), = and the compound assignments gives the wrapper of what the operator gives for the wrapped constant whenever that is a constant, and compiles only where the operator can be applied to the constant; the wrapper is never modified. The operator -> gives the pointer value.operator->() gives, and the address of the value if the value has no operator->.", "quantifier": "all constants of scalar and class type, all declarations of these operators in classes (member or not, const or not, constexpr or not, with results of any type), all combinations of wrappers, other constants and variables as operands", "why_tests_cant": "test_constexpr_wrapper.cpp has one class with const members and checks six of the operators on it; expressions that must not compile cannot be in it at all, and scalars, pointers and operators that are not constexpr are not tried.", "anchors": ["vir/constexpr_wrapper.h: operator-> (95-102), unary operators (124-152), assignments (259-313)", "README.md: constexpr_wrapper (501-505)"]}
{"id": "C71", "title": "A callable that takes the documented chunks is enough to compile", "statement": "for_each compiles with every callable that can be called with one simd of the policy's width W, with M simds of width W under unroll_by<M>, and with one simd of every power of two below W; count_if, transform and transform_reduce with callables for simds of these widths (reduce_op also for two elements). With assume_matching_size, callables for simds of width W alone are enough, since all given callables are called with a single simd type. Every call made at run time is one of these.", "quantifier": "all widths, unroll factors, prologues and combinations of policy modifiers, with and without optimisation for size, all sets of widths a callable may be restricted to", "why_tests_cant": "Tests must compile, and use generic lambdas that take every width; that a callable for fewer widths is rejected, or that template code for further widths is instantiated but never run, does not show. assume_matching_size does not occur in any test.", "anchors": ["vir/simd_execution.h: jump tables, prologue and epilogue of for_each (91-356), transform (671-806), transform_reduce (808-1088), for_each (1110-1172), count_if (1493-1522), documentation of the modifiers (444-448, 466-472, 477-488, 498-501)", "README.md: execution policy modifiers (257-290)"]}
{"id": "C72", "title": "The execution concepts select the value types that can be vectorized", "statement": "simd_execution_range and simd_execution_iterator hold exactly for contiguous ranges and iterators whose value type vir::simdize turns into a data-parallel type, and are false (not ill-formed) otherwise; for every value type that meets them for_each, count_if, transform and transform_reduce can be instantiated with every policy, given callables that take and return the right simd types.", "quantifier": "all value types (scalars, other types, nested aggregates), all sets of simd widths the implementation provides, all policies, any number of input ranges", "why_tests_cant": "A test shows that the types it uses compile. That a constraint is false for unsuitable types, or that no admitted type fails inside the algorithm, is a statement about all types, and a failing one cannot be part of a compiling test.", "anchors": ["vir/simd_execution.h: concepts (400-415), for_each (1110-1172), count_if (1493-1522), transform (610-806), transform_reduce (808-1088), jump tables, prologue and epilogue (91-356)", "vir/simdize.h: simdize_impl (100-107, 344-359), loads and stores (458-494, 900-929)"]}
{"id": "C73", "title": "The calls vir::transform makes to a callable with state", "statement": "For a callable that keeps state, may throw, and may mix the lanes of its arguments: vir::transform calls it once for each chunk of the schedule (C66), with exactly the elements of that chunk from every input range, step after step; each result is stored where its chunk is in the output, once all calls of its step have returned. Without unroll_by, and in constant evaluation, the calls are made in ascending order and nothing that was returned is lost when a later call throws. With unroll_by the order inside a step is unspecified; if the answers of the callable do not depend on its state, the memory left behind is the same for every order, also when it throws.", "quantifier": "all callables (any state, any result that keeps the number of lanes, any exceptions), all orders of the calls in a step, all policies, widths, ranges, element types, any number of input ranges", "why_tests_cant": "A test runs one compiler's order of evaluation, and one callable. That no order the language allows changes the result is a statement about all of them.", "anchors": ["vir/simd_execution.h: transform (710-806), simdized_load_and_invoke (618-624), simd_transform_prologue and simd_transform_epilogue (636-708)", "vir/detail.h: unroll2 (270-280)"]}
{"id": "C74", "title": "transform_reduce and count_if with callables that mix lanes", "statement": "For a transform operation that returns as many lanes as it is given, but may compute them from all lanes of its arguments, vir::transform_reduce combines init and the lanes of its results for the chunks of the range, every lane once, in the order of C69. For such a predicate vir::count_if returns, as documented, the number of true values in all masks the predicate returns for the chunks of the schedule (C66), if that is representable in int. (Where the prologue leaves nothing, and for width 2 in constant evaluation, see C08 and C05.)", "quantifier": "all transform operations and predicates that keep the number of lanes, all reduction operations, policies, widths, ranges and contents, any number of input ranges", "why_tests_cant": "Tests use callables that act lane by lane; what the others see depends on length, width, address and policy together.", "anchors": ["vir/simd_execution.h: transform_reduce (808-1088), count_if (1493-1522)"]}
{"id": "C75", "title": "typed_simd, sized_simd, sized_simd_mask and memory_alignment", "statement": "typed_simd<V, T> holds exactly if V is a simd of the vectorizable type T with a valid ABI tag; sized_simd<V, W> and sized_simd_mask<V, W> hold exactly if V is a simd or a simd_mask of a vectorizable type whose ABI tag stands for W lanes, W > 0; asking is a compile-time error exactly if any_simd or any_simd_mask is one. memory_alignment_v<V, U> is alignof(U), so that vector_aligned asks no more of a pointer than element_aligned, and exists exactly for a simd V and a vectorizable U or a simd_mask V and bool.", "quantifier": "every type (as in C47), every width, every alignof", "why_tests_cant": "The negative cases range over all types and widths.", "anchors": ["vir/simd_concepts.h: typed_simd, sized_simd, sized_simd_mask (63-73)", "vir/simd.h: memory_alignment (568-582), size() (636, 782, 1253, 1564)"]}
{"id": "C76", "title": "With the library's own simd type alignment plays no role", "statement": "For simd types whose memory_alignment is the one of vir/simd.h (alignof of the element type), prefer_aligned() and auto_prologue() change nothing in for_each, count_if, transform and transform_reduce, and neither does the address of the range: the callable sees the same arguments in the same order, memory and result are the same, and so is undefined behaviour, at run time and in constant evaluation. In particular the claims of C01, C03, C06, C08 and C09 hold there for every policy and every address, without the exceptions known for libstdc++'s simd types.", "quantifier": "all element types with alignof <= sizeof, widths, policies, unroll factors, ranges, addresses, contents and callables", "why_tests_cant": "Tests run on one platform's alignment rule with a few lengths and offsets; here every pair of policies and addresses is compared.", "anchors": ["vir/simd.h: memory_alignment (568-582)", "vir/simd_execution.h: memory_alignment (536-558), prologue (560-609), for_each (1110-1172), transform (710-806), transform_reduce (939-1088), count_if (1493-1522)"]}
{"id": "C77", "title": "The algorithms agree with one another", "statement": "Wherever the single calls are right (C01 to C09 with the exact extents of C03, C05 and C08), the algorithms satisfy the usual equations, whatever policies, widths and targets the two sides use and whether they run at compile time or at run time: for_each with an element-wise update leaves the memory that transform in place leaves; two for_each or transform calls in succession leave what one call with the composition leaves; a range may be cut anywhere (for_each, transform_reduce, count_if); transform_reduce with an associative and commutative operation is transform followed by reduce, and reduce does not depend on the order of the elements; count_if is the sum of ones over the hits as long as that is an int, and the hits of a predicate and of its negation add up to the length of the range.", "quantifier": "all element-wise callables, element types, policies, widths, targets, ranges, cuts and memory contents on either side of each equation", "why_tests_cant": "Each equation relates two or three independently chosen configurations; tests compare one algorithm with a reference on a few sizes.", "anchors": ["vir/simd_execution.h: for_each (1110-1172), transform (636-806), transform_reduce (939-1088), reduce (1416-1443), count_if (1493-1522)"]}
{"id": "C78", "title": "Integer types of a given size, and loops at compile time", "statement": "meta::as_int<T> is the signed integer type of the size of T with the greatest integer conversion rank (among signed char, short, int, long, long long and, where there is one, __int128), and has no member type exactly if none of them has that size; meta::as_unsigned<T> is its unsigned counterpart. detail::unroll<n>(fun) calls fun with the constants 0, 1, ..., n - 1 in this order and is ill-formed for negative n and where the recursion exceeds the limit of the compiler.", "quantifier": "all sizes of T, all platforms (sizes of the integer types), all n and limits", "why_tests_cant": "Tests run on one or two platforms, with the types the library uses itself.", "anchors": ["vir/detail.h: meta::as_int (78-119), meta::as_unsigned (121-162), unroll (257-268)"]}
{"id": "C79", "title": "Depth of the expression computed by transform_reduce and reduce, and accuracy of sums", "statement": "At run time transform_reduce and reduce compute the value of an expression in which the initial value and every (transformed) element occur exactly once, and no element passes through more than r + 2 ceil(log2 w) applications of the operation, where w is the width, q the number of full chunks behind the prologue and r = max(1, q), or q / u + q mod u + ceil(log2 u) if the loop is unrolled u times (u > 1, q >= 2 u); nor through more than there are elements. The bound is reached for widths that are powers of two. Consequently, if one addition has a relative error of at most eps as long as its exact result does not exceed a limit, and (1 + eps)^k times the sum of the magnitudes stays below the limit, k being the bound, then no addition leaves the range and the result differs from the exact sum by at most ((1 + eps)^k - 1) times the sum of the magnitudes. In constant evaluation the elements are combined from left to right, and k is the number of elements.", "quantifier": "all operations, element types, policies, widths, targets, ranges, memory contents, error bounds and limits; the prologue leaves an element (C08)", "why_tests_cant": "Tests compare sums of a few sizes with a tolerance; neither the tolerance nor the depth is derived from the width and the number of elements.", "anchors": ["vir/simd_execution.h: transform_reduce (939-1088), reduce (1415-1472)"]}
{"id": "C80", "title": "Sums of floating-point numbers", "statement": "For every binary format of IEEE 754 with precision p and largest number M, the addition rounding to nearest even adds up with a relative error of at most 2^-p as long as the exact sum is at most M, including subnormal numbers. Hence vir::reduce and vir::transform_reduce with std::plus over finite numbers x_0 (the initial value), ..., x_n return a finite number that differs from the exact sum by at most ((1 + 2^-p)^k - 1) times the sum of |x_i|, provided that (1 + 2^-p)^k times this sum is at most M, where k is the bound of C79 on the depth (at run time) or n (in constant evaluation).", "quantifier": "all formats, ranges, values, policies, widths, targets; the prologue leaves an element (C08)", "why_tests_cant": "Tests compare sums of small integers, which are exact.", "anchors": ["vir/simd_execution.h: transform_reduce (939-1088), reduce (1415-1472)"]}
{"id": "C81", "title": "for_each and transform need as few simd objects as possible", "statement": "For a width w that is a power of two, without a prologue (and with auto_prologue() on ranges of at most 4000 bytes, where the prologue replaces the epilogue) for_each and transform at run time cover n elements with the least number of simd objects that is possible with objects of w lanes or of a smaller power of two; for_each does so in constant evaluation, too (the exception of C05 aside). A prologue costs at most log2 w objects more. For every width w and unroll factor u (1 if there is none), for_each invokes its callable at least n / (w u) times and at most n / (w u) + u - 1 + 2 log2 w times (log2 rounded up; once log2 w without prologue), and no more than 2 (w - 1) elements (w - 1 without prologue) are in objects narrower than w.", "quantifier": "all element types, callables that keep the number of lanes, targets, policies, widths, addresses and range lengths for which the preconditions of C01 and C06 hold", "why_tests_cant": "Tests compare results, not the number of invocations, and only for a few lengths and alignments.", "anchors": ["vir/simd_execution.h: simd_for_each prologues and epilogues (91-356), prologue (560-609), for_each (1113-1172)", "vir/simd_execution.h: simd_transform_prologue, simd_transform_epilogue and transform (636-806)"]}
{"id": "C82", "title": "The calls transform_reduce makes to its operations", "statement": "At run time vir::transform_reduce over n > 0 elements, d < n of them in front of the main loop, calls transform_op once per chunk of the schedule (C66), from left to right, with the corresponding chunk of every range, and every element is in exactly one chunk. It calls reduce_op, on simd objects or on scalars, exactly once per chunk, plus once for every step it takes to combine the lanes of the widest chunk (b for 2^b lanes, one more for every further power of two a width is made of), plus log2 k times for every chunk of k elements in front of the main loop; these calls combine n pairs of lanes altogether, and there are never more of them than elements. Without a prologue and with a width that is a power of two the number of calls of transform_op is the least possible. In constant evaluation either operation is called once per element. On an empty range nothing is called, and if the assumption of assume_matching_size() does not hold the program stops before any call. All this holds for operations with side effects and for operations that mix lanes; for operations that work lane by lane the value is the one of C07, C69 and C74. Every call finds the state that the call before it has left. All this holds whichever operand of the outer call in reduce(simd, op) (simd.h 2292) is evaluated first for each number of lanes, which C++ leaves open; if the operations answer without looking at their state, the value does not depend on that choice, and the calls only in their order.", "quantifier": "all element types, result types, operations that keep the number of lanes (with any state), targets, policies, widths, addresses, numbers of ranges and range lengths for which the preconditions of C07 hold", "why_tests_cant": "Tests compare results for a few lengths; how often and on what the operations are called depends on length, width, alignment and unroll factor in four nested recursions.", "anchors": ["vir/simd_execution.h: simd_transform_reduce_prologue and simd_transform_reduce_epilogue (808-934), transform_reduce (936-1088)", "vir/simd.h: reduce (2278-2307)"]}
{"id": "C83", "title": "fake_modify and fake_read", "statement": "vir::fake_modify(xs...) leaves the value of every object unchanged, but afterwards the optimiser knows nothing about any scalar in any of the arguments (every lane of a simd, however it is represented) and still knows what it knew about everything else; vir::fake_read(xs...) makes it compute every scalar in the arguments and makes nothing unknown. Every scalar is an operand of exactly one of the asm statements, in the order of the arguments. fake_read compiles for all arguments, fake_modify exactly if none of them is const. The operand of every statement can be placed, since general registers and memory are always allowed; a vector register is allowed as well for everything that is floating-point.", "quantifier": "all lists of arguments (floating-point objects, simd and simd_mask of vir/simd.h or of libstdc++, other objects), all states of knowledge of the optimiser, x86 and other targets", "why_tests_cant": "The effect is on what a compiler may assume; a test can only look at the code generated for one program by one compiler.", "anchors": ["vir/simd_benchmarking.h"]}
{"id": "C84", "title": "transform_reduce with operations that throw", "statement": "If transform_op or reduce_op (on simd objects or on scalars, also from inside reduce(simd, op)) throws during vir::transform_reduce, no further call is made and the exception leaves the algorithm; the call that threw is the last one made. The calls made are the first ones of those that would have been made had the call returned, whatever it had returned: the calls of transform_op are on the first chunks of the schedule of C82, in order, and there are no more calls of reduce_op than C82 says. The calls of operations that do not throw, and the value, are those of C82. An execution that throws is never undefined where the one that does not throw is defined. Every call finds the state (objects the operations refer to) that the call before it has left.", "quantifier": "all element types, result types, operations that throw at any of their calls depending on arguments and state (and otherwise keep the number of lanes), targets, policies, widths, addresses, numbers of ranges and range lengths", "why_tests_cant": "The exception can come from any of the calls, of either operation, at any depth of the tree reduction; a test throws at a few of them for a few lengths.", "anchors": ["vir/simd_execution.h", "vir/simd.h"]}
{"id": "C85", "title": "Function objects with state of their own in transform and transform_reduce", "statement": "A function object that keeps state inside itself (a mutable lambda with init-captures) and is passed to vir::transform or, as transform_op, to vir::transform_reduce is called on a fresh copy of the object as it was passed, in every call, on every path (constant evaluation, prologue, unrolled loop, main loop, epilogue): memory, value, calls, exceptions and undefined behaviour are those of the callable frozen in the state in which it was passed, the object handed to the algorithm stays as it was, and for an object with no other state the unspecified order of the calls in an unrolled step cannot be observed. State the object refers to (rather than contains) is shared by all calls. All overloads of transform (iterators, ranges, zip_view) treat the object in the same way.", "quantifier": "all element types, states inside and outside of the object, callables that may throw, targets, policies, widths, addresses, numbers of ranges, range lengths, and orders of evaluation in unrolled steps", "why_tests_cant": "Tests use stateless callables; whether a call acts on a copy depends on the path through the algorithm that a given length, alignment and policy selects.", "anchors": ["vir/simd_execution.h"]}
