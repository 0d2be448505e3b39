# Formal model of vir-simd

Subject: the header library in `/repo/vir` (pinned commit, read as text, never built).
Prover: Coq 8.16.1, its standard library, and Flocq (C80 only).  Sources: `rocq/theories`, built by `_CoqProject`.
Claims: `properties.jsonl` (C01...), their status and theorem names: `MANIFEST.json`.
Mutation tests of the theorems: `seeded/LOG.jsonl`.  There, `theorems_failed` lists property theorems whose
unchanged proof no longer goes through after the edit (or rests on a lemma that no longer does); this
alone does not show that the statement became false.

## Layout

| file | content |
|---|---|
| `Base.v`, `BaseFacts.v` | outcome type, partial memory, powers of two, list facts |
| `*Model.v` | executable model, function by function, every definition cites file and lines |
| `*Spec.v` | small independent specifications (no use of model helpers); short ones sit in the statement itself or at the top of the `*Proofs.v` |
| `*Proofs.v`, `*Thm.v`, `ExecRun.v`, `ExecForEach.v`, `*Examples.v` | lemmas, witnesses |
| `Props*.v` | property theorems only, each `exact lemma` + `Print Assumptions`, with an `Example` that meets the hypotheses |

The outcome type is `res A = Ok a | Stop s` with `s` one of `SUB` (undefined behaviour), `STrap` (a
failing `vir_simd_precondition`), `SIllFormed` (a failing `static_assert`, constraint, constant
expression or missing member) and `SDiverge` (fuel of a recursion used up; no theorem about a
successful outcome relies on a default value for it).

## Common modelling decisions

* A `simd<T, A>` object is the list of its lanes; `V::size()` is the length of the list.
  Register representation, calling convention, intrinsics are not modelled, except where the
  library itself computes an index vector or a control word (shuffles, `permdf256`).
* Memory is a partial map from element index (in `Z`) to values; accessing an unmapped element is
  `SUB`.  The byte address of element `p` is `base + p*sizeof(T)`.  Access with `vector_aligned`
  to a misaligned address is `SUB`.
* Forming (not dereferencing) a pointer outside its array, as `last - size` does, is treated as
  harmless integer arithmetic, as in the flat address space of all supported targets.
* `std::size_t` arithmetic that can wrap (alignment prologue, `struct_size`, `rotate`) is modulo 2^64,
  `int` and `unsigned` arithmetic of the index functions is checked or wrapped as in C++.
* A callable given to an algorithm is a function on chunk lists; "lane-wise" is a hypothesis of
  the theorems that need it, and a stateful, arbitrary callable is allowed where it is not needed.
* `stdx::memory_alignment_v<simd<T,k>>` is `bit_ceil(k*sizeof(T))` (libstdc++) or `alignof(T)`
  (the fallback implementation in `simd.h`), both covered by a configuration parameter.
* Template recursion is Gallina recursion, by structure or with explicit fuel.

## What is modelled

| module | source | properties | how |
|---|---|---|---|
| Exec | `simd_execution.h` 50-61 (`simd_load_and_invoke`), 94-171 and 226-303 (jump tables), 182-219 (prologue), 314-356 (epilogue), 427-440, 536-609 (`prologue`), 1110-1172 (`for_each`) | C01-C05, C10, C11 | writer of load/invoke/store calls, then an interpreter over memory; induction over loop counts; the jump tables are transcribed and compared with bit stripping by a finite sweep (prologue table: entries up to 31, the ones the prologue can reach) |
| Policy | `simd_execution.h` 358-389, 424-509 (`simd_policy`) | C12 | option lists, induction over modifier sequences |
| Transform | `simd_execution.h` 618-624, 636-806, 1212-1271; `detail.h` 270-280 | C03, C04, C06, C10 | steps over one memory with several pointers |
| Reduce, TReduce | `simd.h` 231-240, 2278-2307; `simd_execution.h` 626-634, 808-1088, 1335-1343, 1416-1443 | C03, C04, C07, C08, C10 | GENERALIZED_SUM: an inductive predicate for any bracketing, over any permutation |
| Count | `simd_execution.h` 1493-1522 (`count_if`) | C05, C09 | instance of the stateful `for_each`, counters are `int` with overflow `SUB` |
| Permute | `simd_permute.h` | C23-C26 | index functions with C++ integer types; generic, shuffle-builtin and AVX2 paths |
| Cw | `constexpr_wrapper.h` 377-458 (`_cw` parser) | C27-C29 | characters, against a grammar of [lex.icon] |
| Struct | `struct_reflect.h` 72-117 (`struct_size`), `simd_version.h` | C30, C34 | acceptance predicate as parameter |
| Mask | `simd.h` 109-180 (preconditions), 623-1106 | C15, C18 | lists of bool |
| Lane, Int | `simd.h` 1108-1766 | C13, C14 | scalar C++ integer semantics (promotion, conversion, overflow, C++17/20 shifts), checked against the relations of `IntSpec.v`, plus the loops of the simd classes |
| Where | `simd.h` 818-822, 1264-1312, 1574-1641, 1947-2249 | C15-C17 | lanes against partial memory, converting loads and stores |
| Shape | `simd.h` 278-286, 448-451, 1767-1945, 2407-2428 (ordering), `simd_resize.h`, `simd_iota.h`, `simd_bitset.h` | C19, C35, C37-C40 | lists |
| HReduce | `simd.h` 2309-2405 | C20, C21 | integers and a model of floating-point values with infinities and NaN |
| Value | `simd.h` 326-396, 1264-1276, 1574-1600, 1794-1799 | C22 | type descriptors (digits, sign, exponent range) and value sets |
| Bit | `detail.h` 121-164, 184-187, 236-255, `simd.h` 221-229, `simd_bit.h`, `simd_float_ops.h` | C36, C41 | byte lists, `None` for padding |
| StructGet | `struct_reflect.h` 119-371 (`detail::struct_get`), 436-443, 462-479, 501-515 | C44 | members as a list, the 51 specialisations transcribed; reference and cv qualification of the result: Qual |
| Math | `simd.h` 2430-2596 | C43 | scalar functions as parameters (their values are not modelled), output parameters as sequential writes, integer `abs` concrete |
| SimdizeType | `simdize.h` 100-174, 344-359, 1018-1026 | C45 | types as trees, the set of widths of each scalar a parameter; `simd_tuple` and `vectorized_struct` are not told apart. Refines `default_simdize_size` of Simdize (C42), where every member is assumed to have its default width |
| Abi | `simd.h` 414-455, 552-566, 584-621 | C46 | element size and macros as parameters |
| Trait | `simd.h` 288-296, 398-411, 506-550, `simd_concepts.h` 25-61 | C47 | a type is a term (`Arith id`, `Cv t`, `Simd t a`, ...); references, pointers and incomplete types are left out |
| SimdTuple | `simdize.h` 390-451, 458-478, 555-569 | C48 | objects as trees of lanes; conversions between element types, and the one-argument variadic constructor of one-member wrappers, are left out |
| CwOp | `constexpr_wrapper.h` 37-63, 154-258 | C49 | overload resolution between the friend operators found by ADL; scalar values; an operand has at most one `constexpr_wrapper` base; compound assignment (ill-formed for scalars) left out |
| StructRun | `simd_execution.h` 50-60, 538-558, 1110-1172 with `simdize.h` 458-493, 579-929 | C50 | the calls of Exec interpreted with the loads and stores of Simdize; all members one word each |
| CwCall | `constexpr_wrapper.h` 76-78, 104-122, 324-368 | C51 | the wrapped object is a partial function on values or objects of constant type; unary + - ~ ! of scalars only; not modelled: C++23 static operators, ++, --, unary & and *, compound assignment |
| StructTransform | `simd_execution.h` 618-624, 636-806 with `simdize.h` 458-493, 579-929 | C52 | the steps of Transform interpreted with the loads and stores of Simdize; all members one word each; word addresses counted from the base of the output |
| Zip | `simd_execution.h` 1251-1271 | C53 | one element type for all ranges; iterators are addresses, dereferencing is defined where an object is mapped |
| StructReduce | `simd_execution.h` 618-634, 808-1088 with `simdize.h` 458-467, 579-912 | C54 | the control flow of TReduce (`transform_reduce_on`, shared with C08) with the loads of Simdize; all members one word each |
| StructCount | `simd_execution.h` 1493-1522 with `simdize.h` 458-467, 579-912 | C55 | for_each of StructRun with the lambda of Count; all members one word each |
| Overload | `simd.h` 254-264, 645-657, 791-810, 1080-1106, 2236-2276 | C56 | conditions by kind of type, values as simd, simd_mask or other; overload resolution as far as these declarations need it; classes derived from simd, or converting to a mask or to ExactBool, are left out |
| Qual | `struct_reflect.h` 119-263, 383-395, 432-530 | C57 | types as qualifiers, reference and a name; overload resolution of `get` as far as these declarations need it; volatile only for aggregates (std::get takes no volatile tuple); members assumed copyable |
| Bind | `simdize.h` 496-511, 981-1000, 1029-1056 | C58 | [dcl.struct.bind] for tuple-like types; volatile objects left out; members neither references nor mutable |
| Sig | `simd_execution.h` 399-415, 1109-1532 (signatures and bodies of the overloads), 1540-1652 | C59 | the policy parameter left out; deduction, constraints and partial ordering as in [temp.deduct]; class types that are iterator and range at once, const rvalues and pointers to types that are not objects left out; the other overloads of namespace std (they do not take these policies) left out; whether the callable accepts what it is called with is not modelled |
| Tpl | `simdize.h` 164-223, 225-273, 308-340 | C60 | a class template is a function from arguments to a struct, simdizing a member or argument (SimdizeType) a function parameter; template parameters are types and values; structs derived from a specialisation (which deduce like it) left out; the default width is a parameter |
| Accept | `simd_execution.h` 636-806, 808-1088, 1334-1472; `simd.h` 1262-1276, 1376-1390, 1573-1599, 1725-1740, 2279-2307 | C61 | the types of every initialisation, assignment and deduced return, by template recursion; callables are functions on types; arithmetic element types only; the fallback simd, not libstdc++'s |
| StructOp | `simdize.h` 545-569, 931-978 | C62 | overload resolution on types of operands with conversion ranks; the struct's own operators are functions that act lane by lane with simd arguments (assumption on user code); structs of scalars, aggregates; rewritten (reversed) comparison candidates left out |
| AggInit | `struct_reflect.h` 29-70, 373-381, 423-431 (72-117 from Struct) | C63 | aggregate initialisation of C++20 written out for the three kinds of initialisers that occur, with brace elision; classes that are not aggregates are summarised by five flags; no unions, no overload resolution between constructors |
| Throw | `simd_execution.h` 50-61, 618-624, 710-806, 1110-1172 with `detail.h` 270-280 | C64 | the calls of Exec and the steps of Transform interpreted with callables that may throw; of several operations of one unrolled step the one on the lowest addresses is taken to run first (the order is unspecified in C++); throwing in a constant expression is not modelled |
| Ptr | `simd_execution.h` 50-61, 583-608, 710-806, 808-1088, 1110-1172 | C65 | every iterator expression of the algorithms as element positions, recorded in order; comparisons are on positions, i.e. the run goes on where C++ already is undefined; prologues and epilogues of for_each and transform contribute the chunks of Exec and Transform |
| ScheduleSpec, ScheduleProofs, ScheduleThm, ScheduleMore | simd_execution.h 109-356, 583-608, 739-802, 1110-1172 | C66 | no new model: the exact chunk sequence of for_each (ExecModel) and transform (TransformModel) |
| PreModel | simd.h 40-175, 687, 695, 840, 848, 983, 991, 1058, 1071, 1301, 1309, 1630, 1638, simd_execution.h 735-737, 965-967, 1126-1128 | C67 | macros and handlers as functions of the preprocessor state, the compiler and what the optimiser knows; fprintf for the conversions %s, %zu, %d, %% with the space flag; other conversions are an explicit outcome that does not occur; whether cstdio has been included is a parameter; the texts of the compile-time diagnostics are not modelled |
| CvtModel | simd_cvt.h 15-41, simd.h 288-297, 326-396, 551-566, 792-810, 1263-1276, 1552-1599, 1769-1791 | C68 | types are arithmetic types (identity, range, size), simd and simd_mask with scalar or fixed_size ABI of the fallback; arithmetic conversions are a parameter; overload resolution between the broadcast constructor, the copy constructor and the conversion function is written out per context from the language rules ([over.match.copy], [over.match.ctor], [dcl.init.ref]) and trusted; not modelled: user-defined types, the lifetime of the object ref refers to, cvt of a cvt |
| (OrderSpec) | simd_execution.h 808-1088, simd.h 2278-2307 | C69 | no new model: OrderSpec states the grouping as a program on lists, OrderProofs proves TReduceModel.transform_reduce_on equal to it for arbitrary operations |
| CwModifyModel | constexpr_wrapper.h 37-42, 74-78, 95-102, 124-152, 259-313 | C70 | values are numbers, class objects and pointers; classes are described by which of these operators they declare, how, and with which constant result; overload resolution, value categories of template parameters and the fall-back to built-in operators are written out from the language rules ([temp.param], [over.match.oper], [over.built]) and trusted; the ambiguity of C49 for wrappers with two template arguments and pointers to members are left out |
| InstModel | simd_execution.h 91-356, 1110-1172, 1493-1522 | C71 | the calls of simd_load_and_invoke that are instantiated, by template recursion (widths as powers of two), and which of them `if constexpr` removes; a callable is the set of (number, width) it can be called with; transform and transform_reduce reuse AcceptModel; that simdize<T, n> exists for all these n is assumed (true of the fallback) |
| ElemModel | simd_execution.h 400-415, with 91-356, 610-806, 808-1088, 1110-1172, 1493-1522 | C72 | the concepts on value types as trees (SimdizeType), and the types simdize<T, n> that are loaded or stored at each place of InstModel and AcceptModel; nested structs count as simd_tuple; types that simdize leaves alone have neither size() nor a load constructor, nor (as init) a subscript operator that returns them |
| CallsModel | detail.h 270-280, simd_execution.h 618-624, 777-783, over TransformModel | C73 | the order of the calls in a step is an oracle (any permutation, chosen per step); the callable is a function of state and chunks; exceptions as in ThrowModel |
| TReduceModel, CountModel | simd_execution.h 808-1088, 1493-1522 | C74 | as for C03 and C09, with the transform operation and the predicate any functions of chunks that keep the number of lanes (no state: C73 treats state for transform) |
| Trait | simd.h 568-582 and the member types and size() of the four class templates, simd_concepts.h 63-73 | C75 | a member is looked up after the class is instantiated, which needs N > 0 for fixed_size (SIllFormed otherwise); arrays too large for the address space are left out |
| Own (ExecModel, TransformModel, TReduceModel, CountModel with TraitModel's memory_alignment) | simd.h 568-582, simd_execution.h 536-609 | C76 | that no type is aligned more strictly than its size is a hypothesis on the platform (part of own_simd) |
| Algebra (ExecModel, TransformModel, TReduceModel, CountModel) | simd_execution.h 636-806, 939-1172, 1416-1422, 1493-1522 | C77 | the extent of right single calls (visit_ok, reduce_ok) is the one of C03, C05 and C08; int overflow of sums is in count_if only |
| DetailModel | detail.h 78-162, 257-268 | C78 | a type is its rank and signedness, the platform its sizes; that sizes ascend with the rank ([basic.fundamental]) and __int128 is larger than long long is a hypothesis where ranks are compared; the limit on recursive instantiation is a parameter |
| Accuracy (TReduceModel) | simd_execution.h 939-1088, 1415-1472 | C79 | numbers are given by their rational values; addition is any operation with a relative error up to a limit |
| Accuracy of floats (TReduceModel) | simd_execution.h 939-1088, 1415-1472 | C80 | floating-point numbers and their addition are those of Flocq; the value of infinities and NaN does not matter |
| Cost (ExecModel, TransformModel) | simd_execution.h 91-356, 560-609, 636-806, 1113-1172 | C81 | the number of simd objects and invocations, not their run time |
| Calls of transform_reduce (RCallsModel) | simd_execution.h 626-634, 808-1088; simd.h 2278-2307 | C82 | `reduce(simd, op)` is the one of vir/simd.h; which of the two operands of its outer call (2292) is evaluated first is a parameter (`eval_order`, one choice per number of lanes); operations that throw: C84 |
| Benchmarking (BenchModel) | simd_benchmarking.h | C83 | an object is its scalars, its size and whether it is floating-point; of the `simd` of libstdc++ the three shapes of `__data(x)` the code distinguishes; an empty `asm volatile` as described in the GCC manual (needs its operand, an output is unknown afterwards); register allocation is not modelled |
| Throwing operations of transform_reduce (RThrowModel) | simd_execution.h 626-634, 808-1088; simd.h 2278-2307 | C84 | RCallsModel again, with operations that may throw; exceptions of the element type (copies, loads) are not modelled; order of evaluation as for C82 |
| Function objects by value (OwnStateModel) | simd_execution.h 618-634, 710-806, 939-1088, 1213-1270, 1552-1568 | C85 | state inside the object and state it refers to; CallsModel and RThrowModel (C73, C82, C84) model the latter, C85 adds the former for transform and for transform_op.  State inside reduce_op is not modelled: simd_execution.h 827-1074 advances the local object, while reduce(simd, op), the prologue and the epilogues get copies.  for_each calls one object throughout (C01) |
| Simdize | `simdize.h` 35-57, 82-97, 137-160, 225-299, 367-494, 571-930 | C31-C33, C42 | words in memory, shuffle index vectors for all N; nested structs as trees |

## What is not modelled

* libstdc++'s `std::experimental::simd` itself; everything about `simd` objects is about the
  fallback in `simd.h`.  The algorithms, permutations and `simdize` are modelled above the common interface.
* Floating-point arithmetic and `<cmath>`.  Floating-point values occur in C21 (order) and C22 (value sets);
  C80 takes addition from Flocq (IEEE 754, round to nearest even, no extended precision).
* Overload resolution and template argument deduction, except in Qual, Bind, Overload and Sig and where a
  constraint is spelled as a value computation (`simd_policy`, `is_value_preserving`, `ValuePreservingOrInt`,
  `flat_element`).
  Notes on code that looks ill-formed: masked-load constructor of `simd_mask<T, scalar>` (`simd.h`
  665-669); `to_fixed_size(simd<T>)` ambiguous; two-member path of `vectorized_struct` uses
  `struct_element_t<1, T>` also for a one-member wrapper around two members.
* Vectors whose object is larger than its lanes (padding) in `simd_permute`.
* Data races, iterator debugging, exceptions other than those of C64, C73 (for_each and transform) and C84 (transform_reduce).

## Trusted base

* Coq's kernel (including `vm_compute`, used for finite sweeps, witnesses and examples).
* `Print Assumptions` prints "Closed under the global context" for every theorem of every `Props*.v` except
  `PropsAccFloat.v` (checked by running all of them): no axiom, not even of the standard library, is used.
* The theorems C80_* of `PropsAccFloat.v` rest on Flocq's proofs over the real numbers; `Print Assumptions` lists
  `ClassicalDedekindReals.sig_not_dec`, `ClassicalDedekindReals.sig_forall_dec`,
  `FunctionalExtensionality.functional_extensionality_dep` and `Classical_Prop.classic`, all of the standard library.
  (`coqchk` on the whole development lists, next to these four, the constants of the sealed standard library modules
  `RbaseSymbolsImpl`, `RinvImpl` and `ssrunder.Under_rel`, which have definitions there.)
* The transcription of the C++ source into the `*Model.v` files, and the C++ semantics written down
  there (scalar integer arithmetic, conversions, object representation).
* The statements in `Props*.v` and the definitions of the `*Spec.v` files.

No axioms of its own, no `Admitted`, no plugins, no functors or module types.

## Findings

Statements of `properties.jsonl` that are false of the modelled code; each has a machine-checked witness.

| theorem | what happens |
|---|---|
| `C03_prefer_aligned_refuted`, `C03_transform_prefer_aligned_refuted`, `C03_transform_reduce_prefer_aligned_refuted` | `prefer_aligned` does not check that the range reaches the next aligned address; a shorter range is overrun. `C03_for_each_inside_iff` and `C03_transform_inside_iff` (for the destination) give the exact extent: with only the range mapped, the run is undefined exactly if alignment is wanted (`aligns`) and neither an element nor the end is at an aligned address |
| `C02_for_each_write_back_refuted` | if memory goes on behind an overrun range, elements outside it are changed and elements inside are updated twice; `C02_for_each_write_back_iff` is the exact extent |
| `C06_transform_short_output_refuted` | likewise for transform: elements behind the output are overwritten and the returned iterator is beyond its end |
| `C03_auto_prologue_huge_vector_refuted` | the 4000-byte rule of `auto_prologue` does not protect vectors larger than that |
| `C04_underaligned_elements_refuted` | elements aligned to less than their size (8-byte elements on i386) reach `unreachable()` in the prologue |
| `C05_for_each_consteval_refuted`, `C05_count_if_consteval_refuted` | constant evaluation with width 2 calls the epilogue with leftover 0 and visits the last element twice. `C05_*_width_two` state the outcome for every non-empty even length |
| `C08_prologue_consumes_range_refuted` | `transform_reduce` reaches `unreachable()` if the prologue consumes exactly the range. `C08_transform_reduce_inside_iff`: undefined exactly if `takes_all`, otherwise right |
| `C13_mul_refuted` | `uint16_t * uint16_t` is computed in `int` and can overflow |
| `C21_hmin_nan_refuted`, `C21_hmax_nan_refuted` | `hmin(v)`/`hmax(v)` reduce with `std::min`/`std::max`, which drop a NaN on the right and keep one on the left. The result is NaN iff lane 0 is; otherwise a NaN in lane a hides lanes that were combined into lane a before (hmin of 1, NaN, 2, 0 is 1). The lanes that matter are determined exactly (`C21_hmin_nan`, `C21_considered`) |
| `C21_hmin_where_float_refuted`, `C21_hmax_where_float_refuted`, `C21_hmin_where_int_infinity_refuted` | `hmin(where)`/`hmax(where)` start from `max()`/`lowest()` (or infinity()) and return that if all selected lanes are +inf (`hmin`) or -inf (`hmax`); in the other branch of the preprocessor condition the start is `infinity()`, which is wrong for integers |
| `C22_float16_refuted` | `std::float16_t` to `int` passes `is_value_preserving` |
| `C22_ts_rule_refuted` | where `long double` has the values of `double` (MSVC, Apple silicon), the TS asks for an implicit conversion of `fixed_size_simd<long double, N>` to `fixed_size_simd<double, N>`; `is_higher_integer_rank` is applied to floating-point types, too, and rejects it. Everywhere else the rule of the TS is met (`C22_ts_rule_partial`) |
| `C23_avx2_resize_refuted` | witness: `rotate<2>` of 8 `float`s with another output size compiles on the plain path and not on the AVX2 path |
| `C24_rotate_negative_refuted` | `rotate<-1>` of three lanes: the `int` sum is converted to `size_t` before `%`. `C24_rotate_correct_iff` decides every offset and size |
| `C24_rotate_avx2_large_refuted`, `C24_rotate_avx2_negative_refuted` | AVX2 control word of `rotate`, 8 `float`s: witnesses `rotate<10>` (wrong lanes) and `rotate<-2>` (ill-formed); `C24_rotate_avx2_correct_iff` decides every offset |
| `C26_shift_in_negative_refuted` | `simd_shift_in<-1>` wraps the last lane around; `C26_shift_in_every_offset` states the lanes for all offsets |
| `C28_zero_refuted`, `C28_upper_binary_refuted` | witnesses `0x0_cw` and `0B1_cw`; by `C28_cw_accepted_iff` every zero other than `0` and every `0B...` is rejected |
| `C31_lane_order_refuted`, `C32_round_trip_refuted` | 8 lanes of a struct of three `float`s are loaded in the order 0,3,6,1,4,7,2,5 and stored in order, so loading and storing back permutes the array |
| `C33_flat_get_refuted`, `C33_flat_get_rejects_refuted`, `C33_flat_element_wrapper_refuted` | `flat_get` passes the member's size instead of the next member's index as offset. `C33_flat_element_iff` and `C33_flat_get_iff` give the exact extent; `vectorized_struct` only meets types for which access works (`C33_accessible_get`) |
| `C36_padding_refuted` | bit operations on x87 `long double` cast indeterminate padding bytes to an integer |
| `C38_static_simd_cast_to_refuted`, `C38_to_native_refuted` | `static_simd_cast<V>` drops lanes; `to_native`/`to_compatible` of a one-lane `simd` broadcast |
| `C43_abs_nonnegative_refuted` | `abs` of a `simd` of a type narrower than `int` converts the `int` result back, so `abs(int8_t(-128))` is -128 (not undefined, but negative) |
| `C45_nested_default_refuted` | `default_simdize_size` is instantiated for every N, and asks each member for the size of its own default: with scalars that have different maximal widths (64 for `char`, 32 for `double`, AVX-512) an aggregate with such a pair as member is an error for every N. `C45_simdize_wellformed_iff` gives the exact extent |
| `C46_native_avx_refuted` | `simd.h` 434-441: with `__AVX__` but not `__AVX2__` the expression reads `is_floating_point_v<T> ? 32 : 16 / sizeof(T)`, so `native_simd<float>` and `native_simd<double>` have 32 lanes (`C46_native_avx_float`) |
| `C47_vectorizable_refuted` | `is_vectorizable` excludes `bool` by `is_same`, so `const bool` and all cv-qualified arithmetic types pass; `C47_vectorizable_exact` says these are all |
| `C47_flag_type_refuted` | `is_simd_flag_type` is declared but never specialised: it is false for `element_aligned_tag` and all other flags |
| `C48_load_nested_refuted` | loading a simdized struct with a struct as member calls a generator constructor `simd_tuple` does not have; `C48_load_nested`: ill-formed for every such struct |
| `C49_explicit_type_refuted` | `constexpr_wrapper<5, long>{} + cw<1>` is ambiguous, because the left operand is not `constexpr_wrapper<Tp::value>`; `C49_ambiguous_iff` decides every pair |
| `C49_undefined_refuted` | `cw<1> / cw<0>` removes the friend operator (SFINAE) and falls back to the built-in division of the two `int`s: undefined behaviour outside of constant expressions instead of an error |
| `C50_update_in_place_refuted` | `for_each` over structs of three floats with 8 lanes and a callable taking its argument by reference: the load permutes the structs (C31), the store does not, so the structs change places even if the callable does nothing. `C50_three_floats_shuffled` gives the resulting order for every range and policy, `C50_struct_update_in_place_partial` shows that no other type is affected |
| `C51_callable_refuted` | an object of class type cannot be called with constants if the result is no template argument (or the call no constant expression), although the same call with a run-time value works; `C51_call_ill_formed_iff` shows that this is the only such case |
| `C51_result_is_value_refuted` | beside a run-time argument constants are forwarded as objects, not as their values, which a generic callable can tell |
| `C51_unary_refuted` | unary operators use Xp, not value: `-constexpr_wrapper<1u, long>{}` is 4294967295u, not -1L |
| `C52_transform_structs_refuted` | points of three floats and a range of weights, 8 lanes: out[1] is computed from point 3 and weight 1; `C52_transform_structs_any_order` gives the order for every call |
| `C53_empty_zip_refuted` | a zip_view with an empty range: `*begin` is evaluated before the size is looked at; `C53_empty_zip_iff` says exactly when that is undefined |
| `C54_transform_reduce_structs_refuted` | points of three floats with a range of weights, 8 lanes: the moment pairs points with weights of other points (25548 instead of 25620); a single range is summed correctly (`C54_transform_reduce_one_range`). What any mix of ranges gives: `C54_transform_reduce_structs_any_order` with `C54_order_few`, `C54_order_eight` |
| `C56_exact_bool_refuted` | pointers convert to bool but not to int, so `ExactBool(bool)` is chosen: `where(&x, y)` and `all_of("text")` compile; `C56_reduction_accepts_iff` and `C56_where_accepts_iff` say that no other type does. `where(bool, simd_mask&)` is accepted as well |
| `C57_struct_get_refuted` | `struct_get<0>` of an rvalue with a single member gives a reference to const, with two or more members it does not (`struct_get<1>::get` has overloads for `const T&` and `T&` instead of one for `T&&`); likewise const is added to what a single reference member, or a single mutable member, of a const object refers to. Exact condition: `C57_struct_get_iff`. `struct_element_t` of a reference member is the type referred to (`C57_struct_element_iff`) |
| `C58_bindings_refuted` | `auto [x, y] = v;` and `auto&& [x, y] = f();` do not compile for simdized structs: there is no `get` for rvalues, `get(const W&)` returns a reference to const, and `tuple_element` is not const. Exact condition: `C58_bindings_iff` |
| `C59_overload_refuted` | `vir::transform(simd, a, b, c, op)` and `vir::transform_reduce(simd, a, b, init, red, tr)` with built-in arrays `a`, `b` (`c`) of one element type select the unary overload over iterators, with `b` as the end of `a`: arrays decay to pointers, and the template with `It1` twice is more specialised. A binary `op` then does not compile, a variadic one runs from one array to the other. Exact condition: `C59_overload_iff` |
| `C59_common_range_refuted` | a contiguous range whose end has another type than its begin (a `take_while` view of a vector) is accepted by `simd_execution_range`, then fails in the body of every overload over ranges. Exact condition: `C59_common_range_iff` |
| `C60_layout_refuted`, `C60_one_element_refuted` | `vectorizable_struct_template` does not hold for templates with struct members (`Line<T> { Point<T> a, b; }`: `flat_element` stops after the first member and `simdize` of the member is another type), with arrays of one element, or with two or three type arguments followed by values (the overloads for them, 190-202, are never viable since `Ts...` is not last in `Tpl<Ts..., X...>`): they become `simd_tuple` and lose their member names and operators. Exact condition: `C60_layout_iff` |
| `C60_sound_refuted` | the concept holds for a template that has more members with simdized arguments than with scalars (`G<T> { T x[sizeof(T) / 2]; }`): only the indices of the scalar struct are compared |
| `C61_documented_refuted` | the fallback's `reduce(simd, op)` calls `op` with two values of the element type, also for one lane: a `reduce_op` that only takes simds, as the documentation promises to call it, is ill-formed. Exact condition: `C61_transform_reduce_iff` |
| `C61_drop_in_refuted` | `reduce` and `transform_reduce` need an `init` of exactly the type the transformed elements have: `reduce(simd, shorts, 0)`, `reduce(simd, floats, 0.)` and the inner product of floats from `0.` are ill-formed in every policy (`const A1 r = ...`, 974, is instantiated even outside of constant evaluation and `simd<T, scalar>` has no conversion constructor); `C61_width_one`: that missing constructor is the only obstacle |
| `C61_policy_refuted` | a `transform_op` returning a single value is accepted by `transform_reduce` and rejected once the policy unrolls or has a prologue. Exact condition: `C61_value_iff` |
| `C62_value_refuted` | the variadic constructor of `vectorized_struct` is implicit and takes fewer values than members: next to an operator between structs, `simdize<Point> * 2.f` calls that operator with `{2, 0}` instead of the struct's own `Point * float` (exact result: `C62_value_is_first_member`), and `simdize<Point> + 1.f` compiles where `Point + 1.f` does not |
| `C62_simd_ambiguous` | with both operators declared, `simdize<Point> * simd<float>` is ambiguous |
| `C62_rejected_refuted` | `simdize<Point> * 2.` for floats, and `* 2.f` where `Point * T` is a function template, are ill-formed although the scalar code is not |
| `C63_member_refuted` | a member of type `T&` (list-initialisation of a reference makes a prvalue) or of an aggregate without elements (`struct E {};`) cannot be initialised from `{ x }`: `struct_size_v` of `struct { int a; E e; int b; }` is 1, of `struct { int& r; int a; }` it is 0; `struct_get` then is ill-formed or sees too few members |
| `C63_derived_iff`, `C63_derived_refuted` | the documented case `struct B { int a, b; }; struct D : B {};` gives `struct_size_v<D>` = 1 instead of 2 (every `{ x }` initialises a direct element of D, and D has one); it is right for a single member, or if B itself has an empty base |
| `C63_converting_base_refuted` | an empty base with a converting constructor (`struct E { E() = default; E(int); };`) is counted as a member |
| `C63_base_in_member_refuted` | brace elision lets `any_empty_base_of` initialise the same empty class inside of the first member, whose members are then counted |
| `C64_transform_lost_refuted` | with `unroll_by<n>`, `transform` discards the results of up to n-1 operations that returned if a later one of the same step throws |
| `C65_for_each_whole_iff`, `C65_refuted` | `for_each` (and `transform`, `transform_reduce`) on a whole array of fewer than `size` (with `unroll_by<n>`: `n * size`) elements computes `last - size` (`last - step`), a pointer before the array: undefined behaviour at run time |
| `C65_for_each_consteval_whole_iff`, `C65_consteval_refuted` | in constant evaluation `first + (size - 1) < last` points past the end after the last full vector unless `n % size == size - 1`; for all other `n` calls of `for_each` and `transform` on a whole array are not constant expressions |
| `C65_reduce_refuted` | `transform_reduce` with `unroll_by` also computes `first1 + step` past the end |
| `C66_transform_consteval` | in constant evaluation transform processes the remainder one element at a time, so the callable sees sizes w and 1 only, whereas for_each splits it into powers of two; both are correct, but a callable that is only valid for sizes reached at run time is instantiated for different sizes |
| `C67_default_refuted`, `C67_action_iff` | README.md says VIR_CHECK_PRECONDITIONS defaults to 3 (trap). simd.h tests the macro in lines 69 and 71 but gives it its default in line 96: without a user definition invoke_ub compiles to unreachable(), so every violated precondition is undefined behaviour in the default configuration (compile-time errors do work) |
| `C67_matching_message_refuted`, `C67_mismatch_effect` | the condition `distance % size == 0` is pasted into the fprintf format of assume_matching_size; `% s` takes a string argument that is not passed: at levels 4 and 5 a violated assume_matching_size() is undefined behaviour instead of an error message |
| `C67_known_not_printed_refuted`, `C67_known_action_iff` | at level 4 a failure known at compile time traps without printing anything |
| `C67_header_iff` | at levels 4 and 5 (and 2 and 3 without __GNUC__) simd.h uses std::fprintf and stderr without having included cstdio |
| `C67_diagnosis_iff` | no compile-time diagnosis with GCC before version 10 and with compilers other than GCC and clang; without __GNUC__ levels 2 and 3 print and abort instead of trapping |
| `C68_fewer_lanes_refuted`, `C68_more_lanes_refuted` | static_simd_cast<V>(simd) has no constraint on the size of V, so cvt makes a simd implicitly convertible to simds of every size: to fewer lanes the others are dropped silently, to more lanes the subscript precondition always fails at run time |
| `C68_const_copy_refuted` | `const auto y = cvt(5); floatv v = y;` is ambiguous (broadcast constructor and conversion function) although `floatv v = 5;` is fine; exactly the scalars that convert without cvt are affected |
| `C68_mask_to_simd`, `C68_accepts_iff` | static_simd_cast<M>(simd_mask) accepts a simd type for M: cvt makes a mask implicitly convertible to every simd with as many lanes, as zeros and ones |
| `C69_consteval_same_refuted`, `C69_same_at_every_address_refuted`, `C69_same_for_every_unroll_refuted` | for operations that are not associative (floating-point addition) constant evaluation and run time differ, as do two addresses with prefer_aligned and two unroll factors; inherent to generalised sums, but the run-time initial value is added to the whole sum and not in front of the first element even with one lane (`C69_one_lane`) |
| `C70_address_of_scalar_refuted` | `&cw<1>` is the address of the wrapper object, not a wrapper (the template parameter is a prvalue, so the overload disappears and the built-in operator is used) |
| `C70_two_objects_refuted` | for class types `&w` wraps the address of the template parameter object while `w->` points to `w.value`, a different object |
| `C70_unary_accepted_iff` | an operator of the class that is a member and not constexpr makes `++w` ill-formed, the same operator outside the class makes it a plain call |
| `C70_assign_same_refuted` | for a wrapper that is not const, `w = w` is the implicit assignment and gives `w`, not the wrapper of what the class's const operator= gives |
| `C70_arrow_const_refuted`, `C70_arrow_rejected_iff` | `const auto*` as return type of operator->: the pointee becomes const even if value-> gives access to a modifiable object, and classes whose operator-> returns a proxy are rejected |
| `C71_wider_refuted` | for_each and count_if instantiate every case of the jump tables: with 2 to 31 lanes the callable must also be callable with simds of 32 (and 16, 8, ...) elements, wider than any chunk it ever gets. `if constexpr (N >= V0::size()) unreachable();` (235-236, 103-104) does not remove the call after it. Exact condition: `C71_for_each_enough_iff` |
| `C71_matching_refuted` | with assume_matching_size a callable that takes only the one simd type the documentation promises is ill-formed in all four algorithms: the branch for constant evaluation has an epilogue (for_each 1137-1139, transform 750, transform_reduce 974) and is instantiated at run time, too; transform_reduce tests the modifier with an ordinary `if` (1065). Exact conditions: `C71_for_each_iff`, `C71_count_if_iff`, `C71_transform_iff`, `C71_transform_reduce_iff` |
| `C72_concept_refuted` | `requires { typename vir::simdize<T>; }` is satisfied by every type, since simdize leaves unsuitable types alone: the concepts hold for contiguous ranges of bool, pointers or strings, and the algorithms then fail inside (at `V::size()`). Exact condition: `C72_concept_iff` |
| `C72_error_refuted` | for the nested structs of `C45_nested_default_refuted` checking the concept is itself an error |
| `C72_nested_refuted` | structs with structs as members meet the documented condition, but cannot be loaded, so for_each, count_if and transform cannot be instantiated (they can be the output of transform). Exact conditions: `C72_for_each_iff`, `C72_for_each_fallback_iff`, `C72_transform_iff` |
| `C72_struct_sum_refuted` | transform_reduce and reduce with a struct as init can be instantiated with simd width 1 only, since there is no reduce or split for simdized structs; transform on the same ranges works with every policy. Exact condition: `C72_transform_reduce_iff` |
| `C73_ascending_refuted` | with unroll_by a callable with state can be called in descending order: the calls are arguments of one function call (detail.h:278), whose order the language leaves open. A callable that numbers its calls gives different outputs with two compilers that are both right |
| `C74_policy_independent_refuted` | with a transform operation that mixes lanes the result of transform_reduce depends on the policy and the address, even if the reduction is associative and commutative |
| `C75_alignment_refuted` | memory_alignment<simd<T, A>, U> does not look at T and A: it exists for simd<bool, scalar> and simd<T, A> with any A, where the TS says there is none (`C75_alignment_iff`: exactly which) |
| `C47_concepts_refuted` | is_simd is true of simd<T, fixed_size<N>> with N <= 0, but the concept any_simd for it is an error in the class template, not false (`C47_concepts_error_iff`: exactly when) |
| `C81_any_width_refuted` | with a width that is no power of two the schedule need not be the shortest: 8 elements at width 5 are 5 + 2 + 1, not 4 + 4 |
| `C83_vector_register_refuted` | `fake_modify` and `fake_read` offer a vector register for a `float`, but for a `simd` of `vir/simd.h` (and for a vector of libstdc++) of less than 16 bytes only general registers and memory, so that a `simd` of one, two or three `float` may not stay in a vector register; `C83_vector_register_simd` and `C83_vector_register_lib_partial` say exactly when |
| `C85_overloads_agree_refuted` | transform with a zip_view hands on a lambda with a reference to the function object (line 1262), the other overloads hand on the object, which is copied for every call (620): a numbering function object gives different outputs through the two (std::transform with a policy may copy as well, so neither is wrong by itself) |
| `C82_order_refuted` | in `reduce(simd, op)` (simd.h 2292) the order of two calls of the operation is left to the compiler: for 6 lanes an operation with state can give different values; without state it cannot (`C82_order_unobservable`) |

Observations without a theorem: the constant-evaluation loops form pointers more than one past the end.
