# DESIGN

Formal model of PTL (`/repo/inc/ptl/*.hpp`) in Rocq/Coq 8.16.1 with std++, and machine-checked
proofs of the properties in `properties.jsonl`. Every theorem holds for all inputs, all states
reachable by any sequence of calls and all choices of the environment (failing allocations,
throwing constructors, element operators); nothing is bounded or enumerated.

## 1. Trusted base

- The Coq 8.16.1 kernel (`coqc`; also the VM, used by `vm_compute` in examples and by some decidable
  arithmetic).
- Axioms: none. Every `*Props.v` file ends with `Print Assumptions` for each of its theorems, and
  each reports "Closed under the global context". Loading std++ loads the ssreflect plugin files of
  Coq's own library, which contain the parameters of a module type (`Under_rel`); no theorem uses
  them.
- The reading of `/repo` recorded in the model: every definition cites file and lines.
- The modelled meaning of the parts of C++ and of its standard library the code relies on (below).
- The English-to-Coq step of each property: read the `Cnn_…` theorem next to its property.

No own axioms, functors, module types, plugins, or switched-off checks. Environment choices are
fields of a configuration record (`VecCfg`, `StrCfg`, …), i.e. universally quantified; side conditions
on them (`cfg_ok`) are named, and inhabited by the configuration used in the examples.

## 2. How the code is modelled

**Programs.** A member function is a Gallina function `M S A := S → res S A` (`Cpp.v`). The result is
`Ok a s'`, `Exn e s'` (the state after unwinding), `Stuck fault` (undefined behaviour, or a leak) or
`Terminated`. `noexcept` turns an exception into `Terminated`; `on_exn` is catch-and-rethrow (also used for
destructors run by unwinding). Nothing has a default value: reading an object that does not exist, is not
alive, or lies outside its array is `Stuck`, so a theorem that says `Ok` says that no fault occurs.

**States** contain *all* objects of one template instance and all memory they use. Arguments that
refer into the container being modified (`v.push_back(v[0])`) are addresses, not values.

**Environment.** `alloc_fails k`, `ctor_fails k`/`copy_fails k`/`fails k` decide whether the k-th allocation or
element operation throws. What a moved-from, self-moved or half-assigned element looks like is an
unknown function (`moved`, `selfmove`, `torn`).

**Specification** (`*Spec.v`): an independent `sstep` on finite maps from names to plain mathematical
values (lists, options, tagged values, positions). It answers `Done` (result and new state), `Throw`, or
`Bad` when the caller breaks the contract of the call. The specification files do not mention buffers,
capacities, flags, indices, dispatch tables or lifetimes.

**Proof pattern.** (a) exact equations for primitives and algorithms; (b) a representation invariant over
the whole state; (c) per call, an equation or triple `invariant ∧ sstep = Done ⇒ result, invariant`; (d) induction
over histories, giving `reachable w m` (model state `w` represents specification state `m`); (e) property
theorems stated from `reachable`.

**Layers.** `*Model.v` has no proofs; `*Spec.v` none either; `*Mem/Rep/Ops/Proofs/History/Extra/Limits.v` the proofs;
`*Props.v` the theorems `Cnn_…`, each next to an `Example` on a concrete configuration that meets its
hypotheses (computed with `vm_compute` where possible).

**Naming.** `_refuted`: the code does not have the property; the theorem is a witness, usually for all states
meeting the stated condition. `_behaviour`: what the code does instead. `_partial`: the part of the property
that holds, with the restriction as a hypothesis. A property is `partial` in `MANIFEST.json` only
if the code refutes its full statement.

## 3. What is modelled, file by file

| Header | Files | Modelled | Not modelled |
|---|---|---|---|
| bitset.hpp | BitsetModel, BitsetIoModel | all members, proxy references, `>>`/`<<`, hash; bytes as Z with explicit `mod 256`; istream as characters and state bits | exception mask and locale of streams, Tag |
| vector.hpp | VectorModel, VectorIter, OrderModel | storage_t and all members; `std::size_t` wraps at `2^wbits` where sums are formed | which functions the linker merges (every module has its own deallocation function) |
| string.hpp | StringModel, StringOrder, StringIter | storage_t (union with inline buffer, indeterminate bytes), all members, `+`, comparisons, hash, literals | – |
| array.hpp | ArrayModel, ArrayCtor, OrderModel | all members, the constructor's constraint and overload resolution | arguments for `array<T, 0>` |
| array_ref.hpp | ArrayRefModel, ArrayRefCtor, ViewModel, IterModel | constructors with traits and deduction guides, sub-views, element access | – |
| string_ref.hpp | StringRefModel, ViewModel, IterModel | all members, comparison, hash, literal | – |
| optional.hpp | OptionalModel, OptionalAssign | storage, all members, comparisons, overload resolution of assignment | – |
| optional_ref.hpp | OptionalRefModel, OptionalRefCtor | constructors with trait and deduction guides, access | `optional_ref<std::nullopt_t>` |
| variant.hpp | VariantModel, VisitModel, VariantEmplace, Overload | index computations, storage, all members, comparisons, result type of visit, instantiation of emplace | – |
| variant_ref.hpp | VariantRefModel, VisitModel, Overload | index computations, binding, access, visit | volatile |
| function_ref.hpp | FunctionRefModel, FunctionRefCtor | storage, dispatch, overload chosen, noexcept, result decay, constraints, overload resolution, deduction | argument passing (one value) |
| tuple.hpp | TupleModel, TupleCtor | storage chain, all members, comparisons, constructor resolution | const components (but see ElementModel) |
| optional, variant, vector | InitModel | brace and parenthesis initialisation of the stored values | enumerations, references |
| vector, array, tuple, optional, variant | CompareCalls | exceptions of element operators in comparisons, the calls made, result types | overloaded `!` and `\|\|` of result types |
| array, tuple, bitset | BindingModel | `get`, `tuple_size`, `tuple_element`, structured bindings | volatile |
| string, string_ref, bitset | OutModel | `operator<<` with width, fill, adjustment, stream state and limited buffers | exception mask, locale, `std::internal` (same as right) |
| string, string_ref | TextModel | overload resolution of construction, assignment, assign, +=, append, insert, replace, + and comparisons, for operands of any type | calls with counts, positions or iterator pairs; more than one conversion function to characters |
| all | LayoutModel | sizes, alignments, offsets, standard-layout, `#pragma pack`, static_asserts on sizes (Itanium ABI) | MSVC layout (AbiModel) |
| vector, string | RangeModel | overload resolution of construct, assign, append, insert and replace with two arguments; numbers where vectors are expected | references and braces as arguments |
| function_ref.hpp:45-50, 65-73 (parameters and forwarding) | FunctionArgs | argument categories and parameter kinds, any number; copies, moves, exceptions and lifetimes of parameters; initialisation from left to right | std::reference_wrapper arguments |
| vector.hpp:20-33, array.hpp:30-38, optional.hpp:18-24, variant.hpp:180-191, tuple.hpp:13-24, 83 (static_asserts) | ElementModel | declared traits and instantiated bodies of special members and swap for nested types; operations of program types an oracle | const elements outside of tuples, volatile |
| string.hpp | StringStableSpec, StringStable, StringStableProps | which pointers into a string stay valid | none beyond StringModel |
| storage_t of variant_ref | RefUnionModel, RefUnion, RefUnionProps | lifetimes of the members of the nested unions, under variant_ref | as VariantRefModel |
| string_ref over strings | StringViewModel, StringViewSpec, StringView, StringViewProps | construction from a string and from its c_str(), substr, remove_prefix, remove_suffix, operator[], at, size and iteration, interleaved with all string calls | substr(n), front, back and reverse iteration as special cases; searches and comparisons are those of StringRefModel |
| array_ref over vectors | VectorViewModel, VectorViewSpec, VectorView, VectorViewProps | construction from a vector, last, subrange, operator[], at, size and iteration, interleaved with all vector calls | first(n) and subrange(n) are special cases; front, back, reverse iteration as operator[] |
| all accessors of vector, string, array, optional, variant, tuple and the views | ConstModel, ConstSpec, ConstPaths, ConstProps | constness and value category of what accessors yield, by overload resolution on declared overloads | end() as begin(); no volatile, no casts; views the user puts in other containers are left out |
| `variant.hpp` 18-57 and all its users | UnionModel, Union, UnionProps | lifetimes of the members of the nested unions, with and without the rule of the standard | as VariantModel; the lenient reading lets a call on a dead `next` enter it when nothing else is alive in the union |
| vector, array, optional, variant, tuple, the `*_ref` headers | RecursiveModel, RecursiveSpec, Recursive, RecursiveProps | which types must be complete when a class template is instantiated | type traits are taken to hold; function_ref signatures name structs by reference only; no base classes of user structs |
| vector.hpp | VectorStableSpec, VectorStable, VectorStableProps | which elements keep their address | past-the-end iterators |
| string.hpp | StringCostSpec, StringCost, StringCostProps | allocations of every operation | what the standard library allocates |
| vector.hpp | VectorCostSpec, VectorCost, VectorCostProps | constructions, allocations and relocations of every operation | moves within a buffer, comparisons, destructions |
| all | HeaderModel, HeaderSpec, HeaderProofs, HeaderProps | `#include`, `#pragma once`, `#pragma pack` of all headers; names of the standard library they use; definitions at namespace scope with their linkage | names inside of bodies other than those of the standard library; declarations a particular implementation provides beyond the synopses; macros |
| all | AbiModel, AbiSpec, AbiProofs, AbiProps | layouts under the Microsoft C++ ABI, all nestings of the library's types | bit-fields, virtual functions, several base classes (not used by the library) |
| optional, variant, vector, array, tuple, array_ref, optional_ref | NoexceptModel, NoexceptProps | operations of user types in noexcept functions | values (other models); comparisons (CompareCalls), shrink_to_fit (VectorModel) |
| vector, string, bitset, optional | ThreadModel, ThreadSpec, ThreadLogic, ThreadProofs, ThreadStrings, ThreadCalls, ThreadProps | memory accesses of 41 functions, threads | elements of other than one cell, references and iterators kept across calls, remaining functions |
| optional, variant, vector | NewModel, NewProps | where new-expressions and uninitialized algorithms construct values | constructors that throw (OptionalModel, VariantModel, VectorModel) |
| array, vector, string, array_ref, string_ref | MixModel, MixProps | which operators and conversions of the iterator classes expressions with iterators of several types use | pointers themselves (IterModel) |
| array, bitset, optional, variant, tuple, array_ref, string_ref, optional_ref, variant_ref, function_ref | ConstexprModel, ConstexprProps | what the functions marked constexpr do, as far as [expr.const] of C++17 restricts it; literal types | objects of static storage that are only referred to |
| array, vector, tuple, optional | GuideModel, GuideProps | deduction guides, explicit and implicit, and the choice between them | volatile, overloaded functions and nested braces as arguments |

### Simplifications with consequences

- Element types are value-like: a copy equals its source; destructors and moves do not throw (the headers
  assert the latter). Element values of heterogeneous containers live in one universe.
- Iterators of `vector`/`string` used as arguments are offsets; iterator classes themselves are modelled in
  `IterModel.v` and tied to the containers in `VectorIter.v`/`StringIter.v`.
- `std::rotate`, `std::copy`, `std::uninitialized_*`, `std::equal`, … are the loops of the standard's
  specification; throwing iterators are modelled for string ranges.
- The sum of sizes of caller ranges that exceed `std::size_t` is outside the contract (`Bad`); the functions
  taking a *count* wrap, and that is C26/C37.
- `variant_ref`: writing a member of a union inside an inactive union member is taken to make it active.
- A POD base class's tail padding is not reused in the layout model; the library has no such base.
- Formal precondition violations that no implementation notices are not treated as faults: `std::copy` with
  the destination at the start of the source range (`erase(pos, pos)`, insertion of 0 elements), `std::swap_ranges`
  on the same range for self-swap of `array` (outside the contract in the specification).

## 4. Defects of the code established by the proofs

| Property | Defect | Theorem |
|---|---|---|
| C09 | `>>` into bitset always sets failbit when the input ends after the last digit | `C09_bitset_extract_eof_refuted` |
| C10 | `bitset::reference::operator bool` calls itself forever | `C10_bitset_mutable_read_diverges` |
| C11 | `swap` of bit references never swaps | `C11_bitset_ref_swap_never` |
| C21 | `resize` drops reserved capacity | `C21_resize_loses_capacity_refuted` |
| C26, C37 | `size() + count` wraps: heap overrun in `vector::insert/assign`, `string::append/insert/replace/constructor` | `C26_count_overflow_refuted`, `C37_count_overflow_refuted`, `C37_constructor_overflow_refuted` |
| C27 | `vector::shrink_to_fit` is noexcept but allocates: terminates | `C27_shrink_to_fit_terminates_refuted` |
| C28 | `erase(it, it)` self-move-assigns the tail | `C28_erase_empty_range_refuted` |
| C30 | `string::append` with a throwing iterator overwrites the terminator | `C30_append_throwing_iterator_refuted` |
| C38 | `string::push_back` grows by a constant: quadratic | `C38_amortised_constant_refuted` |
| C39 | `_s`/`_sr` cut literals at the first null character | `C39_literal_embedded_null_refuted`, `C39_sr_literal_embedded_null_refuted` |
| C48–C50 | `emplace` tests `T(args...)` for noexcept but runs `T{args...}`: if that throws, the old value is destroyed twice | `C48_valueless_refuted`, `C49_destroy_twice_refuted`, `C50_emplace_braces_refuted` |
| C51 | `holds<const T>` compiles and is always false | `C51_holds_const_refuted` |
| C53 | `emplace` destroys the value its argument refers to | `C53_emplace_own_nothrow_refuted` |
| C58 | `function_ref<R(A) const>` calls the non-const overload | `C58_const_signature_refuted` |
| C65 | `operator""_s` is noexcept but allocates | `C65_literal_terminates_refuted` |
| C66 | `function_ref` returning a reference returns a dangling one | `C66_reference_result_refuted` |
| C67 | array's constructor constraint tests the conversion in the wrong direction | `C67_lvalue_argument_refuted` |
| C68 | one-component tuples are not copied by the copy constructor; non-empty tuples lack default construction | `C68_one_component_refuted`, `C68_default_refuted` |
| C69 | nested tuples have an extra byte | `C69_tuple_refuted` |
| C70 | packed optional/variant/tuple misalign their contents; over-aligned vector elements too | `C70_*_refuted` |
| C71 | tuples of two or more components are not standard-layout and are rejected as elements | `C71_tuple_refuted` |
| C73 | `visit` converts results to the type of the first alternative; several visitors given as variables do not compile | `C73_result_type_refuted`, `C73_lvalue_visitors_refuted` |
| C74 | `emplace` instantiates the construction of every alternative and rejects valid calls | `C74_emplace_refuted`, `C74_emplace_narrowing_refuted` |
| C75 | `array_ref<Base>` of a range of `Derived` compiles and views wrong addresses; literal 0 count is ambiguous; guides fail for views of const | `C75_derived_refuted`, `C75_literal_zero_refuted`, `C75_deduced_refuted` |
| C76 | `opt = {}` stores a zero in an `optional<scalar>`, is ambiguous for classes | `C76_braces_refuted`, `C76_braces_class_refuted` |
| C77 | copies with braces wrap values of types like `std::vector<std::any>` | `C77_stored_refuted` |
| C78 | `emplace` prefers initializer_list constructors and rejects narrowing | `C78_emplaced_refuted`, `C78_narrowing_refuted` |
| C80 | `optional_ref` does not compile with arguments whose `operator*` returns by value, rejects rvalue `optional_ref<T>` for `optional_ref<const T>`, and binds `optional_ref<const T>` to temporaries | `C80_star_by_value_refuted`, `C80_rvalue_refuted`, `C80_temporary_refuted` |
| C81 | `optional_ref{p}` for a const pointer to mutable refers to const | `C81_pointer_refuted` |
| C82 | `function_ref<T &()>` never compiles; const signatures are checked with one overload and call another; a `function_ref` of another signature refers to the `function_ref` object | `C82_reference_result_refuted`, `C82_const_result_refuted`, `C82_const_noexcept_refuted`, `C82_other_function_ref_refuted` |
| C83 | comparisons are noexcept whatever the elements do: a throwing element operator terminates | `C83_exception_refuted` |
| C85 | comparing variants does not compile unless operators return exactly `bool`; optional against value fails for results convertible from and to `bool` | `C85_variant_refuted`, `C85_value_refuted` |
| C86 | names bound to a bitset by reference are copies of the bits; `tuple_element` of arrays and bitsets accepts any index | `C86_bits_refuted`, `C86_tuple_element_refuted` |
| C87 | a field width pads the first digit of a bitset only; with `std::left` the text is not read back | `C87_bitset_refuted`, `C87_round_trip_refuted`, `C87_bitset_empty_refuted` |
| C88 | `string_ref == std::string_view` and `string_ref == std::string` do not compile | `C88_compare_refuted` |
| C89 | a parameter of type `string_ref` accepts neither `ptl::string` nor `std::string` | `C89_ref_param_refuted` |
| C90 | `s = 0`, `s == nullptr`, `s.append(0)`, `sr == 0` compile and read through a null pointer | `C90_null_refuted` |
| C91 | iterators whose category is derived from `input_iterator_tag` only are rejected or taken for a count; input iterators do not construct elements explicitly | `C91_category_refuted`, `C91_explicit_refuted` |
| C92 | `vector(size_type)` is not explicit: `v = 5`, `v == 5`, `vv.push_back(3)` compile, `vector<vector<T>>{3}` has one element | `C92_number_refuted`, `C92_negative_refuted`, `C92_braces_refuted` |
| C93 | a parameter by value is moved again inside noexcept `operator()`: a move that throws ends the program though the callable is noexcept and takes a reference | `C93_noexcept_refuted` |
| C94 | `vector<tuple<T>>::resize` does not compile: tuple has no usable default constructor but is_default_constructible_v says so | `C94_default_refuted` |
| C94 | `variant<tuple<const T>>` passes all static_asserts; swapping it, and inserting into or copying a vector of it, does not compile | `C94_swap_refuted` |
| C94 | `tuple<const array<T, N>>` cannot be moved: the constructor of array takes const rvalue arrays for an element | `C94_move_refuted` |
| C95 | variant_ref cannot be an element of any container, function_ref not of vector, array and tuple, tuples of several components of none | `C95_refuted` |
| C96 | `optional{"abc"}`, `optional{f}` for a function f and `optional{std::move(c)}` for a const c deduce element types that optional does not allow: there is no deduction guide | `C96_optional_refuted` |
| C97 | optional, variant, tuple and variant_ref cannot be used in constant expressions at all, calls of function_ref, and fill, swap and comparisons of array and most of bitset neither, although they are marked constexpr (ill-formed, no diagnostic required) | `C97_refuted`, `C97_array_partial`, `C97_bitset_partial` |
| C98 | `v.begin() != v.cend()` does not compile for vector and string: a private conversion from const_iterator to iterator makes all mixed comparisons and differences ambiguous | `C98_operators_refuted`, `C98_reverse_refuted` |
| C99 | optional, variant and vector use `new(p) Type{...}` without `::`: element types with `operator new(std::size_t) = delete` cannot be held, those with a placement form of their own are constructed elsewhere | `C99_refuted_compile`, `C99_refuted_elsewhere` |
| C100 | `bitset::set`, `reset` and `flip` of different bits race when the bits share a byte (as for std::bitset, but nothing says so) | `C100_bits_refuted` |
| C101 | moving or swapping optionals and variants, and copy-assigning variants, calls std::terminate when `Type{std::move(x)}` selects a throwing initializer_list constructor; the views do when functions of the viewed object throw | `C101_refuted`, `C101_views_refuted` |
| C102 | `tuple<T..., tuple<U...>>` and tuples ending with something that starts with a tuple have different sizes with GCC/Clang and MSVC; optional, variant and tuple of alignas types have different alignments | `C102_tuple_refuted`, `C102_aligned_refuted` |
| C103 | all headers but array_ref.hpp use names of the standard library without including a header that declares them (tuple.hpp: std::forward, move, swap, tuple_size); `internal_variant::determine_type` is `static`, so that variant.hpp in two translation units violates the one definition rule | `C103_alone_refuted`, `C103_order_refuted`, `C103_variant_refuted` |
| C104 | `resize` to more elements reallocates even within capacity(), so that growing one by one is quadratic; `assign` and copy assignment allocate unless old and new elements fit side by side | `C104_resizing_refuted`, `C104_assigning_refuted` |
| C105 | A string built from input iterators, or by push_back, gains only 24 characters of capacity at a time: the number of allocations is linear in the length; `assign` allocates unless old and new text fit side by side | `C105_input_refuted`, `C105_assigning_refuted` |
| C106 | `vector::resize` to more elements reallocates even within `capacity()`: pointers, references and iterators that must stay valid dangle | `C106_resize_refuted` |
| C107 | `string::assign`, `replace` from forward iterators and copy assignment reallocate although the result fits into `capacity()`; `assign` from input iterators always does: pointers kept across a call within capacity dangle | `C107_assign_refuted`, `C107_input_refuted` |
| C108 | `vector<T>` (and `array<T, 0>`) cannot be instantiated while `T` is incomplete, unlike `std::vector`: `struct node { ptl::vector<node> children; };` does not compile in any form | `C108_heap_refuted`, `C108_vector_refuted` |
| C109 | `storage_t::set` calls `next.set` without ever constructing `next`: undefined by the standard for every alternative but the first (and rejected in constant evaluation) | `C109_others_refuted` |
| C110 | iterators of a `const array_ref<T>` yield `const T &`, its other accessors `T &`: `for(auto & x : view)` cannot write through a const view although `view[i]` can (std::span lends mutable elements in both) | `C110_iterators_refuted` |
| C111 | a view of a vector dangles after `resize` to more elements within the capacity | `C111_resize_refuted` |
| C112 | `storage_t::set` of variant_ref calls `next.set` without making `next` alive: undefined for all alternatives but the first | `C112_others_refuted` |
| C113 | a view of a string dangles after an assignment that would fit into the capacity | `C113_assign_refuted` |

## 5. Not modelled

- What functions compute in constant expressions (C97 is about which calls are allowed there; undefined
  behaviour is a compile error, and the theorems exclude it).
- Optimisations, code generation and the ABI of function calls; the layouts of objects are modelled.
- The bodies of functions of the standard library, except where a model says how they work.

## 6. Properties

### C01 bitset behaves as a sequence of Size booleans (proved)

`BitsetModel.v`: `values` as a list of byte integers, loops over it; `BitsetSpec.v`: list of booleans. Invariant: length, byte range, zero padding bits; induction over histories of calls.

Theorems: `C01_bitset_history`, `C01_reachable_shows`.

### C02 bitset queries never see the padding bits (proved)

`BitsetModel.v`: `values` as a list of byte integers, loops over it; `BitsetSpec.v`: list of booleans. count/any/all/none and == computed from the bytes equal those of the boolean sequence, by the invariant.

Theorems: `C02_bitset_queries`, `C02_bitset_equality`.

### C03 bitset shifts are logical shifts of the whole sequence (proved)

`BitsetModel.v`: `values` as a list of byte integers, loops over it; `BitsetSpec.v`: list of booleans. Induction on the shift count over the one-bit shift loop, for any Size including 0.

Theorems: `C03_bitset_shift_left`, `C03_bitset_shift_right`.

### C04 bitset bitwise operators are pointwise (proved)

`BitsetModel.v`: `values` as a list of byte integers, loops over it; `BitsetSpec.v`: list of booleans. Bytewise operators, `Z.testbit` pointwise.

Theorems: `C04_bitset_bitwise`.

### C05 bitset checked access throws exactly when out of range (proved)

`BitsetModel.v`: `values` as a list of byte integers, loops over it; `BitsetSpec.v`: list of booleans. Exact outcome of test/set/reset/flip with an index, in and out of range.

Theorems: `C05_bitset_checked_out`, `C05_bitset_checked_in`.

### C06 bitset from integer takes the low bits (proved)

`BitsetModel.v`: `values` as a list of byte integers, loops over it; `BitsetSpec.v`: list of booleans. The constructor's loop over the integer's bits, `Z.testbit`.

Theorems: `C06_bitset_from_int`.

### C07 bitset text round-trip (proved)

`BitsetIoModel.v`. Output followed by extraction on the same Size is the identity; induction over characters.

Theorems: `C07_bitset_text_roundtrip`.

### C08 bitset extraction on arbitrary input (proved)

`BitsetIoModel.v`. For any character sequence: digits consumed, bits stored, state bits, remaining input.

Theorems: `C08_bitset_extract`, `C08_bitset_extract_nothing`, `C08_bitset_extract_blank`, `C08_bitset_extract_end`, `C08_bitset_extract_zero`, `C08_bitset_extract_bad`.

### C09 bitset extraction stopping at end of input succeeds (partial)

`BitsetIoModel.v`. `get()` at the end sets failbit, which is left set. Exact behaviour and witness.

Refuted by the code: C09_bitset_extract_eof_refuted is a witness, C09_bitset_extract_eof_behaviour gives the exact behaviour (digits stored, failbit always set).

Theorems: `C09_bitset_extract_eof_behaviour`, `C09_bitset_extract_eof_refuted`.

### C10 reading a bit through a mutable bitset returns that bit (partial)

`BitsetIoModel.v`. The conversion selects the non-const `operator[]`, which returns a reference whose conversion is the same call: no fuel suffices.

Refuted by the code: reference::operator bool calls itself and never returns, for every bitset and index; C10_const_partial shows that operator[] of a const bitset reads the bit.

Theorems: `C10_bitset_mutable_read_diverges`, `C10_bitset_mutable_read_refuted`, `C10_const_partial`.

### C11 swapping two bit references exchanges the two bits (partial)

`BitsetIoModel.v`. Same, for both branches of swap.

Refuted by the code: swap of bit references never exchanges bits; it is a no-op for equal indices and never returns otherwise.

Theorems: `C11_bitset_ref_swap_refuted`, `C11_bitset_ref_swap_never`.

### C12 writing through a bit reference changes only that bit (proved)

`BitsetIoModel.v`. Assignment and flip through a reference into a memory of bitsets.

Theorems: `C12_bitset_ref_write`.

### C13 equal bitsets hash equally (proved)

`BitsetModel.v`: `values` as a list of byte integers, loops over it; `BitsetSpec.v`: list of booleans. The hash (a fold over the bytes) is a function of the boolean sequence.

Theorems: `C13_bitset_hash_equal`, `C13_bitset_hash_value`.

### C14 vector behaves as a sequence (proved)

`VectorModel.v` (heap of blocks of raw/live slots, all vectors), `VectorSpec.v` (map of lists). Refinement of every call and history; results and thrown exceptions agree.

erase(it, it) enters with what the code does (self-move of the tail, see C28), which is the identity for types whose self-move is harmless; a failing allocation inside shrink_to_fit aborts, see C27.

Theorems: `C14_vector_history`, `C14_vector_exact`, `C14_reachable_shows`.

### C15 vector never leaks, double-destroys or touches dead memory (proved)

`VectorModel.v` (heap of blocks of raw/live slots, all vectors), `VectorSpec.v` (map of lists). No reachable history is Stuck; slots below size are live, all others raw; each block has one owner; after destroying all vectors the heap is empty.

Theorems: `C15_vector_never_faults`, `C15_vector_live_elements`, `C15_vector_no_leak`.

### C16 vector strong exception guarantee (proved)

`VectorModel.v` (heap of blocks of raw/live slots, all vectors), `VectorSpec.v` (map of lists). If a call throws, the specification state is unchanged, for the calls for which the strong guarantee is claimed.

Theorems: `C16_vector_strong_guarantee`.

### C17 vector arguments may alias the vector (proved)

`VectorModel.v` (heap of blocks of raw/live slots, all vectors), `VectorSpec.v` (map of lists). Arguments are addresses into the same vector; the result equals that for a copied argument.

Theorems: `C17_push_back_own_element`, `C17_push_back_own_moved`, `C17_insert_own_element`, `C17_insert_own_range`, `C17_assign_own_range`, `C17_assign_own_element`, `C17_resize_own_element`.

### C18 vector capacity bounds (proved)

`VectorModel.v` (heap of blocks of raw/live slots, all vectors), `VectorSpec.v` (map of lists). Reachability invariant on capacity, and maximal capacity.

Theorems: `C18_vector_capacity_bounds`.

### C19 vector operations within capacity do not move the buffer (proved)

`VectorModel.v` (heap of blocks of raw/live slots, all vectors), `VectorSpec.v` (map of lists). Pointer and capacity equal before and after when size suffices.

Theorems: `C19_vector_within_capacity`.

### C20 reserve(n) makes room for n elements (proved)

`VectorModel.v` (heap of blocks of raw/live slots, all vectors), `VectorSpec.v` (map of lists). Capacity after reserve, followed by C19.

Theorems: `C20_vector_reserve`.

### C21 resize keeps a previously reserved capacity (partial)

`VectorModel.v` (heap of blocks of raw/live slots, all vectors), `VectorSpec.v` (map of lists). Exact capacity after resize, and witness.

Refuted by the code: a growing resize always reallocates to exactly max(10, n), so an earlier reserve is lost. C21_resize_behaviour gives the exact behaviour.

Theorems: `C21_resize_behaviour`, `C21_resize_loses_capacity_refuted`.

### C22 vector push_back is amortised constant (proved)

`VectorModel.v` (heap of blocks of raw/live slots, all vectors), `VectorSpec.v` (map of lists). Potential argument over histories of push_back, counting element moves in the model.

Theorems: `C22_push_back_amortised`.

### C23 vector at() is checked (proved)

`VectorModel.v` (heap of blocks of raw/live slots, all vectors), `VectorSpec.v` (map of lists). Exact outcomes of at and of unchecked access.

Theorems: `C23_vector_at`, `C23_vector_access`.

### C24 vector copies are independent, moves transfer the buffer (proved)

`VectorModel.v` (heap of blocks of raw/live slots, all vectors), `VectorSpec.v` (map of lists). Buffer identity in the model state; frame property for all other objects.

Theorems: `C24_copy_equals_source`, `C24_independence`, `C24_move_transfers`, `C24_self_operations`.

### C25 vector comparison is lexicographic order (proved)

`OrderModel.v` loops of std::equal and std::lexicographical_compare against `OrderSpec.v` (lexicographic order, "six operators belong to one order").

Theorems: `C25_vector_comparisons`, `C25_vector_one_order`, `C25_vector_le_transitive`.

### C26 oversized vector requests are rejected (partial)

`VectorModel.v` (heap of blocks of raw/live slots, all vectors), `VectorSpec.v` (map of lists). Counts against `max_cap`; wrap of `2^wbits`; witness for all states.

Proved for counts with size()+count representable; refuted when size()+count overflows std::size_t (C26_count_overflow_refuted: elements are written past the buffer). C26_growth_refused_early: growth is also refused early.

Theorems: `C26_oversized_rejected_partial`, `C26_oversized_construction_rejected`, `C26_count_overflow_refuted`, `C26_growth_refused_early`.

### C27 vector::shrink_to_fit keeps the elements and is safe to call (partial)

`VectorModel.v` (heap of blocks of raw/live slots, all vectors), `VectorSpec.v` (map of lists). Both outcomes of the allocation.

Proved when the allocation succeeds; refuted otherwise: shrink_to_fit is noexcept and terminates the program.

Theorems: `C27_shrink_to_fit_partial`, `C27_shrink_to_fit_terminates_refuted`.

### C28 erasing an empty range changes nothing (partial)

`VectorModel.v` (heap of blocks of raw/live slots, all vectors), `VectorSpec.v` (map of lists). Exact result of erase for i<j and for i=j.

Refuted by the code for types whose self-move is not the identity: erase(it, it) self-moves the tail. C28_erase_range_partial covers all other cases.

Theorems: `C28_erase_range_partial`, `C28_erase_empty_range_behaviour`, `C28_erase_empty_range_refuted`.

### C29 string behaves as a sequence of characters (proved)

`StringModel.v` (buffers of determinate/indeterminate bytes, union, all strings), `StringSpec.v` (map of character lists). Refinement of every call and history.

Forward iterators that throw, and sizes that overflow std::size_t, are outside the specified contract; see C30 and C37 for what happens then.

Theorems: `C29_string_history`, `C29_string_exact`, `C29_string_independence`.

### C30 string is always null-terminated (partial)

`StringModel.v` (buffers of determinate/indeterminate bytes, union, all strings), `StringSpec.v` (map of character lists). Reading c_str()[i] for every reachable state; witness with a throwing iterator.

Proved for all histories except those in which the caller's forward iterators throw during append: C30_append_throwing_iterator_refuted shows the terminator being overwritten.

Theorems: `C30_string_null_terminated_partial`, `C30_append_throwing_iterator_refuted`.

### C31 string memory safety (proved)

`StringModel.v` (buffers of determinate/indeterminate bytes, union, all strings), `StringSpec.v` (map of character lists). No reachable history is Stuck; each buffer has one owner; no block remains after destroying all strings.

Theorems: `C31_string_never_faults`, `C31_string_step_never_faults`, `C31_string_buffers_owned`, `C31_string_no_leak`.

### C32 string strong exception guarantee (proved)

`StringModel.v` (buffers of determinate/indeterminate bytes, union, all strings), `StringSpec.v` (map of character lists). State unchanged after a throw, including memory.

Theorems: `C32_string_strong_guarantee`.

### C33 string arguments may alias the string (proved)

`StringModel.v` (buffers of determinate/indeterminate bytes, union, all strings), `StringSpec.v` (map of character lists). Ranges are addresses, aliasing ranges compared with copied ones.

Theorems: `C33_append_own_range`, `C33_assign_own_range`, `C33_insert_own_range`, `C33_replace_own_range`, `C33_self_copy_assignment`.

### C34 string capacity and storage form (proved)

`StringModel.v` (buffers of determinate/indeterminate bytes, union, all strings), `StringSpec.v` (map of character lists). Capacity and active union member as a function of the history.

Theorems: `C34_string_capacity`, `C34_shrink_to_fit`.

### C35 string move and swap (proved)

`StringModel.v` (buffers of determinate/indeterminate bytes, union, all strings), `StringSpec.v` (map of character lists). Buffer identity; short strings are copied.

Theorems: `C35_string_move_construct`, `C35_string_move_assign`, `C35_string_swap`, `C35_string_self_operations`.

### C36 string comparison and hash agree with the characters (proved)

`StringOrder.v` against `OrderSpec.v` with unsigned characters.

Theorems: `C36_string_comparisons`, `C36_string_trichotomy`, `C36_string_hash`.

### C37 oversized string requests are rejected (partial)

`StringModel.v` (buffers of determinate/indeterminate bytes, union, all strings), `StringSpec.v` (map of character lists). All calls taking counts; wrap; witness for all states.

Proved for all counts whose resulting size is representable (roomy for constructors and ranges); refuted otherwise: the count wraps and the buffer is overrun (C37_count_overflow_refuted, C37_constructor_overflow_refuted).

Theorems: `C37_oversized_rejected_partial`, `C37_length_error_partial`, `C37_count_overflow_refuted`, `C37_constructor_overflow_refuted`.

### C38 string push_back is amortised constant (partial)

`StringModel.v` (buffers of determinate/indeterminate bytes, union, all strings), `StringSpec.v` (map of character lists). Copies counted by the model; lower bound for every platform, and no constant suffices.

Refuted by the code: capacity grows by a constant, so n push_backs copy about n^2/(2*footprint) characters; C38_push_back_copies gives the bound for every platform.

Theorems: `C38_push_back_copies`, `C38_amortised_constant_refuted`.

### C39 string literal operators keep the whole literal (partial)

`StringModel.v` (buffers of determinate/indeterminate bytes, union, all strings), `StringSpec.v` (map of character lists). The literal operators go through a null-terminated pointer.

Proved for literals without embedded null characters, of both operators; refuted otherwise: the operators ignore the length and stop at the first null character.

Theorems: `C39_literal_without_null_partial`, `C39_literal_embedded_null_refuted`, `C39_sr_literal_without_null_partial`, `C39_sr_literal_embedded_null_refuted`.

### C40 string concatenation and substr (proved)

`StringModel.v` (buffers of determinate/indeterminate bytes, union, all strings), `StringSpec.v` (map of character lists). operator+ for all operand kinds, substr for lvalues and rvalues.

Theorems: `C40_string_concat`, `C40_string_substr`, `C40_string_substr_rvalue`.

### C41 string noexcept operations do not allocate (proved)

`StringModel.v` (buffers of determinate/indeterminate bytes, union, all strings), `StringSpec.v` (map of character lists). The number of allocations is unchanged by the noexcept calls.

Theorems: `C41_string_noexcept_operations`.

### C42 string operations within capacity keep the buffer (proved)

`StringModel.v` (buffers of determinate/indeterminate bytes, union, all strings), `StringSpec.v` (map of character lists). Buffer identity within capacity.

Theorems: `C42_string_within_capacity`, `C42_string_reserve`.

### C43 optional behaves as a value-or-nothing (proved)

`OptionalModel.v` (slot and flag), `OptionalSpec.v` (map of options). Refinement of every call and history.

Theorems: `C43_optional_is_value_or_nothing`, `C43_optional_call`.

### C44 optional destroys its value exactly once (proved)

`OptionalModel.v` (slot and flag), `OptionalSpec.v` (map of options). No history faults; liveness of the slot equals the flag.

Theorems: `C44_optional_never_faults`, `C44_optional_alive`, `C44_optional_destroy`, `C44_optional_no_leak`.

### C45 optional exception safety (proved)

`OptionalModel.v` (slot and flag), `OptionalSpec.v` (map of options). State after a throw.

An assignment to an optional that already has a value forwards to the value type's assignment; if that throws, the value is whatever that assignment leaves, but still there.

Theorems: `C45_optional_exception_safety`, `C45_assign_to_empty`, `C45_emplace`.

### C46 value() throws exactly when empty (proved)

`OptionalModel.v`, `OptionalRefModel.v`: exact outcomes.

optional and optional_ref.

Theorems: `C46_value`, `C46_value_rvalue`, `C46_value_or`, `C46_value_or_rvalue`, `C46_optional_ref_value`, `C46_optional_ref_value_or`.

### C47 optional comparisons form one order with nullopt lowest (proved)

`OptionalModel.v` (slot and flag), `OptionalSpec.v` (map of options). The comparison operators for all operand kinds belong to one order (`OrderSpec.v`).

Theorems: `C47_optional_comparisons`, `C47_nullopt_lowest_total`, `C47_optional_one_order`.

### C48 variant always holds exactly one alternative (partial)

`VariantModel.v` (slot and index byte), `VariantSpec.v` (map of tagged values). Refinement of every call and history.

proved for every history without the case of C48_valueless_refuted: emplace<T>(args...) where T(args...) is noexcept but T{args...} selects a constructor for an initializer_list that throws leaves the variant without a value. emplace of the variant's own value is C53.

Theorems: `C48_variant_is_tagged_value_partial`, `C48_variant_call_partial`, `C48_variant_never_valueless_partial`, `C48_valueless_refuted`.

### C49 variant destroys each alternative exactly once with its own type (partial)

`VariantModel.v` (slot and index byte), `VariantSpec.v` (map of tagged values). No history faults; the live member has the index in `type`.

as C48: in that case the destructor destroys the old value again (C49_destroy_twice_refuted); proved for all other histories.

Theorems: `C49_variant_never_faults_partial`, `C49_variant_alive_partial`, `C49_variant_destroy`, `C49_variant_no_leak_partial`, `C49_destroy_twice_refuted`.

### C50 variant strong exception guarantee (partial)

`VariantModel.v` (slot and index byte), `VariantSpec.v` (map of tagged values). State after a throw.

as C48: in that case the old value is lost (C50_emplace_braces_refuted); proved for all other constructions.

Theorems: `C50_variant_strong_guarantee_partial`, `C50_variant_assign_emplace_partial`, `C50_emplace_braces_refuted`.

### C51 variant access (partial)

`VariantModel.v` (slot and index byte), `VariantSpec.v` (map of tagged values). Exact outcomes of holds/get_if/get/visit for every listed type; witness for const.

Proved for the listed alternatives; C51_holds_const_refuted: holds<const T>() compiles and answers false for every listed T.

Theorems: `C51_variant_access_partial`, `C51_variant_get_rvalue`, `C51_variant_visit`, `C51_variant_write`, `C51_holds_const_refuted`.

### C52 variant comparisons (proved)

`VariantModel.v` (slot and index byte), `VariantSpec.v` (map of tagged values). As C47, ordered by (index, value).

Theorems: `C52_variant_comparisons`, `C52_tag_order_total`, `C52_variant_one_order`.

### C53 emplace from the variant's own value (partial)

`VariantModel.v` (slot and index byte), `VariantSpec.v` (map of tagged values). Arguments that are addresses into the variant.

Proved for assignment and for the emplace path whose construction may throw; refuted for noexcept construction and for rvalue arguments: the old value is destroyed (or moved from) before the argument is read.

Theorems: `C53_emplace_own_throwing_partial`, `C53_emplace_own_nothrow_refuted`, `C53_emplace_own_rvalue_refuted`, `C53_assign_own`.

### C54 variant alternative lookup is exact (proved)

The compile-time recursions as list functions against first index, NoDup and maximum, for any length below the limit.

variant (four computations, up to 254 alternatives) and variant_ref (two computations, any number).

Theorems: `C54_determine_index`, `C54_validate_unique`, `C54_max_sizeof`, `C54_determine_type`, `C54_ref_determine_index`, `C54_ref_validate_unique`.

### C55 variant_ref refers to the bound object (proved)

`VariantRefModel.v` against `VariantRefSpec.v` (name ↦ alternative and object).

A variant_ref whose object was destroyed is outside the contract (copying it dereferences the pointer).

Theorems: `C55_variant_ref_is_reference`, `C55_variant_ref_call`, `C55_bind`, `C55_no_mutable_binding`, `C55_stays_usable`, `C55_never_dangles`.

### C56 optional_ref refers to the bound object (proved)

`OptionalRefModel.v` against `OptionalRefSpec.v` (name ↦ location).

Theorems: `C56_optional_ref_is_reference`, `C56_optional_ref_call`, `C56_refers_to_object`, `C56_refers_to_contents`, `C56_empty_sources`, `C56_empty_means`, `C56_copies_rebind`.

### C57 function_ref forwards the call to the referenced callable (proved)

`FunctionRefModel.v` against `FunctionRefSpec.v` (name ↦ callable); state changes, log of calls and exceptions agree.

For signatures that return values; for those that return references see C66. Includes the overload actually called; for const signatures see C58.

Theorems: `C57_function_ref_is_callable`, `C57_function_ref_call`, `C57_calls_function`, `C57_calls_functor`, `C57_copies_rebind`.

### C58 function_ref with a const signature calls the const overload (partial)

`FunctionRefModel.v`: overload resolution of const and non-const operator().

Refuted by the code for functors given as non-const that have a non-const operator(): that one is called (C58_const_signature_refuted, C58_const_noexcept_refuted). Proved for all others (C58_const_signature_partial).

Theorems: `C58_const_signature_partial`, `C58_mutable_functor_behaviour`, `C58_const_signature_refuted`, `C58_const_noexcept_refuted`.

### C59 array_ref sub-views denote the right elements (proved)

`ArrayRefModel.v` (pairs of pointers) against `ArrayRefSpec.v` (array, offset, length).

every history of array_ref calls inside the contract runs like the same history on parts of arrays (exact pointers); first/last/subrange give exactly those elements, as the same objects; composition, write-through, at/front/back. Ranges are arrays, empty ranges and other views; the conversion traits and deduction guides are not modelled.

Theorems: `C59_array_ref_is_view`, `C59_array_ref_call`, `C59_first`, `C59_last`, `C59_subrange`, `C59_subrange_n`, `C59_compose`, `C59_shares_storage`, `C59_at`, `C59_front_back`, `C59_whole_array`.

### C60 string_ref views denote the right characters (proved)

`StringRefModel.v` against `StringRefSpec.v`.

every history of string_ref calls inside the contract runs like the same history on parts of character arrays (exact pointers); constructors, remove_prefix/suffix, substr, string_view round trip, at, comparison, hash. Formatting with operator<< is not modelled.

Theorems: `C60_string_ref_is_view`, `C60_string_ref_call`, `C60_from_c_string`, `C60_from_size`, `C60_string_view_round_trip`, `C60_remove_prefix`, `C60_remove_suffix`, `C60_substr`, `C60_substr_n`, `C60_at`, `C60_front_back`, `C60_size`, `C60_compare`, `C60_hash`.

### C61 iterators traverse the container once in order (proved)

`IterModel.v` against `IterSpec.v` (positions); loops proved by induction on the distance; instances for all five containers.

the random access laws for every iterator into a range; forward and reverse loops visit each element once in order, for vector, string, array, array_ref and string_ref in every reachable state.

Theorems: `C61_array`, `C61_add_sub`, `C61_index`, `C61_steps`, `C61_order`, `C61_default`, `C61_loop`, `C61_array_ref`, `C61_string_ref`, `C61_string`, `C61_string_range`, `C61_vector`, `C61_vector_range`.

### C62 array is a fixed sequence of Size elements (proved)

`ArrayModel.v` against `ArraySpec.v` (map of lists of Size values).

every history of array calls inside the contract runs like the same history on lists of Size values, with the damage of a throwing element operation specified; plus one theorem per member. Swapping an array with itself is outside the contract of std::swap_ranges (Example C63_case).

Theorems: `C62_array_is_sequence`, `C62_array_call`, `C62_new`, `C62_fill`, `C62_swap`, `C62_at`, `C62_access`, `C62_write`, `C62_size`, `C62_copy`.

### C63 array comparison is lexicographic order (proved)

`OrderModel.v`, as C25.

for any element operators; total order if the element type has one.

Theorems: `C63_array_comparisons`, `C63_array_one_order`, `C63_array_le_transitive`.

### C64 tuple is a heterogeneous sequence with lexicographic order (proved)

`TupleModel.v` (template recursion over component list) against `TupleSpec.v` (map of lists).

every history of tuple calls inside the contract runs like the same history on lists of values (components are initialised and assigned from the last to the first); comparisons for any component operators, total order if the component types have one. Packed alignment is C70, overload resolution of the constructors C68.

Theorems: `C64_tuple_is_sequence`, `C64_tuple_call`, `C64_new`, `C64_write`, `C64_swap`, `C64_copy`, `C64_copy_assign`, `C64_comparisons`, `C64_one_order`, `C64_le_transitive`.

### C65 string literals report allocation failure (partial)

`StringModel.v` (buffers of determinate/indeterminate bytes, union, all strings), `StringSpec.v` (map of character lists). noexcept around an allocation.

Refuted by the code: operator""_s is noexcept, so a failing allocation terminates the program.

Theorems: `C65_literal_terminates_refuted`.

### C66 function_ref returns the callee's reference (partial)

`FunctionRefModel.v`: `auto` return type decays.

Refuted by the code: invoke_r decays its result, so a const reference returned by a function_ref refers to a dead temporary; C66_reference_result_behaviour holds for every function.

Theorems: `C66_reference_result_behaviour`, `C66_reference_result_refuted`.

### C67 array accepts the initialisers its elements accept (partial)

`ArrayCtor.v`: constraint, body and overload resolution over arbitrary conversions.

Refuted by the code: the enable_if tests the conversion in the wrong direction, so variables of the element type are rejected (C67_lvalue_argument_refuted), const rvalue arrays cannot be copied (C67_const_rvalue_array_refuted) and too many arguments are a hard error (C67_too_many_arguments_refuted). The _partial theorems say what does hold.

Theorems: `C67_lvalue_argument_refuted`, `C67_const_rvalue_array_refuted`, `C67_too_many_arguments_refuted`, `C67_only_good_partial`, `C67_rvalues_partial`, `C67_elements_partial`, `C67_copy_move_partial`.

### C68 tuples are copied by copy construction (partial)

`TupleCtor.v`: the same for tuple.

Refuted by the code for tuples of one component (the component constructor is chosen for variables and const rvalues: C68_one_component_refuted) and for default construction of non-empty tuples (C68_default_refuted); proved for all other tuples and argument lists.

Theorems: `C68_one_component_refuted`, `C68_default_refuted`, `C68_copy_partial`, `C68_copy_const_partial`, `C68_components`, `C68_constructible_partial`.

### C69 binary layouts are the documented ones (partial)

`LayoutModel.v`: ABI layout algorithm; `LayoutSpec.v`: what a good layout is; structural induction over types.

sizes, alignments and offsets of every type for all element types (Itanium ABI layout algorithm as model). The claim for tuple is false (C69_tuple_refuted): a tuple whose last component is a tuple has an extra byte, because its empty base class and that of the component may not share an address. C69_tuple_partial proves it for the other tuples, C69_tuple_components describes all.

Theorems: `C69_class_members`, `C69_optional`, `C69_variant`, `C69_variant_compiles`, `C69_array`, `C69_array_empty`, `C69_bitset`, `C69_array_ref`, `C69_string_ref`, `C69_optional_ref`, `C69_vector`, `C69_string`, `C69_function_ref`, `C69_variant_ref`, `C69_tuple_refuted`, `C69_tuple_partial`, `C69_tuple_components`.

### C70 references to contained values are aligned (partial)

`LayoutModel.v`: alignment of the address of the contained value for every aligned container address.

false for optional, variant and tuple of any type with alignment above one (#pragma pack(1) gives the container alignment one), even inside arrays, and for over-aligned elements of vector (calloc); proved for all classes outside of the pragma, arrays, and vectors of ordinarily aligned types.

Theorems: `C70_optional_refuted`, `C70_variant_refuted`, `C70_tuple_refuted`, `C70_array_of_optionals_refuted`, `C70_vector_overaligned_refuted`, `C70_bytes_partial`, `C70_members_partial`, `C70_array_partial`, `C70_vector_partial`.

### C71 library types nest (partial)

`LayoutModel.v`: standard-layout predicate of the C++ standard and the static_asserts of the containers.

false for every tuple of two or more components, which are therefore rejected as elements of all containers (C71_tuple_refuted); exact for tuples of one component; proved for all other types.

Theorems: `C71_standard_layout`, `C71_tuple_refuted`, `C71_tuple_partial`.

### C72 memory is released by the module that allocated it (proved)

`VectorModel.v`, `StringModel.v`: the dealloc member is the module whose function it points to, releasing a block of another module is the fault `WrongModule`; consequence of the representation invariant of C14/C29.

vector and string: the deallocation function of every reachable object is that of the module that allocated its block, and no call releases a block with another one; the modules are an arbitrary function of the allocations.

Theorems: `C72_string_dealloc`, `C72_string_released_by_owner`, `C72_string_other_module_faults`, `C72_vector_dealloc`, `C72_vector_released_by_owner`, `C72_vector_other_module_faults`.

### C73 visit calls the matching visitor and returns its result (partial)

`VisitModel.v`: result type, dispatch table and combined_visitor over an arbitrary overload resolution; `Overload.v`: the C++17 rules for one parameter as an instance for the examples.

false for several visitors given as variables (C73_lvalue_visitors_refuted) and for visitors with different result types, whose results are silently converted to that of the first alternative (C73_result_type_refuted); C73_visit_behaviour characterises all calls, the _partial theorems prove the claim for one visitor of any category or several temporaries, with one result type. Call operators are not ref-qualified.

Theorems: `C73_visit_behaviour`, `C73_visit_partial`, `C73_variant_visit_partial`, `C73_variant_ref_visit_partial`, `C73_visitor_order`, `C73_lvalue_visitors_refuted`, `C73_result_type_refuted`.

### C74 emplace is available for every constructible alternative (partial)

`VariantEmplace.v`: which template bodies are instantiated, over arbitrary sets of initialisations.

false for constructions that cannot throw: the dispatch table instantiates the construction of every alternative, so e.g. variant<int, double>::emplace<double>(x) does not compile (C74_emplace_refuted), and for narrowing arguments (C74_emplace_narrowing_refuted). Proved for the constructors and the throwing path; C74_emplace_behaviour is exact.

Theorems: `C74_constructors`, `C74_constructors_others`, `C74_emplace_behaviour`, `C74_emplace_partial`, `C74_emplace_refuted`, `C74_emplace_narrowing_refuted`, `C74_emplace_index`.

### C75 array_ref views the range it is made from (partial)

`ArrayRefCtor.v`: traits, constructor bodies, conversion ranks and deduction guides over an arbitrary class hierarchy with offsets.

false for ranges of derived classes, which are accepted although the elements of the view are elsewhere (C75_derived_refuted), for a literal 0 as count (C75_literal_zero_refuted), and deduction fails for variables that view const elements (C75_deduced_refuted). Proved for ranges of the very type; C75_construct_behaviour is exact, C75_const_correct and C75_pointer_count hold in general.

Theorems: `C75_construct_behaviour`, `C75_const_correct`, `C75_view_partial`, `C75_accepted`, `C75_derived_refuted`, `C75_pointer_count_partial`, `C75_literal_zero_refuted`, `C75_pointer_count`, `C75_deduced_partial`, `C75_deduced_refuted`.

### C76 Assignment to an optional selects the right overload (partial)

`OptionalAssign.v`: overload resolution by conversion rank; case analysis over all types, arguments and ranks.

false for {}: opt = {} stores a value-initialised scalar (C76_braces_refuted) and is ambiguous for classes initialisable from {} (C76_braces_class_refuted). Proved for all other right-hand sides; C76_braces_behaviour is exact.

Theorems: `C76_assignment_partial`, `C76_rejected`, `C76_braces_behaviour`, `C76_braces_partial`, `C76_braces_refuted`, `C76_braces_class_refuted`.

### C77 Containers store the value they are given (partial)

`InitModel.v`: list initialisation of the standard over arbitrary constructors; every place that stores a value.

false for types with a constructor for an initializer_list whose elements can be made from the type itself, e.g. std::vector<std::any>: every place that uses braces wraps the value (C77_stored_refuted), deeper with every copy (C77_copies_refuted). Proved for all other types; C77_stored_behaviour is exact.

Theorems: `C77_stored_behaviour`, `C77_stored_partial`, `C77_stored_refuted`, `C77_copies_refuted`.

### C78 emplace constructs like a constructor call (partial)

`InitModel.v`, as C77.

false if a constructor for an initializer_list is viable (emplace_back(3, 7) of a vector<vector<int>> adds {3, 7}, C78_emplaced_refuted) or a conversion is narrowing (C78_narrowing_refuted); proved otherwise, except for aggregates, where T(args...) does not exist in C++17.

Theorems: `C78_emplaced_partial`, `C78_emplaced_refuted`, `C78_narrowing_refuted`.

### C79 max_size() is what can exist (proved)

`VectorModel.v`, `StringModel.v`, `ViewModel.v`: arithmetic on the constants; consequence of the representation invariants.

exact characterisation for vector, string and string_ref; bound for all reachable vectors and strings.

Theorems: `C79_string_max_size`, `C79_string_bounded`, `C79_string_ref_max_size`, `C79_vector_max_size`, `C79_vector_bounded`.

### C80 optional_ref binds to the objects and optionals it should (partial)

`OptionalRefCtor.v`: trait, conversion of the argument and overload resolution over arbitrary types with any operator*, bool conversion and class hierarchy.

false for types with operator* by value, whose mere use as argument is a hard error (C80_star_by_value_refuted), for rvalue optionals: an optional_ref<T> returned by a function does not convert to optional_ref<const T> (C80_rvalue_refuted; a TODO in the code), for types whose operator* yields their own type (C80_self_reference_refuted), and optional_ref<const T> binds to converted temporaries (C80_temporary_refuted). C80_behaviour says what each constructor is selected for; C80_const_correct and C80_copy hold in general.

Theorems: `C80_behaviour`, `C80_const_correct`, `C80_object_partial`, `C80_star_by_value_refuted`, `C80_self_reference_refuted`, `C80_optional_partial`, `C80_rvalue_refuted`, `C80_copy`, `C80_temporary_refuted`.

### C81 optional_ref deduces the type it refers to (partial)

`OptionalRefCtor.v`: the two guides, the implicit guide and the copy deduction candidate.

false for constant pointers to mutable objects, which deduce a reference to const (C81_pointer_refuted); proved for variables, constants of types that pass constness on, optional_refs, other objects, and temporaries.

Theorems: `C81_variable_partial`, `C81_constant_partial`, `C81_optional_ref_partial`, `C81_pointer_refuted`, `C81_object`, `C81_rvalue`.

### C82 function_ref accepts exactly the callables it can call (partial)

`FunctionRefCtor.v`: constraints, partial ordering of the constructors and instantiated bodies over arbitrary callables.

the constraint is exact (C82_constructible, C82_target, C82_assignment, C82_deduced). Accepted but not compiling: signatures that return a mutable reference (C82_reference_result_refuted), callables returning a reference to something not copyable (C82_copy_result_refuted), const signatures with callables whose other overload returns something else (C82_const_result_refuted); accepted but terminating: such callables whose other overload throws (C82_const_noexcept_refuted). function_refs of another signature are referred to themselves (C82_other_function_ref_refuted). C82_compiles_partial proves the rest.

Theorems: `C82_constructible`, `C82_target`, `C82_compiles_partial`, `C82_reference_result_refuted`, `C82_copy_result_refuted`, `C82_const_result_refuted`, `C82_const_noexcept_refuted`, `C82_other_function_ref_refuted`, `C82_assignment`, `C82_deduced`.

### C83 exceptions of element comparisons reach the caller (partial)

`CompareCalls.v`: the comparison functions over contents, with element operators that may throw and a record of their calls, against plans of questions (`CompareCallsProps.v`).

false: all comparisons are noexcept, so an exception of an element operator terminates the program (C83_exception_refuted). C83_behaviour and C83_terminates say exactly when; C83_answers_partial: they answer if no operator throws.

Theorems: `C83_behaviour`, `C83_terminates`, `C83_answers_partial`, `C83_exception_refuted`.

### C84 comparisons use only the element operators they need (proved)

`CompareCalls.v`, as C83.

C83_behaviour gives the exact sequence of calls; C84_answers relates the results to those of C25.

Theorems: `C84_sequence_calls`, `C84_single_call`, `C84_count`, `C84_answers`.

### C85 comparisons compile for all usable element operators (partial)

`CompareCalls.v`: conversions demanded of operator results, over arbitrary result types.

false for variants, whose operators must return exactly bool (C85_variant_refuted, exact in C85_variant), and for optionals compared with a value if the result type also converts from bool (C85_value_refuted). Proved for all others; C85_missing is the other direction.

Theorems: `C85_compiles_partial`, `C85_missing`, `C85_variant`, `C85_variant_refuted`, `C85_value_refuted`.

### C86 structured bindings name the elements (partial)

`BindingModel.v`: get, tuple_size, tuple_element, overload resolution and [dcl.struct.bind] over arbitrary types; histories of reads and writes by simulation against linked or separate lists (`BindingProps.v`).

false for bitsets: get returns the bit by value, so names bound by reference are copies (C86_bits_refuted; a TODO in the code; exact in C86_bits_behaviour), and tuple_element of arrays and bitsets accepts indices that are too large (C86_tuple_element_refuted). The rest is proved: C86_get, C86_compiles and C86_types for all three, C86_names_partial for arrays and tuples.

Theorems: `C86_get`, `C86_get_bits`, `C86_tuple_size`, `C86_tuple_element_partial`, `C86_tuple_element_refuted`, `C86_compiles`, `C86_types`, `C86_names_partial`, `C86_bits_behaviour`, `C86_bits_refuted`.

### C87 printing writes the contents as one formatted field (partial)

`OutModel.v`: formatted insertion of the standard into streams with width, fill, adjustment, state and limited room; the strings, views and bitsets are reachable ones of their models; induction over the digits (`OutProps.v`).

proved for strings and string_refs. False for bitsets with a field width: they are inserted digit by digit, so the width applies to the first digit only (C87_bitset_refuted), the digits are then not read back (C87_round_trip_refuted), and a bitset of no bits neither pads nor resets the width (C87_bitset_empty_refuted). C87_bitset_behaviour is exact, C87_bitset_partial is the claim without a width (read back: C07).

Theorems: `C87_string`, `C87_string_failed`, `C87_string_ref`, `C87_string_ref_failed`, `C87_bitset_behaviour`, `C87_bitset_partial`, `C87_bitset_refuted`, `C87_bitset_empty_refuted`, `C87_bitset_failed`, `C87_round_trip_refuted`.

### C88 texts of different types compare by their characters (partial)

`TextModel.v`: [over.match] of the standard (conversion sequences, ranks, user-defined conversions, templates) over the declared operators, and their bodies, which again are resolved; case analysis over operand types, lexicographical order by induction.

false for string_ref against std::string_view and std::string: no operator is viable or two are equally good (C88_compare_refuted). C88_compare_partial proves all other pairs; C88_compare_behaviour is exact for all operands, with objects of classes of the program.

Theorems: `C88_compare_partial`, `C88_compare_refuted`, `C88_compare_behaviour`.

### C89 text is accepted wherever text is taken (partial)

`TextModel.v`, as C88.

C89_members and C89_concat prove it for string and for string_ref(a). False for parameters of type string_ref, which take neither ptl::string nor std::string: that needs two user-defined conversions (C89_ref_param_refuted; C89_ref_param_partial for the others). C89_members_behaviour, C89_params_behaviour and C89_concat_behaviour are exact for all arguments.

Theorems: `C89_members`, `C89_concat`, `C89_ref_param_partial`, `C89_ref_param_refuted`, `C89_members_behaviour`, `C89_params_behaviour`, `C89_concat_behaviour`.

### C90 numbers and null pointers are not text (partial)

`TextModel.v`, as C88.

proved for integers (C90_numbers_partial; as characters: C89_members_behaviour). False for the literals 0 and nullptr and for null pointers: they are accepted and the text behind them is read, which is undefined (C90_null_refuted).

Theorems: `C90_numbers_partial`, `C90_null_refuted`.

### C91 counts are counts and ranges are ranges (partial)

`RangeModel.v`: overload resolution by conversion ranks over arbitrary types, and the bodies, which again are resolved; case analysis over members and types.

false for iterators whose category is derived from std::input_iterator_tag only, as those of iterator adaptors: rejected, or taken for a count and a value (C91_category_refuted), and for input iterators over something the element type is explicitly constructed from, which all other iterators accept (C91_explicit_refuted). C91_count and C91_range_partial prove the rest, C91_behaviour is exact for all arguments, C91_delegates is about the internal calls.

Theorems: `C91_count`, `C91_range_partial`, `C91_category_refuted`, `C91_explicit_refuted`, `C91_behaviour`, `C91_delegates`.

### C92 numbers are not vectors (partial)

`RangeModel.v`: conversions of numbers to nested vectors; sizes modulo 2^64.

false: vector(size_type) is not explicit, so a number is taken for a vector of that many elements wherever a vector is expected (C92_number_refuted), a negative one for a size that cannot exist (C92_negative_refuted), and vector<vector<T>>{n} has one element (C92_braces_refuted). C92_count is the part that holds.

Theorems: `C92_count`, `C92_number_refuted`, `C92_negative_refuted`, `C92_braces_refuted`.

### C93 function_ref passes arguments on unchanged (partial)

`FunctionArgs.v`: three functions with parameters on a stack, each initialised from what the previous one forwards. The spec knows two steps: the argument becomes what the signature says, then what the callable takes. Invariant: the parameters of a level are in place, those of the level before are moved from.

proved if moves do not throw: C93_call for all calls, in order; C93_arguments for arguments that are different objects; C93_rejected: no other call compiles. False otherwise: parameters by value are moved once more inside the noexcept operator(), so a move that throws ends the program though the callable cannot throw (C93_noexcept_refuted).

Theorems: `C93_call`, `C93_arguments`, `C93_rejected`, `C93_noexcept_refuted`.

### C94 element requirements are sufficient (partial)

`ElementModel.v`: the traits as declared and the bodies as instantiated are two recursive functions over nested types; the static_asserts only see the first. Induction over types shows that the second never terminates and fails to compile exactly where `ElementSpec.v` says, by what contains what.

false for tuples: default construction is declared but does not compile, so vector<tuple<T>>::resize does not (C94_default_refuted); tuples with const components are swappable by their traits and so accepted in variants, but swapping them, and copying or inserting into vectors of such variants, does not compile (C94_swap_refuted); tuples with const arrays cannot be moved (C94_move_refuted). C94_noexcept is proved for all types, C94_nothrow_partial says what is declared noexcept, C94_compiles_partial and C94_members tell exactly what does not compile, C94_without_tuples is the claim for types without tuples (all but constructing an array from a const rvalue).

Theorems: `C94_noexcept`, `C94_nothrow_partial`, `C94_compiles_partial`, `C94_without_tuples`, `C94_members`, `C94_default_refuted`, `C94_swap_refuted`, `C94_move_refuted`.

### C95 library types are accepted as elements (partial)

`ElementModel.v`, with the layouts of C69 to C71 for is_standard_layout: case distinction over the accepted types; `formed` in `ElementSpec.v` tells which types those are without mentioning the static_asserts (induction over types).

false for variant_ref (copies are not noexcept), function_ref in vectors, arrays and tuples (no default constructor) and tuples of several components (no standard layout): C95_refuted. C95_variant_partial, C95_optional_partial and C95_vector_partial are exact for all library types; C95_types_partial tells exactly which types satisfy all static_asserts.

Theorems: `C95_variant_partial`, `C95_optional_partial`, `C95_vector_partial`, `C95_types_partial`, `C95_refuted`.

### C96 class template argument deduction (partial)

`GuideModel.v`: the guides of each template as candidates with what they deduce and the order [over.match.best] puts them in. Case distinction; the specification only says what is stored by value.

false for optional: string literals, arrays, functions and const rvalues deduce an element type that optional rejects (C96_optional_refuted; it has no deduction guide), exact otherwise (C96_optional_partial); for vector{first, last} the iterators are the elements (C96_vector_braces_refuted). Proved for array, tuple and vector as they are. Whether the deduced type can be initialised with the arguments is C67, C68 and C92.

Theorems: `C96_array`, `C96_tuple`, `C96_optional_partial`, `C96_optional_refuted`, `C96_vector`, `C96_vector_braces`, `C96_vector_mixed`, `C96_vector_braces_refuted`.

### C97 constexpr functions are usable in constant expressions (partial)

`ConstexprModel.v`: for every marked function what its body does; an evaluation is a finite derivation, so the recursion of bitset::reference is none. A checker that follows the calls is proved to decide derivability; nested arrays by induction.

false: optional, variant, tuple and variant_ref are no literal types, so none of their constexpr functions can be used, nor function_ref be called (C97_refuted); fill, swap and comparisons of arrays and about half of bitset use algorithms that are constexpr since C++20 only (C97_array_partial, C97_bitset_partial and C97_bit_reference are exact). Proved for array_ref, string_ref and optional_ref (C97_views, C97_optional_ref).

Theorems: `C97_views`, `C97_optional_ref`, `C97_array_partial`, `C97_bitset_partial`, `C97_bitset_empty`, `C97_bit_reference`, `C97_refuted`, `C97_tuple_empty`, `C97_nested`.

### C98 iterators and const_iterators work together (partial)

`MixModel.v`: operators found by argument-dependent lookup, overload resolution with ranks, then the access check; the bodies call operators again. Case analysis over the iterator types.

false of vector and string: their private conversion from const_iterator to iterator takes part in overload resolution, so that every mixed comparison and difference is ambiguous (C98_operators_refuted, C98_reverse_refuted). C98_operators_partial and C98_reverse_partial are for array, array_ref and string_ref and for operands of the same type; conversions, numbers and foreign operands are proved for all.

Theorems: `C98_operators_partial`, `C98_operators_refuted`, `C98_reverse_partial`, `C98_reverse_refuted`, `C98_numbers`, `C98_to_const`, `C98_not_to_mutable`, `C98_made_by_container`, `C98_foreign`, `C98_number_minus`, `C98_pointers`.

### C99 values are constructed in the storage of their holder (partial)

`NewModel.v`: memory is a finite map from addresses to values, the element type's operator new is an oracle. Symbolic execution, induction over the constructed range for the algorithms.

false for element types that declare operators new: new(p) Type{...} without :: uses those, so that it does not compile (C99_refuted_compile) or constructs elsewhere (C99_refuted_elsewhere). The partial theorems hold if there is none or it returns its argument, and for optional exactly then (C99_exact); functions of vector that use the algorithms of <memory> are always right (C99_algorithms), and so is assignment to an optional that has a value if the operator new can be called (C99_assign_held_partial).

Theorems: `C99_optional_partial`, `C99_empty_partial`, `C99_assign_held_partial`, `C99_swap_partial`, `C99_elements_partial`, `C99_algorithms`, `C99_exact`, `C99_refuted_compile`, `C99_refuted_elsewhere`.

### C100 concurrent use (partial)

`ThreadModel.v` has the functions as programs of single reads, writes, allocations and releases of cells, and an interleaving semantics with undefined behaviour for accesses outside of live memory and for data races; `ThreadSpec.v` what each call does to abstract objects when alone, and the layout of objects. `ThreadLogic.v` is a program logic in which each thread owns cells and reads shared ones, sound by an invariant over all interleavings; `ThreadProofs.v` and `ThreadStrings.v` verify each function in it, `ThreadCalls.v` all calls and clients by induction.

false for bits of one bitset: set and flip read and write a whole byte, so that changing different bits in the same byte is a data race and may lose one of the changes (C100_bits_refuted); C100_bits_partial has different bytes. The rest is C100, C100_finished (which also says that no memory is lost and none besides is touched) and C100_elements. C100_destroyed_refuted and C100_appended_refuted show that the discipline is needed: reading a string while another thread destroys it and a vector while another appends to it are races.

Theorems: `C100`, `C100_finished`, `C100_elements`, `C100_bits_partial`, `C100_bits_refuted`, `C100_destroyed_refuted`, `C100_appended_refuted`.

### C101 noexcept functions do not end the program (partial)

`NoexceptModel.v` has for each noexcept function the operations of other types that it runs, with an oracle that decides which of them throw, and termination as an outcome of its own. The specification lists per call the operations no static_assert is about; C101_exact_partial shows by case analysis and induction over loops that the program can end exactly if one of these may throw.

false: optional and variant move by Type{std::move(x)} while the static_asserts are about Type(std::move(x)), so that a type whose initializer_list constructor takes itself, like std::vector<std::any>, may throw there, even in the copy assignment of variant, which is not noexcept (C101_refuted); the views run std::data, std::size, the conversion to bool and operator* of user types (C101_views_refuted). C101_exact_partial says exactly when; vector, array and tuple are fine (C101_containers).

Theorems: `C101_partial`, `C101_exact_partial`, `C101_containers`, `C101_reach`, `C101_refuted`, `C101_views_refuted`.

### C102 layouts are the same for all compilers (partial)

`AbiModel.v` has the layout rules of the Microsoft C++ ABI beside those of `LayoutModel.v`, and a syntax of all nested types of the library, translated to classes; C102_classes shows that both are about the same classes. The specification says that sizes, alignments and offsets are equal at every level, and defines by recursion and induction over the syntax which types are portable. C102_partial is an equivalence: one direction simulates the placement of members under both rules, the other extracts the reasons from equal alignments and offsets.

false: a tuple whose last component is, or starts with, a tuple has one byte more under the Itanium ABI, whatever its components (C102_tuple_refuted); optionals, variants and tuples of types declared with alignas are aligned under the Microsoft ABI and not under the Itanium ABI (C102_aligned_refuted). C102_partial shows that these are the only types that differ; C102_plain is the consequence for types without tuple and alignas.

Theorems: `C102_classes`, `C102_partial`, `C102_plain`, `C102_tuple_refuted`, `C102_aligned_refuted`.

### C103 headers can be included alone, in any order and in several translation units (partial)

`HeaderModel.v` has each header as a sequence of directives, first uses of names of the standard library and definitions with line numbers, the names the synopses of C++17 guarantee for each standard header, and an interpreter of translation units with once, a stack of packings and a table of definitions. C103_partial is an equivalence by induction over directives with an invariant (declared names, packing, definitions); the one definition rule is stated on pairs of translation units.

false: only array_ref.hpp is guaranteed to compile alone (C103_alone_refuted), whether two headers compile can depend on their order (C103_order_refuted), and two translation units with variant.hpp violate the one definition rule because members of the class name a function template declared static (C103_variant_refuted); C103_blame_partial shows that this is the only such definition. C103_partial says exactly which sequences of directives compile, C103_enough that all do with the headers named there in front, C103_program_partial exactly which translation units make a program; that including again changes nothing, that packing is restored and that definitions do not depend on the order are proved in full.

Theorems: `C103_partial`, `C103_alone_refuted`, `C103_enough`, `C103_again`, `C103_packing`, `C103_order`, `C103_order_refuted`, `C103_program_partial`, `C103_variant_refuted`, `C103_blame_partial`.

### C104 vector operations cost what they should (partial)

The world of `VectorModel.v` counts constructions, allocations and relocations. `VectorCostSpec.v` gives what a call may cost from the sequences before it. `VectorCost.v` has a calculus of costs (rules for bind, on_exn, noexcept and each primitive) and derives every function's cost; for ranges of unknown length and for sequences of insertions an invariant relates relocations and allocations so far to length and capacity.

the costs of single calls (C104_call_partial) and the linear bound for insertions (C104_inserting_partial) are proved in full; the last sentence is false: growing by resize always reallocates, so that n times resize(size() + 1) costs n allocations and a quadratic number of relocations whatever was reserved (C104_resizing_refuted), and assign allocates, and can lose reserved capacity, whenever old and new elements together do not fit (C104_assigning_refuted). Moves within a buffer are not counted.

Theorems: `C104_call_partial`, `C104_inserting_partial`, `C104_resizing_refuted`, `C104_assigning_refuted`.

### C105 string operations allocate no more often than they must (partial)

The world of `StringModel.v` counts allocations. `StringCostSpec.v` gives the bound for each call from the texts before it. `StringCost.v` has the calculus of `VectorCost.v` for allocations only; push_back is shown to allocate exactly when the string is full, and an induction over the range relates allocations so far to the capacity reached.

the bounds for single calls are proved in full (C105_call_partial), with a block for every footprint (24) characters for ranges of unknown length. The last two sentences are false: a string that grows one by one gains one footprint at a time, so that a range of unknown length of n characters costs at least n / 24 - 1 allocations (C105_input_refuted), and assign allocates whenever old and new text together do not fit, though the new one would (C105_assigning_refuted). Within capacity the operations that C42 lists do not allocate.

Theorems: `C105_call_partial`, `C105_input_refuted`, `C105_assigning_refuted`.

### C106 pointers to elements of a vector stay valid (partial)

`VectorStableSpec.v` gives, for every call, the vector that an element belongs to afterwards if it must stay in place (`heir`), from the operation, size and capacity. `VectorStable.v` shows by a calculus on programs that a call leaves the members of all vectors alone that it does not name, temporaries included, and for those it names that the buffer of the heir is the one the element was in; the invariant of `VectorProofs.v` then says what is read there.

false for resize: asking for more elements moves all of them to a new buffer even if capacity() suffices, so that every pointer dangles (C106_resize_refuted). C106_call_partial has all other calls, and resize to at most size() elements; C106_exception_partial has calls that throw.

Theorems: `C106_call_partial`, `C106_exception_partial`, `C106_resize_refuted`.

### C107 pointers into a string stay valid (partial)

`StringStableSpec.v` gives, for every call, the string whose data() must be the old data() of a given string (`stands`), from the operation, the texts before and after, the capacity and which strings are short; `crowded` lists the calls excepted. `StringStable.v` reads off the representation relation of `StringRep.v` where each buffer is after a call; `C107_call_partial` states it with data() and reads through the old pointer.

false for assignments: copy assignment, assign and replace from forward iterators or a string_view want room for the new characters beside the old ones and otherwise move to another buffer although the result would fit (C107_assign_refuted), and assign from input iterators always takes over the buffer of a temporary (C107_input_refuted). C107_call_partial has all other calls, and these where there is room for both; C107_exception_partial has calls that throw.

Theorems: `C107_call_partial`, `C107_exception_partial`, `C107_assign_refuted`, `C107_input_refuted`.

### C108 recursive data structures (partial)

`RecursiveModel.v` lists, per class template, the type traits, sizeofs, members and bases met when it is instantiated; `complete` is the least relation that satisfies them, and `accepts` reads a translation unit from top to bottom. `RecursiveSpec.v` says which structs a type owns and which it has inside by recursion on the type only. Proved by induction on the derivation one way and on the size of the instantiated type the other; acyclic families are ordered by repeatedly taking a struct that owns no other that is left.

false for vector and for array of size 0: their static_asserts and sizeof want a complete element type, so a struct that holds itself on the heap is rejected in every program (C108_heap_refuted, C108_vector_refuted) although it has a layout. C108_order_partial and C108_cycles_partial say exactly what is accepted; C108_views and C108_layout are the parts that hold as stated.

Theorems: `C108_order_partial`, `C108_views`, `C108_cycles_partial`, `C108_layout`, `C108_heap_refuted`, `C108_vector_refuted`.

### C109 the members of the unions of a variant are used while they are alive (partial)

`UnionModel.v` repeats every function of VariantModel.v on storages that are chains of unions, with a flag for the rule on calls of member functions of objects that are not alive. `Union.v` proves a simulation by VariantModel.v (both values of the flag) and an invariant (with the rule no next ever becomes alive); the theorems follow from the refinement theorem of C48.

false by the rule of the standard: no code begins the lifetime of next, so every history that constructs another alternative than the first is undefined (C109_others_refuted). C109_first_partial says that histories that only construct first alternatives are defined, C109_lenient_partial that with a compiler that lets calls on a next that is not alive go through every history within the contract ends as VariantModel.v says.

Theorems: `C109_lenient_partial`, `C109_first_partial`, `C109_others_refuted`.

### C110 const and value categories along access paths (partial)

`ConstModel.v` lists the declared overloads of every accessor with their cv- and ref-qualifiers and models overload resolution on the object argument; `step` is one step of a program that looks at the parts of an object (accessors, references, std::as_const, std::move, copies of views, addresses, conversions, constructions of views). Const safety, the absence of implicit rvalues and that only parts are designated are invariants of steps; that all parts are reachable is by induction on the part.

false for the iterators of a const array_ref: begin(), end(), rbegin() and rend() yield const elements while operator[], at, front, back and data of the same object yield mutable ones (C110_iterators_refuted). C110_shallow_partial is the claim for all other accessors of views; the other parts are proved as stated.

Theorems: `C110_const_safe`, `C110_parts`, `C110_all_parts`, `C110_not_moved`, `C110_rvalues`, `C110_agree`, `C110_callable`, `C110_shallow_partial`, `C110_iterators_refuted`.

### C111 views of a vector follow it (partial)

`VectorViewModel.v` adds views to the programs of `VectorModel.v`; a view is the two pointers of array_ref, and accesses go to the memory of the vectors. In the specification a view is a section (vector, first index, length) that follows its vector by the rules of C106 and is dropped when they do not guarantee its elements. That the pointers are those of the section is an invariant of all programs.

false for resize to more elements, which moves the elements even if the capacity is sufficient: a view read after it is a use of freed memory (C111_resize_refuted). C111_history_partial is the claim for all other programs, up to programs aborted by shrink_to_fit when its allocation fails (C27).

Theorems: `C111_history_partial`, `C111_resize_refuted`.

### C112 the members of the unions of a variant_ref are used while they are alive (partial)

`RefUnionModel.v` replaces the tagged pointer of `VariantRefModel.v` by the nested unions of the code, with both rules for calls on a `next` that is not alive. The function from unions to tagged pointers is a forward simulation for every member function, so the histories are those of C55; that the others fail is by induction on the history.

false by the rules of the standard: set<I> calls a member function of next, whose lifetime nothing has begun, so every history that binds an object to an alternative other than the first is undefined (C112_others_refuted). C112_first_partial is the claim for all other histories, C112_lenient_partial the claim for compilers that take a storage that is written to as alive.

Theorems: `C112_lenient_partial`, `C112_first_partial`, `C112_others_refuted`.

### C113 views of a string follow it (partial)

`StringViewModel.v` adds views to the programs of `StringModel.v`; a view is the two pointers of string_ref, which are null for empty strings, and accesses go to the memory of the strings. In the specification a view is a section (string, first index, length) that follows its string by the rules of C107 and is dropped when they do not guarantee its characters or the text has become too short. That the pointers are those of the section is an invariant of all programs.

false for assignments of a text for which there is no room beside the old one, and of input ranges: the text moves to a new block even if it would fit, and a view read after it is a use of freed memory (C113_assign_refuted; replace of a forward range has the same exception). C113_history_partial is the claim for all other programs.

Theorems: `C113_history_partial`, `C113_assign_refuted`.

## 7. Testing the theorems

`seeded/LOG.jsonl` records experiments in which a definition of the model was edited the way a realistic
bug would (off-by-one, dropped statement, swapped arguments, wrong overload, …) in a scratch copy and the
development rebuilt. Each line names the edited definition, the edit, the claim it breaks, the theorems
that failed and the theorems that were tightened because they still proved.

### The repository's own tests

`Test*.v` translate every test case and static_assert of `/repo/test` call by call and run them in the
models (`vm_compute`), as evidence that the models are of this code: `TestVector.v`, `TestString.v`, `TestBitset.v`,
`TestOptional.v`, `TestVariant.v`, `TestArray.v`, `TestTuple.v`, the five views in `Test…Ref.v`, overloads of visit in
`TestVisit.v`, and what the compiler checks in `TestStatic.v`. All of them come out as the authors expect, with
no object or memory left over, except one: the test case "variant_ref visit" (test/variant_ref.cpp:36-55) visits a
variant_ref that was bound to a temporary which no longer exists. Its behaviour is undefined
(`variant_ref_visit_dangles`); with longer-lived objects it passes.

