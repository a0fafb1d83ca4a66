{
 "claims": [
  {
   "property": "C01",
   "status": "proved",
   "theorems": [
    "C01_bitset_history",
    "C01_reachable_shows"
   ],
   "note": ""
  },
  {
   "property": "C02",
   "status": "proved",
   "theorems": [
    "C02_bitset_queries",
    "C02_bitset_equality"
   ],
   "note": ""
  },
  {
   "property": "C03",
   "status": "proved",
   "theorems": [
    "C03_bitset_shift_left",
    "C03_bitset_shift_right"
   ],
   "note": ""
  },
  {
   "property": "C04",
   "status": "proved",
   "theorems": [
    "C04_bitset_bitwise"
   ],
   "note": ""
  },
  {
   "property": "C05",
   "status": "proved",
   "theorems": [
    "C05_bitset_checked_out",
    "C05_bitset_checked_in"
   ],
   "note": ""
  },
  {
   "property": "C06",
   "status": "proved",
   "theorems": [
    "C06_bitset_from_int"
   ],
   "note": ""
  },
  {
   "property": "C07",
   "status": "proved",
   "theorems": [
    "C07_bitset_text_roundtrip"
   ],
   "note": ""
  },
  {
   "property": "C08",
   "status": "proved",
   "theorems": [
    "C08_bitset_extract",
    "C08_bitset_extract_nothing",
    "C08_bitset_extract_blank",
    "C08_bitset_extract_end",
    "C08_bitset_extract_zero",
    "C08_bitset_extract_bad"
   ],
   "note": ""
  },
  {
   "property": "C09",
   "status": "partial",
   "theorems": [
    "C09_bitset_extract_eof_behaviour",
    "C09_bitset_extract_eof_refuted"
   ],
   "note": "Refuted by the code: C09_bitset_extract_eof_refuted is a witness, C09_bitset_extract_eof_behaviour gives the exact behaviour (digits stored, failbit always set)."
  },
  {
   "property": "C10",
   "status": "partial",
   "theorems": [
    "C10_bitset_mutable_read_diverges",
    "C10_bitset_mutable_read_refuted",
    "C10_const_partial"
   ],
   "note": "Refuted by the code: reference::operator bool calls itself and never returns, for every bitset and index; C10_const_partial shows that operator[] of a const bitset reads the bit."
  },
  {
   "property": "C11",
   "status": "partial",
   "theorems": [
    "C11_bitset_ref_swap_refuted",
    "C11_bitset_ref_swap_never"
   ],
   "note": "Refuted by the code: swap of bit references never exchanges bits; it is a no-op for equal indices and never returns otherwise."
  },
  {
   "property": "C12",
   "status": "proved",
   "theorems": [
    "C12_bitset_ref_write"
   ],
   "note": ""
  },
  {
   "property": "C13",
   "status": "proved",
   "theorems": [
    "C13_bitset_hash_equal",
    "C13_bitset_hash_value"
   ],
   "note": ""
  },
  {
   "property": "C14",
   "status": "proved",
   "theorems": [
    "C14_vector_history",
    "C14_vector_exact",
    "C14_reachable_shows"
   ],
   "note": "erase(it, it) enters with what the code does (self-move of the tail, see C28), which is the identity for types whose self-move is harmless; a failing allocation inside shrink_to_fit aborts, see C27."
  },
  {
   "property": "C15",
   "status": "proved",
   "theorems": [
    "C15_vector_never_faults",
    "C15_vector_live_elements",
    "C15_vector_no_leak"
   ],
   "note": ""
  },
  {
   "property": "C16",
   "status": "proved",
   "theorems": [
    "C16_vector_strong_guarantee"
   ],
   "note": ""
  },
  {
   "property": "C17",
   "status": "proved",
   "theorems": [
    "C17_push_back_own_element",
    "C17_push_back_own_moved",
    "C17_insert_own_element",
    "C17_insert_own_range",
    "C17_assign_own_range",
    "C17_assign_own_element",
    "C17_resize_own_element"
   ],
   "note": ""
  },
  {
   "property": "C18",
   "status": "proved",
   "theorems": [
    "C18_vector_capacity_bounds"
   ],
   "note": ""
  },
  {
   "property": "C19",
   "status": "proved",
   "theorems": [
    "C19_vector_within_capacity"
   ],
   "note": ""
  },
  {
   "property": "C20",
   "status": "proved",
   "theorems": [
    "C20_vector_reserve"
   ],
   "note": ""
  },
  {
   "property": "C21",
   "status": "partial",
   "theorems": [
    "C21_resize_behaviour",
    "C21_resize_loses_capacity_refuted"
   ],
   "note": "Refuted by the code: a growing resize always reallocates to exactly max(10, n), so an earlier reserve is lost. C21_resize_behaviour gives the exact behaviour."
  },
  {
   "property": "C22",
   "status": "proved",
   "theorems": [
    "C22_push_back_amortised"
   ],
   "note": ""
  },
  {
   "property": "C23",
   "status": "proved",
   "theorems": [
    "C23_vector_at",
    "C23_vector_access"
   ],
   "note": ""
  },
  {
   "property": "C24",
   "status": "proved",
   "theorems": [
    "C24_copy_equals_source",
    "C24_independence",
    "C24_move_transfers",
    "C24_self_operations"
   ],
   "note": ""
  },
  {
   "property": "C25",
   "status": "proved",
   "theorems": [
    "C25_vector_comparisons",
    "C25_vector_one_order",
    "C25_vector_le_transitive"
   ],
   "note": ""
  },
  {
   "property": "C26",
   "status": "partial",
   "theorems": [
    "C26_oversized_rejected_partial",
    "C26_oversized_construction_rejected",
    "C26_count_overflow_refuted",
    "C26_growth_refused_early"
   ],
   "note": "Proved for counts with size()+count representable; refuted when size()+count overflows std::size_t (C26_count_overflow_refuted: elements are written past the buffer). C26_growth_refused_early: growth is also refused early."
  },
  {
   "property": "C27",
   "status": "partial",
   "theorems": [
    "C27_shrink_to_fit_partial",
    "C27_shrink_to_fit_terminates_refuted"
   ],
   "note": "Proved when the allocation succeeds; refuted otherwise: shrink_to_fit is noexcept and terminates the program."
  },
  {
   "property": "C28",
   "status": "partial",
   "theorems": [
    "C28_erase_range_partial",
    "C28_erase_empty_range_behaviour",
    "C28_erase_empty_range_refuted"
   ],
   "note": "Refuted by the code for types whose self-move is not the identity: erase(it, it) self-moves the tail. C28_erase_range_partial covers all other cases."
  },
  {
   "property": "C29",
   "status": "proved",
   "theorems": [
    "C29_string_history",
    "C29_string_exact",
    "C29_string_independence"
   ],
   "note": "Forward iterators that throw, and sizes that overflow std::size_t, are outside the specified contract; see C30 and C37 for what happens then."
  },
  {
   "property": "C30",
   "status": "partial",
   "theorems": [
    "C30_string_null_terminated_partial",
    "C30_append_throwing_iterator_refuted"
   ],
   "note": "Proved for all histories except those in which the caller's forward iterators throw during append: C30_append_throwing_iterator_refuted shows the terminator being overwritten."
  },
  {
   "property": "C31",
   "status": "proved",
   "theorems": [
    "C31_string_never_faults",
    "C31_string_step_never_faults",
    "C31_string_buffers_owned",
    "C31_string_no_leak"
   ],
   "note": ""
  },
  {
   "property": "C32",
   "status": "proved",
   "theorems": [
    "C32_string_strong_guarantee"
   ],
   "note": ""
  },
  {
   "property": "C33",
   "status": "proved",
   "theorems": [
    "C33_append_own_range",
    "C33_assign_own_range",
    "C33_insert_own_range",
    "C33_replace_own_range",
    "C33_self_copy_assignment"
   ],
   "note": ""
  },
  {
   "property": "C34",
   "status": "proved",
   "theorems": [
    "C34_string_capacity",
    "C34_shrink_to_fit"
   ],
   "note": ""
  },
  {
   "property": "C35",
   "status": "proved",
   "theorems": [
    "C35_string_move_construct",
    "C35_string_move_assign",
    "C35_string_swap",
    "C35_string_self_operations"
   ],
   "note": ""
  },
  {
   "property": "C36",
   "status": "proved",
   "theorems": [
    "C36_string_comparisons",
    "C36_string_trichotomy",
    "C36_string_hash"
   ],
   "note": ""
  },
  {
   "property": "C37",
   "status": "partial",
   "theorems": [
    "C37_oversized_rejected_partial",
    "C37_length_error_partial",
    "C37_count_overflow_refuted",
    "C37_constructor_overflow_refuted"
   ],
   "note": "Proved for all counts whose resulting size is representable (roomy for constructors and ranges); refuted otherwise: the count wraps and the buffer is overrun (C37_count_overflow_refuted, C37_constructor_overflow_refuted)."
  },
  {
   "property": "C38",
   "status": "partial",
   "theorems": [
    "C38_push_back_copies",
    "C38_amortised_constant_refuted"
   ],
   "note": "Refuted by the code: capacity grows by a constant, so n push_backs copy about n^2/(2*footprint) characters; C38_push_back_copies gives the bound for every platform."
  },
  {
   "property": "C39",
   "status": "partial",
   "theorems": [
    "C39_literal_without_null_partial",
    "C39_literal_embedded_null_refuted",
    "C39_sr_literal_without_null_partial",
    "C39_sr_literal_embedded_null_refuted"
   ],
   "note": "Proved for literals without embedded null characters, of both operators; refuted otherwise: the operators ignore the length and stop at the first null character."
  },
  {
   "property": "C40",
   "status": "proved",
   "theorems": [
    "C40_string_concat",
    "C40_string_substr",
    "C40_string_substr_rvalue"
   ],
   "note": ""
  },
  {
   "property": "C41",
   "status": "proved",
   "theorems": [
    "C41_string_noexcept_operations"
   ],
   "note": ""
  },
  {
   "property": "C42",
   "status": "proved",
   "theorems": [
    "C42_string_within_capacity",
    "C42_string_reserve"
   ],
   "note": ""
  },
  {
   "property": "C43",
   "status": "proved",
   "theorems": [
    "C43_optional_is_value_or_nothing",
    "C43_optional_call"
   ],
   "note": ""
  },
  {
   "property": "C44",
   "status": "proved",
   "theorems": [
    "C44_optional_never_faults",
    "C44_optional_alive",
    "C44_optional_destroy",
    "C44_optional_no_leak"
   ],
   "note": ""
  },
  {
   "property": "C45",
   "status": "proved",
   "theorems": [
    "C45_optional_exception_safety",
    "C45_assign_to_empty",
    "C45_emplace"
   ],
   "note": "An assignment to an optional that already has a value forwards to the value type's assignment; if that throws, the value is whatever that assignment leaves, but still there."
  },
  {
   "property": "C46",
   "status": "proved",
   "theorems": [
    "C46_value",
    "C46_value_rvalue",
    "C46_value_or",
    "C46_value_or_rvalue",
    "C46_optional_ref_value",
    "C46_optional_ref_value_or"
   ],
   "note": "optional and optional_ref."
  },
  {
   "property": "C47",
   "status": "proved",
   "theorems": [
    "C47_optional_comparisons",
    "C47_nullopt_lowest_total",
    "C47_optional_one_order"
   ],
   "note": ""
  },
  {
   "property": "C48",
   "status": "partial",
   "theorems": [
    "C48_variant_is_tagged_value_partial",
    "C48_variant_call_partial",
    "C48_variant_never_valueless_partial",
    "C48_valueless_refuted"
   ],
   "note": "proved for every history without the case of C48_valueless_refuted: emplace<T>(args...) where T(args...) is noexcept but T{args...} selects a constructor for an initializer_list that throws leaves the variant without a value. emplace of the variant's own value is C53."
  },
  {
   "property": "C49",
   "status": "partial",
   "theorems": [
    "C49_variant_never_faults_partial",
    "C49_variant_alive_partial",
    "C49_variant_destroy",
    "C49_variant_no_leak_partial",
    "C49_destroy_twice_refuted"
   ],
   "note": "as C48: in that case the destructor destroys the old value again (C49_destroy_twice_refuted); proved for all other histories."
  },
  {
   "property": "C50",
   "status": "partial",
   "theorems": [
    "C50_variant_strong_guarantee_partial",
    "C50_variant_assign_emplace_partial",
    "C50_emplace_braces_refuted"
   ],
   "note": "as C48: in that case the old value is lost (C50_emplace_braces_refuted); proved for all other constructions."
  },
  {
   "property": "C51",
   "status": "partial",
   "theorems": [
    "C51_variant_access_partial",
    "C51_variant_get_rvalue",
    "C51_variant_visit",
    "C51_variant_write",
    "C51_holds_const_refuted"
   ],
   "note": "Proved for the listed alternatives; C51_holds_const_refuted: holds<const T>() compiles and answers false for every listed T."
  },
  {
   "property": "C52",
   "status": "proved",
   "theorems": [
    "C52_variant_comparisons",
    "C52_tag_order_total",
    "C52_variant_one_order"
   ],
   "note": ""
  },
  {
   "property": "C53",
   "status": "partial",
   "theorems": [
    "C53_emplace_own_throwing_partial",
    "C53_emplace_own_nothrow_refuted",
    "C53_emplace_own_rvalue_refuted",
    "C53_assign_own"
   ],
   "note": "Proved for assignment and for the emplace path whose construction may throw; refuted for noexcept construction and for rvalue arguments: the old value is destroyed (or moved from) before the argument is read."
  },
  {
   "property": "C54",
   "status": "proved",
   "theorems": [
    "C54_determine_index",
    "C54_validate_unique",
    "C54_max_sizeof",
    "C54_determine_type",
    "C54_ref_determine_index",
    "C54_ref_validate_unique"
   ],
   "note": "variant (four computations, up to 254 alternatives) and variant_ref (two computations, any number)."
  },
  {
   "property": "C55",
   "status": "proved",
   "theorems": [
    "C55_variant_ref_is_reference",
    "C55_variant_ref_call",
    "C55_bind",
    "C55_no_mutable_binding",
    "C55_stays_usable",
    "C55_never_dangles"
   ],
   "note": "A variant_ref whose object was destroyed is outside the contract (copying it dereferences the pointer)."
  },
  {
   "property": "C56",
   "status": "proved",
   "theorems": [
    "C56_optional_ref_is_reference",
    "C56_optional_ref_call",
    "C56_refers_to_object",
    "C56_refers_to_contents",
    "C56_empty_sources",
    "C56_empty_means",
    "C56_copies_rebind"
   ],
   "note": ""
  },
  {
   "property": "C57",
   "status": "proved",
   "theorems": [
    "C57_function_ref_is_callable",
    "C57_function_ref_call",
    "C57_calls_function",
    "C57_calls_functor",
    "C57_copies_rebind"
   ],
   "note": "For signatures that return values; for those that return references see C66. Includes the overload actually called; for const signatures see C58."
  },
  {
   "property": "C58",
   "status": "partial",
   "theorems": [
    "C58_const_signature_partial",
    "C58_mutable_functor_behaviour",
    "C58_const_signature_refuted",
    "C58_const_noexcept_refuted"
   ],
   "note": "Refuted by the code for functors given as non-const that have a non-const operator(): that one is called (C58_const_signature_refuted, C58_const_noexcept_refuted). Proved for all others (C58_const_signature_partial)."
  },
  {
   "property": "C59",
   "status": "proved",
   "theorems": [
    "C59_array_ref_is_view",
    "C59_array_ref_call",
    "C59_first",
    "C59_last",
    "C59_subrange",
    "C59_subrange_n",
    "C59_compose",
    "C59_shares_storage",
    "C59_at",
    "C59_front_back",
    "C59_whole_array"
   ],
   "note": "every history of array_ref calls inside the contract runs like the same history on parts of arrays (exact pointers); first/last/subrange give exactly those elements, as the same objects; composition, write-through, at/front/back. Ranges are arrays, empty ranges and other views; the conversion traits and deduction guides are not modelled."
  },
  {
   "property": "C60",
   "status": "proved",
   "theorems": [
    "C60_string_ref_is_view",
    "C60_string_ref_call",
    "C60_from_c_string",
    "C60_from_size",
    "C60_string_view_round_trip",
    "C60_remove_prefix",
    "C60_remove_suffix",
    "C60_substr",
    "C60_substr_n",
    "C60_at",
    "C60_front_back",
    "C60_size",
    "C60_compare",
    "C60_hash"
   ],
   "note": "every history of string_ref calls inside the contract runs like the same history on parts of character arrays (exact pointers); constructors, remove_prefix/suffix, substr, string_view round trip, at, comparison, hash. Formatting with operator<< is not modelled."
  },
  {
   "property": "C61",
   "status": "proved",
   "theorems": [
    "C61_array",
    "C61_add_sub",
    "C61_index",
    "C61_steps",
    "C61_order",
    "C61_default",
    "C61_loop",
    "C61_array_ref",
    "C61_string_ref",
    "C61_string",
    "C61_string_range",
    "C61_vector",
    "C61_vector_range"
   ],
   "note": "the random access laws for every iterator into a range; forward and reverse loops visit each element once in order, for vector, string, array, array_ref and string_ref in every reachable state."
  },
  {
   "property": "C62",
   "status": "proved",
   "theorems": [
    "C62_array_is_sequence",
    "C62_array_call",
    "C62_new",
    "C62_fill",
    "C62_swap",
    "C62_at",
    "C62_access",
    "C62_write",
    "C62_size",
    "C62_copy"
   ],
   "note": "every history of array calls inside the contract runs like the same history on lists of Size values, with the damage of a throwing element operation specified; plus one theorem per member. Swapping an array with itself is outside the contract of std::swap_ranges (Example C63_case)."
  },
  {
   "property": "C63",
   "status": "proved",
   "theorems": [
    "C63_array_comparisons",
    "C63_array_one_order",
    "C63_array_le_transitive"
   ],
   "note": "for any element operators; total order if the element type has one."
  },
  {
   "property": "C64",
   "status": "proved",
   "theorems": [
    "C64_tuple_is_sequence",
    "C64_tuple_call",
    "C64_new",
    "C64_write",
    "C64_swap",
    "C64_copy",
    "C64_copy_assign",
    "C64_comparisons",
    "C64_one_order",
    "C64_le_transitive"
   ],
   "note": "every history of tuple calls inside the contract runs like the same history on lists of values (components are initialised and assigned from the last to the first); comparisons for any component operators, total order if the component types have one. Packed alignment is C70, overload resolution of the constructors C68."
  },
  {
   "property": "C65",
   "status": "partial",
   "theorems": [
    "C65_literal_terminates_refuted"
   ],
   "note": "Refuted by the code: operator\"\"_s is noexcept, so a failing allocation terminates the program."
  },
  {
   "property": "C66",
   "status": "partial",
   "theorems": [
    "C66_reference_result_behaviour",
    "C66_reference_result_refuted"
   ],
   "note": "Refuted by the code: invoke_r decays its result, so a const reference returned by a function_ref refers to a dead temporary; C66_reference_result_behaviour holds for every function."
  },
  {
   "property": "C67",
   "status": "partial",
   "theorems": [
    "C67_lvalue_argument_refuted",
    "C67_const_rvalue_array_refuted",
    "C67_too_many_arguments_refuted",
    "C67_only_good_partial",
    "C67_rvalues_partial",
    "C67_elements_partial",
    "C67_copy_move_partial"
   ],
   "note": "Refuted by the code: the enable_if tests the conversion in the wrong direction, so variables of the element type are rejected (C67_lvalue_argument_refuted), const rvalue arrays cannot be copied (C67_const_rvalue_array_refuted) and too many arguments are a hard error (C67_too_many_arguments_refuted). The _partial theorems say what does hold."
  },
  {
   "property": "C68",
   "status": "partial",
   "theorems": [
    "C68_one_component_refuted",
    "C68_default_refuted",
    "C68_copy_partial",
    "C68_copy_const_partial",
    "C68_components",
    "C68_constructible_partial"
   ],
   "note": "Refuted by the code for tuples of one component (the component constructor is chosen for variables and const rvalues: C68_one_component_refuted) and for default construction of non-empty tuples (C68_default_refuted); proved for all other tuples and argument lists."
  },
  {
   "property": "C69",
   "status": "partial",
   "theorems": [
    "C69_class_members",
    "C69_optional",
    "C69_variant",
    "C69_variant_compiles",
    "C69_array",
    "C69_array_empty",
    "C69_bitset",
    "C69_array_ref",
    "C69_string_ref",
    "C69_optional_ref",
    "C69_vector",
    "C69_string",
    "C69_function_ref",
    "C69_variant_ref",
    "C69_tuple_refuted",
    "C69_tuple_partial",
    "C69_tuple_components"
   ],
   "note": "sizes, alignments and offsets of every type for all element types (Itanium ABI layout algorithm as model). The claim for tuple is false (C69_tuple_refuted): a tuple whose last component is a tuple has an extra byte, because its empty base class and that of the component may not share an address. C69_tuple_partial proves it for the other tuples, C69_tuple_components describes all."
  },
  {
   "property": "C70",
   "status": "partial",
   "theorems": [
    "C70_optional_refuted",
    "C70_variant_refuted",
    "C70_tuple_refuted",
    "C70_array_of_optionals_refuted",
    "C70_vector_overaligned_refuted",
    "C70_bytes_partial",
    "C70_members_partial",
    "C70_array_partial",
    "C70_vector_partial"
   ],
   "note": "false for optional, variant and tuple of any type with alignment above one (#pragma pack(1) gives the container alignment one), even inside arrays, and for over-aligned elements of vector (calloc); proved for all classes outside of the pragma, arrays, and vectors of ordinarily aligned types."
  },
  {
   "property": "C71",
   "status": "partial",
   "theorems": [
    "C71_standard_layout",
    "C71_tuple_refuted",
    "C71_tuple_partial"
   ],
   "note": "false for every tuple of two or more components, which are therefore rejected as elements of all containers (C71_tuple_refuted); exact for tuples of one component; proved for all other types."
  },
  {
   "property": "C72",
   "status": "proved",
   "theorems": [
    "C72_string_dealloc",
    "C72_string_released_by_owner",
    "C72_string_other_module_faults",
    "C72_vector_dealloc",
    "C72_vector_released_by_owner",
    "C72_vector_other_module_faults"
   ],
   "note": "vector and string: the deallocation function of every reachable object is that of the module that allocated its block, and no call releases a block with another one; the modules are an arbitrary function of the allocations."
  },
  {
   "property": "C73",
   "status": "partial",
   "theorems": [
    "C73_visit_behaviour",
    "C73_visit_partial",
    "C73_variant_visit_partial",
    "C73_variant_ref_visit_partial",
    "C73_visitor_order",
    "C73_lvalue_visitors_refuted",
    "C73_result_type_refuted"
   ],
   "note": "false for several visitors given as variables (C73_lvalue_visitors_refuted) and for visitors with different result types, whose results are silently converted to that of the first alternative (C73_result_type_refuted); C73_visit_behaviour characterises all calls, the _partial theorems prove the claim for one visitor of any category or several temporaries, with one result type. Call operators are not ref-qualified."
  },
  {
   "property": "C74",
   "status": "partial",
   "theorems": [
    "C74_constructors",
    "C74_constructors_others",
    "C74_emplace_behaviour",
    "C74_emplace_partial",
    "C74_emplace_refuted",
    "C74_emplace_narrowing_refuted",
    "C74_emplace_index"
   ],
   "note": "false for constructions that cannot throw: the dispatch table instantiates the construction of every alternative, so e.g. variant<int, double>::emplace<double>(x) does not compile (C74_emplace_refuted), and for narrowing arguments (C74_emplace_narrowing_refuted). Proved for the constructors and the throwing path; C74_emplace_behaviour is exact."
  },
  {
   "property": "C75",
   "status": "partial",
   "theorems": [
    "C75_construct_behaviour",
    "C75_const_correct",
    "C75_view_partial",
    "C75_accepted",
    "C75_derived_refuted",
    "C75_pointer_count_partial",
    "C75_literal_zero_refuted",
    "C75_pointer_count",
    "C75_deduced_partial",
    "C75_deduced_refuted"
   ],
   "note": "false for ranges of derived classes, which are accepted although the elements of the view are elsewhere (C75_derived_refuted), for a literal 0 as count (C75_literal_zero_refuted), and deduction fails for variables that view const elements (C75_deduced_refuted). Proved for ranges of the very type; C75_construct_behaviour is exact, C75_const_correct and C75_pointer_count hold in general."
  },
  {
   "property": "C76",
   "status": "partial",
   "theorems": [
    "C76_assignment_partial",
    "C76_rejected",
    "C76_braces_behaviour",
    "C76_braces_partial",
    "C76_braces_refuted",
    "C76_braces_class_refuted"
   ],
   "note": "false for {}: opt = {} stores a value-initialised scalar (C76_braces_refuted) and is ambiguous for classes initialisable from {} (C76_braces_class_refuted). Proved for all other right-hand sides; C76_braces_behaviour is exact."
  },
  {
   "property": "C77",
   "status": "partial",
   "theorems": [
    "C77_stored_behaviour",
    "C77_stored_partial",
    "C77_stored_refuted",
    "C77_copies_refuted"
   ],
   "note": "false for types with a constructor for an initializer_list whose elements can be made from the type itself, e.g. std::vector<std::any>: every place that uses braces wraps the value (C77_stored_refuted), deeper with every copy (C77_copies_refuted). Proved for all other types; C77_stored_behaviour is exact."
  },
  {
   "property": "C78",
   "status": "partial",
   "theorems": [
    "C78_emplaced_partial",
    "C78_emplaced_refuted",
    "C78_narrowing_refuted"
   ],
   "note": "false if a constructor for an initializer_list is viable (emplace_back(3, 7) of a vector<vector<int>> adds {3, 7}, C78_emplaced_refuted) or a conversion is narrowing (C78_narrowing_refuted); proved otherwise, except for aggregates, where T(args...) does not exist in C++17."
  },
  {
   "property": "C79",
   "status": "proved",
   "theorems": [
    "C79_string_max_size",
    "C79_string_bounded",
    "C79_string_ref_max_size",
    "C79_vector_max_size",
    "C79_vector_bounded"
   ],
   "note": "exact characterisation for vector, string and string_ref; bound for all reachable vectors and strings."
  },
  {
   "property": "C80",
   "status": "partial",
   "theorems": [
    "C80_behaviour",
    "C80_const_correct",
    "C80_object_partial",
    "C80_star_by_value_refuted",
    "C80_self_reference_refuted",
    "C80_optional_partial",
    "C80_rvalue_refuted",
    "C80_copy",
    "C80_temporary_refuted"
   ],
   "note": "false for types with operator* by value, whose mere use as argument is a hard error (C80_star_by_value_refuted), for rvalue optionals: an optional_ref<T> returned by a function does not convert to optional_ref<const T> (C80_rvalue_refuted; a TODO in the code), for types whose operator* yields their own type (C80_self_reference_refuted), and optional_ref<const T> binds to converted temporaries (C80_temporary_refuted). C80_behaviour says what each constructor is selected for; C80_const_correct and C80_copy hold in general."
  },
  {
   "property": "C81",
   "status": "partial",
   "theorems": [
    "C81_variable_partial",
    "C81_constant_partial",
    "C81_optional_ref_partial",
    "C81_pointer_refuted",
    "C81_object",
    "C81_rvalue"
   ],
   "note": "false for constant pointers to mutable objects, which deduce a reference to const (C81_pointer_refuted); proved for variables, constants of types that pass constness on, optional_refs, other objects, and temporaries."
  },
  {
   "property": "C82",
   "status": "partial",
   "theorems": [
    "C82_constructible",
    "C82_target",
    "C82_compiles_partial",
    "C82_reference_result_refuted",
    "C82_copy_result_refuted",
    "C82_const_result_refuted",
    "C82_const_noexcept_refuted",
    "C82_other_function_ref_refuted",
    "C82_assignment",
    "C82_deduced"
   ],
   "note": "the constraint is exact (C82_constructible, C82_target, C82_assignment, C82_deduced). Accepted but not compiling: signatures that return a mutable reference (C82_reference_result_refuted), callables returning a reference to something not copyable (C82_copy_result_refuted), const signatures with callables whose other overload returns something else (C82_const_result_refuted); accepted but terminating: such callables whose other overload throws (C82_const_noexcept_refuted). function_refs of another signature are referred to themselves (C82_other_function_ref_refuted). C82_compiles_partial proves the rest."
  },
  {
   "property": "C83",
   "status": "partial",
   "theorems": [
    "C83_behaviour",
    "C83_terminates",
    "C83_answers_partial",
    "C83_exception_refuted"
   ],
   "note": "false: all comparisons are noexcept, so an exception of an element operator terminates the program (C83_exception_refuted). C83_behaviour and C83_terminates say exactly when; C83_answers_partial: they answer if no operator throws."
  },
  {
   "property": "C84",
   "status": "proved",
   "theorems": [
    "C84_sequence_calls",
    "C84_single_call",
    "C84_count",
    "C84_answers"
   ],
   "note": "C83_behaviour gives the exact sequence of calls; C84_answers relates the results to those of C25."
  },
  {
   "property": "C85",
   "status": "partial",
   "theorems": [
    "C85_compiles_partial",
    "C85_missing",
    "C85_variant",
    "C85_variant_refuted",
    "C85_value_refuted"
   ],
   "note": "false for variants, whose operators must return exactly bool (C85_variant_refuted, exact in C85_variant), and for optionals compared with a value if the result type also converts from bool (C85_value_refuted). Proved for all others; C85_missing is the other direction."
  },
  {
   "property": "C86",
   "status": "partial",
   "theorems": [
    "C86_get",
    "C86_get_bits",
    "C86_tuple_size",
    "C86_tuple_element_partial",
    "C86_tuple_element_refuted",
    "C86_compiles",
    "C86_types",
    "C86_names_partial",
    "C86_bits_behaviour",
    "C86_bits_refuted"
   ],
   "note": "false for bitsets: get returns the bit by value, so names bound by reference are copies (C86_bits_refuted; a TODO in the code; exact in C86_bits_behaviour), and tuple_element of arrays and bitsets accepts indices that are too large (C86_tuple_element_refuted). The rest is proved: C86_get, C86_compiles and C86_types for all three, C86_names_partial for arrays and tuples."
  },
  {
   "property": "C87",
   "status": "partial",
   "theorems": [
    "C87_string",
    "C87_string_failed",
    "C87_string_ref",
    "C87_string_ref_failed",
    "C87_bitset_behaviour",
    "C87_bitset_partial",
    "C87_bitset_refuted",
    "C87_bitset_empty_refuted",
    "C87_bitset_failed",
    "C87_round_trip_refuted"
   ],
   "note": "proved for strings and string_refs. False for bitsets with a field width: they are inserted digit by digit, so the width applies to the first digit only (C87_bitset_refuted), the digits are then not read back (C87_round_trip_refuted), and a bitset of no bits neither pads nor resets the width (C87_bitset_empty_refuted). C87_bitset_behaviour is exact, C87_bitset_partial is the claim without a width (read back: C07)."
  },
  {
   "property": "C88",
   "status": "partial",
   "theorems": [
    "C88_compare_partial",
    "C88_compare_refuted",
    "C88_compare_behaviour"
   ],
   "note": "false for string_ref against std::string_view and std::string: no operator is viable or two are equally good (C88_compare_refuted). C88_compare_partial proves all other pairs; C88_compare_behaviour is exact for all operands, with objects of classes of the program."
  },
  {
   "property": "C89",
   "status": "partial",
   "theorems": [
    "C89_members",
    "C89_concat",
    "C89_ref_param_partial",
    "C89_ref_param_refuted",
    "C89_members_behaviour",
    "C89_params_behaviour",
    "C89_concat_behaviour"
   ],
   "note": "C89_members and C89_concat prove it for string and for string_ref(a). False for parameters of type string_ref, which take neither ptl::string nor std::string: that needs two user-defined conversions (C89_ref_param_refuted; C89_ref_param_partial for the others). C89_members_behaviour, C89_params_behaviour and C89_concat_behaviour are exact for all arguments."
  },
  {
   "property": "C90",
   "status": "partial",
   "theorems": [
    "C90_numbers_partial",
    "C90_null_refuted"
   ],
   "note": "proved for integers (C90_numbers_partial; as characters: C89_members_behaviour). False for the literals 0 and nullptr and for null pointers: they are accepted and the text behind them is read, which is undefined (C90_null_refuted)."
  },
  {
   "property": "C91",
   "status": "partial",
   "theorems": [
    "C91_count",
    "C91_range_partial",
    "C91_category_refuted",
    "C91_explicit_refuted",
    "C91_behaviour",
    "C91_delegates"
   ],
   "note": "false for iterators whose category is derived from std::input_iterator_tag only, as those of iterator adaptors: rejected, or taken for a count and a value (C91_category_refuted), and for input iterators over something the element type is explicitly constructed from, which all other iterators accept (C91_explicit_refuted). C91_count and C91_range_partial prove the rest, C91_behaviour is exact for all arguments, C91_delegates is about the internal calls."
  },
  {
   "property": "C92",
   "status": "partial",
   "theorems": [
    "C92_count",
    "C92_number_refuted",
    "C92_negative_refuted",
    "C92_braces_refuted"
   ],
   "note": "false: vector(size_type) is not explicit, so a number is taken for a vector of that many elements wherever a vector is expected (C92_number_refuted), a negative one for a size that cannot exist (C92_negative_refuted), and vector<vector<T>>{n} has one element (C92_braces_refuted). C92_count is the part that holds."
  },
  {
   "property": "C93",
   "status": "partial",
   "theorems": [
    "C93_call",
    "C93_arguments",
    "C93_rejected",
    "C93_noexcept_refuted"
   ],
   "note": "proved if moves do not throw: C93_call for all calls, in order; C93_arguments for arguments that are different objects; C93_rejected: no other call compiles. False otherwise: parameters by value are moved once more inside the noexcept operator(), so a move that throws ends the program though the callable cannot throw (C93_noexcept_refuted)."
  },
  {
   "property": "C94",
   "status": "partial",
   "theorems": [
    "C94_noexcept",
    "C94_nothrow_partial",
    "C94_compiles_partial",
    "C94_without_tuples",
    "C94_members",
    "C94_default_refuted",
    "C94_swap_refuted",
    "C94_move_refuted"
   ],
   "note": "false for tuples: default construction is declared but does not compile, so vector<tuple<T>>::resize does not (C94_default_refuted); tuples with const components are swappable by their traits and so accepted in variants, but swapping them, and copying or inserting into vectors of such variants, does not compile (C94_swap_refuted); tuples with const arrays cannot be moved (C94_move_refuted). C94_noexcept is proved for all types, C94_nothrow_partial says what is declared noexcept, C94_compiles_partial and C94_members tell exactly what does not compile, C94_without_tuples is the claim for types without tuples (all but constructing an array from a const rvalue)."
  },
  {
   "property": "C95",
   "status": "partial",
   "theorems": [
    "C95_variant_partial",
    "C95_optional_partial",
    "C95_vector_partial",
    "C95_types_partial",
    "C95_refuted"
   ],
   "note": "false for variant_ref (copies are not noexcept), function_ref in vectors, arrays and tuples (no default constructor) and tuples of several components (no standard layout): C95_refuted. C95_variant_partial, C95_optional_partial and C95_vector_partial are exact for all library types; C95_types_partial tells exactly which types satisfy all static_asserts."
  },
  {
   "property": "C96",
   "status": "partial",
   "theorems": [
    "C96_array",
    "C96_tuple",
    "C96_optional_partial",
    "C96_optional_refuted",
    "C96_vector",
    "C96_vector_braces",
    "C96_vector_mixed",
    "C96_vector_braces_refuted"
   ],
   "note": "false for optional: string literals, arrays, functions and const rvalues deduce an element type that optional rejects (C96_optional_refuted; it has no deduction guide), exact otherwise (C96_optional_partial); for vector{first, last} the iterators are the elements (C96_vector_braces_refuted). Proved for array, tuple and vector as they are. Whether the deduced type can be initialised with the arguments is C67, C68 and C92."
  },
  {
   "property": "C97",
   "status": "partial",
   "theorems": [
    "C97_views",
    "C97_optional_ref",
    "C97_array_partial",
    "C97_bitset_partial",
    "C97_bitset_empty",
    "C97_bit_reference",
    "C97_refuted",
    "C97_tuple_empty",
    "C97_nested"
   ],
   "note": "false: optional, variant, tuple and variant_ref are no literal types, so none of their constexpr functions can be used, nor function_ref be called (C97_refuted); fill, swap and comparisons of arrays and about half of bitset use algorithms that are constexpr since C++20 only (C97_array_partial, C97_bitset_partial and C97_bit_reference are exact). Proved for array_ref, string_ref and optional_ref (C97_views, C97_optional_ref)."
  },
  {
   "property": "C98",
   "status": "partial",
   "theorems": [
    "C98_operators_partial",
    "C98_operators_refuted",
    "C98_reverse_partial",
    "C98_reverse_refuted",
    "C98_numbers",
    "C98_to_const",
    "C98_not_to_mutable",
    "C98_made_by_container",
    "C98_foreign",
    "C98_number_minus",
    "C98_pointers"
   ],
   "note": "false of vector and string: their private conversion from const_iterator to iterator takes part in overload resolution, so that every mixed comparison and difference is ambiguous (C98_operators_refuted, C98_reverse_refuted). C98_operators_partial and C98_reverse_partial are for array, array_ref and string_ref and for operands of the same type; conversions, numbers and foreign operands are proved for all."
  },
  {
   "property": "C99",
   "status": "partial",
   "theorems": [
    "C99_optional_partial",
    "C99_empty_partial",
    "C99_assign_held_partial",
    "C99_swap_partial",
    "C99_elements_partial",
    "C99_algorithms",
    "C99_exact",
    "C99_refuted_compile",
    "C99_refuted_elsewhere"
   ],
   "note": "false for element types that declare operators new: new(p) Type{...} without :: uses those, so that it does not compile (C99_refuted_compile) or constructs elsewhere (C99_refuted_elsewhere). The partial theorems hold if there is none or it returns its argument, and for optional exactly then (C99_exact); functions of vector that use the algorithms of <memory> are always right (C99_algorithms), and so is assignment to an optional that has a value if the operator new can be called (C99_assign_held_partial)."
  },
  {
   "property": "C100",
   "status": "partial",
   "theorems": [
    "C100",
    "C100_finished",
    "C100_elements",
    "C100_bits_partial",
    "C100_bits_refuted",
    "C100_destroyed_refuted",
    "C100_appended_refuted"
   ],
   "note": "false for bits of one bitset: set and flip read and write a whole byte, so that changing different bits in the same byte is a data race and may lose one of the changes (C100_bits_refuted); C100_bits_partial has different bytes. The rest is C100, C100_finished (which also says that no memory is lost and none besides is touched) and C100_elements. C100_destroyed_refuted and C100_appended_refuted show that the discipline is needed: reading a string while another thread destroys it and a vector while another appends to it are races."
  },
  {
   "property": "C101",
   "status": "partial",
   "theorems": [
    "C101_partial",
    "C101_exact_partial",
    "C101_containers",
    "C101_reach",
    "C101_refuted",
    "C101_views_refuted"
   ],
   "note": "false: optional and variant move by Type{std::move(x)} while the static_asserts are about Type(std::move(x)), so that a type whose initializer_list constructor takes itself, like std::vector<std::any>, may throw there, even in the copy assignment of variant, which is not noexcept (C101_refuted); the views run std::data, std::size, the conversion to bool and operator* of user types (C101_views_refuted). C101_exact_partial says exactly when; vector, array and tuple are fine (C101_containers)."
  },
  {
   "property": "C102",
   "status": "partial",
   "theorems": [
    "C102_classes",
    "C102_partial",
    "C102_plain",
    "C102_tuple_refuted",
    "C102_aligned_refuted"
   ],
   "note": "false: a tuple whose last component is, or starts with, a tuple has one byte more under the Itanium ABI, whatever its components (C102_tuple_refuted); optionals, variants and tuples of types declared with alignas are aligned under the Microsoft ABI and not under the Itanium ABI (C102_aligned_refuted). C102_partial shows that these are the only types that differ; C102_plain is the consequence for types without tuple and alignas."
  },
  {
   "property": "C103",
   "status": "partial",
   "theorems": [
    "C103_partial",
    "C103_alone_refuted",
    "C103_enough",
    "C103_again",
    "C103_packing",
    "C103_order",
    "C103_order_refuted",
    "C103_program_partial",
    "C103_variant_refuted",
    "C103_blame_partial"
   ],
   "note": "false: only array_ref.hpp is guaranteed to compile alone (C103_alone_refuted), whether two headers compile can depend on their order (C103_order_refuted), and two translation units with variant.hpp violate the one definition rule because members of the class name a function template declared static (C103_variant_refuted); C103_blame_partial shows that this is the only such definition. C103_partial says exactly which sequences of directives compile, C103_enough that all do with the headers named there in front, C103_program_partial exactly which translation units make a program; that including again changes nothing, that packing is restored and that definitions do not depend on the order are proved in full."
  },
  {
   "property": "C104",
   "status": "partial",
   "theorems": [
    "C104_call_partial",
    "C104_inserting_partial",
    "C104_resizing_refuted",
    "C104_assigning_refuted"
   ],
   "note": "the costs of single calls (C104_call_partial) and the linear bound for insertions (C104_inserting_partial) are proved in full; the last sentence is false: growing by resize always reallocates, so that n times resize(size() + 1) costs n allocations and a quadratic number of relocations whatever was reserved (C104_resizing_refuted), and assign allocates, and can lose reserved capacity, whenever old and new elements together do not fit (C104_assigning_refuted). Moves within a buffer are not counted."
  },
  {
   "property": "C105",
   "status": "partial",
   "theorems": [
    "C105_call_partial",
    "C105_input_refuted",
    "C105_assigning_refuted"
   ],
   "note": "the bounds for single calls are proved in full (C105_call_partial), with a block for every footprint (24) characters for ranges of unknown length. The last two sentences are false: a string that grows one by one gains one footprint at a time, so that a range of unknown length of n characters costs at least n / 24 - 1 allocations (C105_input_refuted), and assign allocates whenever old and new text together do not fit, though the new one would (C105_assigning_refuted). Within capacity the operations that C42 lists do not allocate."
  },
  {
   "property": "C106",
   "status": "partial",
   "theorems": [
    "C106_call_partial",
    "C106_exception_partial",
    "C106_resize_refuted"
   ],
   "note": "false for resize: asking for more elements moves all of them to a new buffer even if capacity() suffices, so that every pointer dangles (C106_resize_refuted). C106_call_partial has all other calls, and resize to at most size() elements; C106_exception_partial has calls that throw."
  },
  {
   "property": "C107",
   "status": "partial",
   "theorems": [
    "C107_call_partial",
    "C107_exception_partial",
    "C107_assign_refuted",
    "C107_input_refuted"
   ],
   "note": "false for assignments: copy assignment, assign and replace from forward iterators or a string_view want room for the new characters beside the old ones and otherwise move to another buffer although the result would fit (C107_assign_refuted), and assign from input iterators always takes over the buffer of a temporary (C107_input_refuted). C107_call_partial has all other calls, and these where there is room for both; C107_exception_partial has calls that throw."
  },
  {
   "property": "C108",
   "status": "partial",
   "theorems": [
    "C108_order_partial",
    "C108_views",
    "C108_cycles_partial",
    "C108_layout",
    "C108_heap_refuted",
    "C108_vector_refuted"
   ],
   "note": "false for vector and for array of size 0: their static_asserts and sizeof want a complete element type, so a struct that holds itself on the heap is rejected in every program (C108_heap_refuted, C108_vector_refuted) although it has a layout. C108_order_partial and C108_cycles_partial say exactly what is accepted; C108_views and C108_layout are the parts that hold as stated."
  },
  {
   "property": "C109",
   "status": "partial",
   "theorems": [
    "C109_lenient_partial",
    "C109_first_partial",
    "C109_others_refuted"
   ],
   "note": "false by the rule of the standard: no code begins the lifetime of next, so every history that constructs another alternative than the first is undefined (C109_others_refuted). C109_first_partial says that histories that only construct first alternatives are defined, C109_lenient_partial that with a compiler that lets calls on a next that is not alive go through every history within the contract ends as VariantModel.v says."
  },
  {
   "property": "C110",
   "status": "partial",
   "theorems": [
    "C110_const_safe",
    "C110_parts",
    "C110_all_parts",
    "C110_not_moved",
    "C110_rvalues",
    "C110_agree",
    "C110_callable",
    "C110_shallow_partial",
    "C110_iterators_refuted"
   ],
   "note": "false for the iterators of a const array_ref: begin(), end(), rbegin() and rend() yield const elements while operator[], at, front, back and data of the same object yield mutable ones (C110_iterators_refuted). C110_shallow_partial is the claim for all other accessors of views; the other parts are proved as stated."
  },
  {
   "property": "C111",
   "status": "partial",
   "theorems": [
    "C111_history_partial",
    "C111_resize_refuted"
   ],
   "note": "false for resize to more elements, which moves the elements even if the capacity is sufficient: a view read after it is a use of freed memory (C111_resize_refuted). C111_history_partial is the claim for all other programs, up to programs aborted by shrink_to_fit when its allocation fails (C27)."
  },
  {
   "property": "C112",
   "status": "partial",
   "theorems": [
    "C112_lenient_partial",
    "C112_first_partial",
    "C112_others_refuted"
   ],
   "note": "false by the rules of the standard: set<I> calls a member function of next, whose lifetime nothing has begun, so every history that binds an object to an alternative other than the first is undefined (C112_others_refuted). C112_first_partial is the claim for all other histories, C112_lenient_partial the claim for compilers that take a storage that is written to as alive."
  },
  {
   "property": "C113",
   "status": "partial",
   "theorems": [
    "C113_history_partial",
    "C113_assign_refuted"
   ],
   "note": "false for assignments of a text for which there is no room beside the old one, and of input ranges: the text moves to a new block even if it would fit, and a view read after it is a use of freed memory (C113_assign_refuted; replace of a forward range has the same exception). C113_history_partial is the claim for all other programs."
  }
 ]
}