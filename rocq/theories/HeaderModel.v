(** Model of translation units that include headers of the library, and of programs of several of them.

    A header is the list of what it has at namespace scope, in the order of its lines: directives, the
    first use of each name of the standard library, and definitions. Names inside of templates are
    looked up where the template is defined, since all of them are qualified or not dependent.

    Simplified: a name that is not declared is an error (the implementation may declare more than the
    standard says); declarations without definition are left out; what the program has besides
    of include directives does not matter. *)
From stdpp Require Import prelude strings.

(** ** The standard library, C++17: headers, and which of the names that are used here their synopses
    declare, or use as a type of namespace std; [swap] is the template of <utility>, [move] the one with
    one argument *)
Inductive std_header :=
  | h_algorithm | h_climits | h_cstddef | h_cstdlib | h_cstring | h_exception | h_functional | h_ios | h_iosfwd
  | h_istream | h_iterator | h_limits | h_memory | h_new | h_numeric | h_optional | h_ostream | h_stdexcept
  | h_string_view | h_type_traits | h_utility | h_variant.
#[global] Instance std_header_eq : EqDecision std_header.
Proof. solve_decision. Defined.
Definition declares (s : std_header) : list string :=
  match s with
  | h_algorithm => ["fill"; "swap_ranges"; "equal"; "lexicographical_compare"; "min"; "max"; "all_of"; "any_of"; "transform";
      "fill_n"; "copy_n"; "copy_backward"; "copy"; "rotate"; "initializer_list";
      "move(InputIterator, InputIterator, OutputIterator)"]
  | h_climits => ["CHAR_BIT"]
  | h_cstddef => ["size_t"; "ptrdiff_t"]
  | h_cstdlib => ["size_t"; "calloc"; "free"]
  | h_cstring => ["size_t"; "memcpy"]
  | h_exception => ["terminate"]
  | h_functional => ["invoke"; "hash"; "equal_to"; "not_equal_to"; "less"; "less_equal"; "greater"; "greater_equal"]
  | h_ios => ["ios"]
  | h_iosfwd => ["ios"; "istream"; "ostream"; "char_traits"]
  | h_istream => ["istream"]
  | h_iterator => ["random_access_iterator_tag"; "input_iterator_tag"; "forward_iterator_tag"; "reverse_iterator";
      "iterator_traits"; "back_inserter"; "distance"; "make_move_iterator"; "data"; "size"; "ptrdiff_t";
      "size_t"; "initializer_list"]
  | h_limits => ["numeric_limits"]
  | h_memory => ["addressof"; "destroy"; "destroy_at"; "destroy_n"; "uninitialized_copy"; "uninitialized_fill_n";
      "uninitialized_move"; "uninitialized_move_n"; "uninitialized_value_construct_n"; "hash"; "size_t"]
  | h_new => ["bad_alloc"; "placement new"; "size_t"]
  | h_numeric => ["accumulate"]
  | h_optional => ["nullopt_t"; "bad_optional_access"; "hash"]
  | h_ostream => ["ostream"]
  | h_stdexcept => ["out_of_range"; "length_error"]
  | h_string_view => ["string_view"; "char_traits"; "reverse_iterator"; "hash"; "size_t"; "ptrdiff_t"]
  | h_type_traits => ["is_const_v"; "is_standard_layout_v"; "is_default_constructible_v"; "is_copy_constructible_v";
      "is_nothrow_move_constructible_v"; "is_copy_assignable_v"; "is_nothrow_move_assignable_v";
      "is_nothrow_destructible_v"; "is_nothrow_swappable_v"; "conditional_t"; "enable_if_t";
      "is_convertible_v"; "integral_constant"; "is_same_v"; "is_pointer_v"; "remove_cv_t";
      "remove_reference_t"; "is_object_v"; "is_function_v"; "is_invocable_r_v"; "is_nothrow_invocable_r_v";
      "is_void_v"; "is_member_pointer_v"; "is_lvalue_reference_v"; "add_pointer_t"; "is_base_of_v";
      "remove_const_t"; "decay_t"; "is_nothrow_constructible_v"; "is_reference_v"; "size_t"]
  | h_utility => ["move"; "forward"; "swap"; "exchange"; "declval"; "index_sequence"; "index_sequence_for"; "in_place_t";
      "in_place_type_t"; "in_place_type"; "in_place_index_t"; "in_place_index"; "tuple_size"; "tuple_element";
      "size_t"; "initializer_list"]
  | h_variant => ["bad_variant_access"; "hash"; "size_t"]
  end.

(** ** Headers of the library *)
(** class: classes and class templates; template: function and variable templates; static: function
    templates with internal linkage; inline: inline functions and variables; plain: other functions and variables *)
Inductive kind := Class | Alias | Guide | Template | Static | Inline | Plain.
Inductive item :=
  | Once                                                              (* #pragma once *)
  | Inc (s : std_header)                                              (* #include <s> *)
  | Push (n : N) | Pop                                                (* #pragma pack(push, n), #pragma pack(pop) *)
  | Use (line : nat) (name : string)
  | Def (line : nat) (name : string) (k : kind) (names : list string).  (* names: definitions of the header that it names *)
(** array.hpp *)
Definition array_hpp : list item :=
 [Once; Inc h_iterator; Inc h_algorithm; Inc h_stdexcept; Inc h_type_traits; Use 15 "size_t";
   Def 16 "internal_array::storage" Class []; Def 19 "internal_array::storage<Type, 0>" Class [];
   Def 22 "internal_array::storage_t" Alias ["internal_array::storage"; "internal_array::storage<Type, 0>"];
   Def 29 "array" Class ["internal_array::storage_t"]; Use 30 "is_const_v"; Use 31 "is_standard_layout_v";
   Use 32 "is_default_constructible_v"; Use 33 "is_copy_constructible_v"; Use 34 "is_nothrow_move_constructible_v";
   Use 35 "is_copy_assignable_v"; Use 36 "is_nothrow_move_assignable_v"; Use 37 "is_nothrow_destructible_v";
   Use 38 "is_nothrow_swappable_v"; Use 61 "move"; Use 74 "random_access_iterator_tag"; Use 76 "ptrdiff_t";
   Use 77 "conditional_t"; Use 174 "reverse_iterator"; Use 177 "enable_if_t"; Use 177 "is_convertible_v";
   Use 179 "forward"; Use 211 "out_of_range"; Use 221 "fill"; Use 249 "swap_ranges"; Use 256 "equal";
   Use 263 "lexicographical_compare"; Def 276 "array(Type, Types...)" Guide ["array"]; Use 281 "integral_constant";
   Use 281 "tuple_size"; Def 281 "std::tuple_size<array>" Class ["array"]; Use 284 "tuple_element";
   Def 284 "std::tuple_element<Index, array>" Class ["array"]].
(** array_ref.hpp *)
Definition array_ref_hpp : list item :=
 [Once; Inc h_utility; Inc h_iterator; Inc h_stdexcept; Inc h_type_traits; Def 24 "array_ref" Class [];
   Use 42 "data"; Use 44 "declval"; Use 45 "is_same_v"; Use 47 "is_pointer_v"; Use 66 "random_access_iterator_tag";
   Use 67 "remove_cv_t"; Use 68 "ptrdiff_t"; Use 69 "conditional_t"; Use 159 "size_t"; Use 167 "reverse_iterator";
   Use 190 "enable_if_t"; Use 192 "size"; Use 210 "out_of_range";
   Def 250 "array_ref(Type (&)[Size])" Guide ["array_ref"];
   Def 253 "array_ref(const ContiguousRange &)" Guide ["array_ref"];
   Def 256 "array_ref(ContiguousRange &)" Guide ["array_ref"]].
(** bitset.hpp *)
Definition bitset_hpp : list item :=
 [Once; Inc h_climits; Inc h_istream; Inc h_ostream; Inc h_numeric; Inc h_algorithm; Inc h_type_traits;
   Use 17 "CHAR_BIT"; Use 20 "size_t"; Def 22 "internal_bitset::determine_trailing_mask" Template [];
   Def 30 "internal_bitset::trailing_bits" Template ["internal_bitset::determine_trailing_mask"];
   Def 33 "internal_bitset::storage" Class []; Def 36 "internal_bitset::storage<0>" Class [];
   Def 39 "internal_bitset::storage_t" Alias ["internal_bitset::storage"; "internal_bitset::storage<0>"];
   Def 49 "enable_bitset_operator_bool" Template [];
   Def 55 "bitset" Class ["internal_bitset::trailing_bits"; "internal_bitset::storage_t"; "enable_bitset_operator_bool"];
   Use 64 "hash"; Use 129 "min"; Use 144 "out_of_range"; Use 161 "all_of"; Use 167 "any_of"; Use 175 "accumulate";
   Use 194 "transform"; Use 279 "fill_n"; Use 328 "enable_if_t"; Use 334 "ostream"; Use 339 "istream"; Use 352 "ios";
   Use 362 "swap_ranges"; Use 372 "equal"; Def 382 "std::hash<bitset>" Class ["bitset"]; Use 414 "integral_constant";
   Use 414 "tuple_size"; Def 414 "std::tuple_size<bitset>" Class ["bitset"]; Use 417 "tuple_element";
   Def 417 "std::tuple_element<Index, bitset>" Class ["bitset"]].
(** function_ref.hpp *)
Definition function_ref_hpp : list item :=
 [Once; Inc h_utility; Inc h_type_traits; Use 14 "remove_cv_t"; Use 14 "remove_reference_t";
   Def 14 "internal_function_ref::remove_cvref_t" Alias []; Def 16 "internal_function_ref::storage_t" Class [];
   Use 26 "enable_if_t"; Use 26 "is_object_v"; Use 33 "is_function_v"; Use 39 "is_const_v";
   Use 45 "is_invocable_r_v"; Use 47 "is_nothrow_invocable_r_v";
   Def 47 "internal_function_ref::invoke_r" Template []; Use 48 "is_void_v"; Use 48 "invoke"; Use 48 "forward";
   Def 54 "internal_function_ref::invoker" Class ["internal_function_ref::storage_t"; "internal_function_ref::invoke_r"];
   Use 61 "conditional_t";
   Def 81 "internal_function_ref::traits<Impl, Result(Args...)>" Class ["internal_function_ref::invoker"];
   Def 84 "internal_function_ref::traits<Impl, Result(Args...) const>" Class ["internal_function_ref::invoker"];
   Def 87 "internal_function_ref::traits<Impl, Result(Args...) noexcept>" Class ["internal_function_ref::invoker"];
   Def 90 "internal_function_ref::traits<Impl, Result(Args...) const noexcept>" Class ["internal_function_ref::invoker"];
   Def 100 "function_ref<Signature>" Class ["internal_function_ref::remove_cvref_t"; "internal_function_ref::storage_t"; "internal_function_ref::traits<Impl, Result(Args...)>"; "internal_function_ref::traits<Impl, Result(Args...) const>"; "internal_function_ref::traits<Impl, Result(Args...) noexcept>"; "internal_function_ref::traits<Impl, Result(Args...) const noexcept>"];
   Use 113 "is_same_v"; Use 113 "is_member_pointer_v"; Use 115 "addressof"; Use 122 "is_pointer_v";
   Def 130 "function_ref(F *)" Guide ["function_ref<Signature>"]].
(** optional.hpp *)
Definition optional_hpp : list item :=
 [Once; Inc h_utility; Inc h_optional; Inc h_type_traits; Push 1; Def 17 "optional" Class [];
   Use 18 "is_standard_layout_v"; Use 19 "is_copy_constructible_v"; Use 20 "is_nothrow_move_constructible_v";
   Use 21 "is_copy_assignable_v"; Use 22 "is_nothrow_move_assignable_v"; Use 23 "is_nothrow_destructible_v";
   Use 24 "is_nothrow_swappable_v"; Use 34 "nullopt_t"; Use 37 "addressof"; Use 37 "placement new"; Use 39 "move";
   Use 49 "in_place_t"; Use 49 "forward"; Use 120 "bad_optional_access"; Use 138 "enable_if_t";
   Use 138 "is_convertible_v"; Use 152 "destroy_at"; Use 183 "swap"; Pop].
(** optional_ref.hpp *)
Definition optional_ref_hpp : list item :=
 [Once; Inc h_utility; Inc h_optional; Inc h_type_traits; Def 16 "optional_ref" Class []; Use 51 "is_same_v";
   Use 53 "is_lvalue_reference_v"; Use 57 "add_pointer_t"; Use 57 "remove_reference_t"; Use 76 "nullopt_t";
   Use 79 "addressof"; Use 81 "enable_if_t"; Use 100 "bad_optional_access"; Use 103 "is_convertible_v";
   Use 105 "forward"; Use 113 "declval"; Def 113 "optional_ref(const Optional &)" Guide ["optional_ref"];
   Def 116 "optional_ref(Optional &)" Guide ["optional_ref"]].
(** string.hpp *)
Definition string_hpp : list item :=
 [Once; Inc h_limits; Inc h_memory; Inc h_cstring; Inc h_iterator; Inc h_algorithm; Inc h_stdexcept;
   Inc h_string_view; Def 18 "string" Class []; Use 22 "size_t"; Use 45 "memcpy"; Use 60 "max"; Use 71 "addressof";
   Use 106 "copy_n"; Use 114 "swap"; Use 143 "random_access_iterator_tag"; Use 145 "ptrdiff_t";
   Use 146 "conditional_t"; Use 238 "string_view"; Use 265 "copy_backward"; Use 284 "char_traits";
   Use 294 "reverse_iterator"; Use 308 "enable_if_t"; Use 308 "is_same_v"; Use 308 "input_iterator_tag";
   Use 308 "iterator_traits"; Use 309 "copy"; Use 309 "back_inserter"; Use 310 "is_base_of_v";
   Use 310 "forward_iterator_tag"; Use 312 "distance"; Use 322 "fill_n"; Use 324 "initializer_list";
   Use 366 "out_of_range"; Use 387 "numeric_limits"; Use 399 "length_error"; Use 403 "move"; Use 411 "fill";
   Use 435 "move(InputIterator, InputIterator, OutputIterator)"; Use 450 "rotate"; Use 613 "ostream";
   Def 623 "literals::operator""""_s" Inline ["string"]; Def 629 "std::hash<string>" Class ["string"]; Use 630 "hash"].
(** string_ref.hpp *)
Definition string_ref_hpp : list item :=
 [Once; Inc h_limits; Inc h_stdexcept; Inc h_string_view; Def 15 "string_ref" Class []; Use 18 "char_traits";
   Use 20 "size_t"; Use 21 "ptrdiff_t"; Use 28 "random_access_iterator_tag"; Use 116 "reverse_iterator";
   Use 137 "string_view"; Use 152 "numeric_limits"; Use 162 "out_of_range"; Use 214 "ostream";
   Def 228 "literals::operator""""_sr" Inline ["string_ref"]; Def 234 "std::hash<string_ref>" Class ["string_ref"];
   Use 235 "hash"].
(** tuple.hpp *)
Definition tuple_hpp : list item :=
 [Once; Inc h_type_traits; Def 15 "internal_tuple::is_abi_compatible_v" Template []; Use 16 "is_standard_layout_v";
   Use 16 "remove_cv_t"; Use 17 "is_default_constructible_v"; Use 18 "is_copy_constructible_v";
   Use 19 "is_nothrow_move_constructible_v"; Use 20 "is_copy_assignable_v"; Use 21 "is_nothrow_move_assignable_v";
   Use 22 "is_nothrow_destructible_v"; Use 23 "is_nothrow_swappable_v";
   Def 30 "internal_tuple::storage_t<>" Class []; Push 1;
   Def 45 "internal_tuple::storage_t<Head, Tail...>" Class ["internal_tuple::is_abi_compatible_v"; "internal_tuple::storage_t<>"];
   Use 47 "forward"; Use 49 "size_t"; Use 64 "swap"; Pop;
   Def 82 "tuple" Class ["internal_tuple::storage_t<>"; "internal_tuple::storage_t<Head, Tail...>"];
   Use 89 "enable_if_t"; Use 102 "move"; Def 135 "tuple(Types...)" Guide ["tuple"]; Use 140 "integral_constant";
   Use 140 "tuple_size"; Def 140 "std::tuple_size<tuple>" Class ["tuple"]; Use 143 "tuple_element";
   Def 143 "std::tuple_element<Index, tuple>" Class ["tuple"]; Def 146 "std::tuple_element<0, tuple>" Class ["tuple"]].
(** variant.hpp *)
Definition variant_hpp : list item :=
 [Once; Inc h_limits; Inc h_utility; Inc h_variant; Inc h_type_traits; Def 16 "internal_variant::storage_t" Class [];
   Def 19 "internal_variant::storage_t<Head, Tail...>" Class ["internal_variant::storage_t"]; Use 31 "size_t";
   Use 35 "addressof"; Use 47 "forward"; Use 48 "placement new"; Use 55 "destroy_at";
   Def 61 "internal_variant::not_found" Inline [];
   Def 65 "internal_variant::determine_index" Template ["internal_variant::not_found"]; Use 66 "is_same_v";
   Def 73 "internal_variant::validate_unique" Template ["internal_variant::determine_index"; "internal_variant::not_found"];
   Def 81 "internal_variant::max_sizeof" Template []; Def 88 "internal_variant::type_identity" Class [];
   Def 95 "internal_variant::determine_type" Static ["internal_variant::type_identity"]; Use 102 "index_sequence";
   Def 102 "internal_variant::visit(Visitor)" Template []; Use 104 "conditional_t"; Use 104 "is_const_v";
   Use 106 "declval"; Use 110 "move"; Use 116 "enable_if_t";
   Def 118 "internal_variant::visit(Visitors...)" Template ["internal_variant::visit(Visitor)"];
   Def 125 "internal_variant::emplace" Template []; Def 133 "internal_variant::assign" Template [];
   Def 146 "internal_variant::destroy" Template []; Def 154 "internal_variant::compare" Template [];
   Def 162 "internal_variant::swap" Template []; Use 165 "swap"; Push 1;
   Def 179 "variant<Head, Tail...>" Class ["internal_variant::storage_t<Head, Tail...>"; "internal_variant::not_found"; "internal_variant::determine_index"; "internal_variant::validate_unique"; "internal_variant::determine_type"; "internal_variant::max_sizeof"; "internal_variant::visit(Visitor)"; "internal_variant::visit(Visitors...)"; "internal_variant::emplace"; "internal_variant::assign"; "internal_variant::destroy"; "internal_variant::compare"; "internal_variant::swap"];
   Use 182 "is_standard_layout_v"; Use 183 "is_copy_constructible_v"; Use 184 "is_nothrow_move_constructible_v";
   Use 186 "is_nothrow_destructible_v"; Use 187 "is_nothrow_swappable_v"; Use 193 "index_sequence_for";
   Use 201 "remove_const_t"; Use 201 "remove_reference_t"; Use 203 "is_default_constructible_v"; Use 210 "decay_t";
   Use 217 "in_place_index_t"; Use 221 "in_place_type_t"; Use 221 "in_place_index";
   Use 254 "is_nothrow_constructible_v"; Use 260 "in_place_type"; Use 300 "bad_variant_access"; Use 327 "equal_to";
   Use 333 "not_equal_to"; Use 341 "less"; Use 348 "less_equal"; Use 355 "greater"; Use 362 "greater_equal"; Pop].
(** variant_ref.hpp *)
Definition variant_ref_hpp : list item :=
 [Once; Inc h_limits; Inc h_utility; Inc h_variant; Inc h_type_traits;
   Def 16 "internal_variant_ref::storage_t" Class [];
   Def 19 "internal_variant_ref::storage_t<Head, Tail...>" Class ["internal_variant_ref::storage_t"];
   Use 27 "size_t"; Use 38 "addressof"; Use 44 "ptrdiff_t";
   Def 44 "internal_variant_ref::determine_index" Template []; Use 45 "is_same_v";
   Def 52 "internal_variant_ref::validate_unique" Template ["internal_variant_ref::determine_index"];
   Use 60 "index_sequence"; Def 60 "internal_variant_ref::assign" Template [];
   Def 68 "internal_variant_ref::get" Template []; Use 72 "terminate";
   Def 79 "internal_variant_ref::visit" Template []; Use 81 "declval";
   Def 95 "variant_ref<Head, Tail...>" Class ["internal_variant_ref::storage_t<Head, Tail...>"; "internal_variant_ref::determine_index"; "internal_variant_ref::validate_unique"; "internal_variant_ref::assign"; "internal_variant_ref::get"; "internal_variant_ref::visit"];
   Use 96 "numeric_limits"; Use 102 "index_sequence_for"; Use 112 "enable_if_t"; Use 112 "is_reference_v";
   Use 112 "remove_reference_t"; Use 142 "forward"; Use 162 "bad_variant_access"].
(** vector.hpp *)
Definition vector_hpp : list item :=
 [Once; Inc h_limits; Inc h_memory; Inc h_iterator; Inc h_algorithm; Inc h_stdexcept; Inc h_type_traits;
   Def 19 "vector" Class []; Use 20 "is_standard_layout_v"; Use 21 "is_default_constructible_v";
   Use 22 "is_copy_constructible_v"; Use 23 "is_nothrow_move_constructible_v"; Use 24 "is_copy_assignable_v";
   Use 25 "is_nothrow_move_assignable_v"; Use 26 "is_nothrow_destructible_v"; Use 27 "is_nothrow_swappable_v";
   Use 31 "size_t"; Use 32 "numeric_limits"; Use 32 "ptrdiff_t"; Use 45 "length_error"; Use 46 "max"; Use 47 "free";
   Use 48 "calloc"; Use 49 "bad_alloc"; Use 54 "exchange"; Use 57 "addressof"; Use 59 "destroy_n"; Use 85 "swap";
   Use 95 "random_access_iterator_tag"; Use 98 "conditional_t"; Use 193 "rotate"; Use 200 "move";
   Use 214 "uninitialized_move_n"; Use 215 "uninitialized_move"; Use 244 "reverse_iterator"; Use 257 "enable_if_t";
   Use 257 "is_same_v"; Use 257 "input_iterator_tag"; Use 257 "iterator_traits"; Use 258 "copy";
   Use 258 "back_inserter"; Use 259 "is_base_of_v"; Use 259 "forward_iterator_tag"; Use 265 "initializer_list";
   Use 275 "out_of_range"; Use 301 "forward"; Use 305 "destroy_at"; Use 316 "uninitialized_value_construct_n";
   Use 317 "uninitialized_fill_n"; Use 336 "distance"; Use 336 "uninitialized_copy";
   Use 343 "move(InputIterator, InputIterator, OutputIterator)"; Use 344 "destroy"; Use 352 "make_move_iterator";
   Use 361 "placement new"; Use 382 "lexicographical_compare"; Use 390 "equal";
   Def 396 "vector(InputIterator, InputIterator)" Guide ["vector"]].
Inductive header :=
 | p_array | p_array_ref | p_bitset | p_function_ref | p_optional | p_optional_ref | p_string | p_string_ref | p_tuple | p_variant | p_variant_ref | p_vector.
#[global] Instance header_eq : EqDecision header.
Proof. solve_decision. Defined.
Definition items (h : header) : list item :=
  match h with
  | p_array => array_hpp
  | p_array_ref => array_ref_hpp
  | p_bitset => bitset_hpp
  | p_function_ref => function_ref_hpp
  | p_optional => optional_hpp
  | p_optional_ref => optional_ref_hpp
  | p_string => string_hpp
  | p_string_ref => string_ref_hpp
  | p_tuple => tuple_hpp
  | p_variant => variant_hpp
  | p_variant_ref => variant_ref_hpp
  | p_vector => vector_hpp
  end.

(** ** Translation units *)
(** a definition, and the packing of members where it is *)
Record def := MkDef { d_name : string; d_kind : kind; d_names : list string; d_pack : option N }.
Record state := MkState {
  declared : list string;     (* names of the standard library *)
  seen : list header;
  packs : list N;             (* packing in force, and what is below on the stack *)
  defs : list def }.
Definition run_item (st : state) (i : item) : option state :=
  match i with
  | Once => Some st
  | Inc s => Some (MkState (declares s ++ declared st) (seen st) (packs st) (defs st))
  | Push n => Some (MkState (declared st) (seen st) (n :: packs st) (defs st))
  | Pop => match packs st with [] => None | _ :: ps => Some (MkState (declared st) (seen st) ps (defs st)) end
  | Use _ n => if bool_decide (n ∈ declared st) then Some st else None
  | Def _ n k ns =>
      if bool_decide (n ∈ d_name <$> defs st) then None       (* redefinition *)
      else Some (MkState (declared st) (seen st) (packs st) (defs st ++ [MkDef n k ns (head (packs st))]))
  end.
Fixpoint run_items (st : state) (l : list item) : option state :=
  match l with [] => Some st | i :: l' => match run_item st i with Some st' => run_items st' l' | None => None end end.
Definition once (i : item) : bool := match i with Once => true | _ => false end.
Inductive directive := Std (s : std_header) | Ptl (h : header).
Definition include (st : state) (d : directive) : option state :=
  match d with
  | Std s => run_item st (Inc s)
  | Ptl h =>
      if existsb once (items h) && bool_decide (h ∈ seen st) then Some st
      else run_items (MkState (declared st) (h :: seen st) (packs st) (defs st)) (items h)
  end.
Fixpoint compile_from (st : state) (tu : list directive) : option state :=
  match tu with [] => Some st | d :: tu' => match include st d with Some st' => compile_from st' tu' | None => None end end.
(** [ps]: packing that the program has set before *)
Definition compile (ps : list N) (tu : list directive) : option state := compile_from (MkState [] [] ps []) tu.

(** ** Programs *)
(** may be defined in several translation units, [basic.def.odr] *)
Definition repeatable (k : kind) : bool := match k with Plain => false | _ => true end.
Definition internal (k : kind) : bool := match k with Static => true | _ => false end.
(** two translation units define the same; what has internal linkage is a different one in each. The names in
    both definitions denote the same *)
Definition consistent (a b : state) : Prop :=
  ∀ d, d ∈ defs a → d ∈ defs b → internal (d_kind d) = false →
    repeatable (d_kind d) = true ∧ ∀ e, e ∈ defs a → d_name e ∈ d_names d → internal (d_kind e) = false.
Definition links (sts : list state) : Prop := ∀ i j a b, i ≠ j → sts !! i = Some a → sts !! j = Some b → consistent a b.
