(** Model of which calls can be part of a constant expression of C++17 ([expr.const], [dcl.constexpr],
    [basic.types] of C++17): every function that the headers mark constexpr with what its body does on
    the way to a result (calls, operations of elements, functions of the standard library).

    Simplified: one entry stands for the overloads with the same body; the path is that of a call that
    meets the preconditions and does not throw; loops are their body. Members
    are called on objects that were made in the same constant expression. *)
From stdpp Require Import prelude.

(** the functions that are marked constexpr, of all classes *)
Inductive fn :=
  | f_iterator | f_iterator_star | f_iterator_inc | f_iterator_add_assign | f_iterator_eq | f_iterator_lt |
    f_iterator_minus_iterator | f_iterator_post_inc | f_iterator_plus | f_iterator_index | f_iterator_to_const
    | f_iterator_ne | f_iterator_gt | f_iterator_le | f_iterator_ge | f_begin | f_data | f_cbegin | f_end |
    f_size | f_cend | f_rbegin | f_crbegin | f_rend | f_crend | f_default | f_construct | f_construct_fewer |
    f_copy | f_move | f_assign | f_max_size | f_empty | f_index | f_front | f_back | f_at | f_get |
    f_get_of_rvalue | f_fill | f_swap | f_friend_swap | f_eq | f_ne | f_lt | f_gt | f_le | f_ge |
    f_index_const | f_clear_trailing_bits | f_value | f_set_index | f_at_const | f_test | f_all | f_any |
    f_none | f_operator_bool | f_count | f_and_assign | f_or_assign | f_xor_assign | f_and | f_or | f_xor |
    f_compl | f_flip | f_shl_assign | f_shl | f_shr_assign | f_shr | f_set | f_reset_index | f_reset |
    f_flip_index | f_assign_ref_bool | f_assign_ref | f_bool | f_nullopt | f_has_value | f_rvalue | f_in_place
    | f_pointers | f_pointer_and_count | f_range | f_first | f_last | f_subrange | f_remove_prefix |
    f_remove_suffix | f_pointer | f_string_view | f_to_string_view | f_literal | f_substr | f_arrow | f_star |
    f_from_object | f_value_or | f_from_functor | f_invoke.

Class Program := {
  base : Type;                          (* the types of the program *)
  base_literal : base → bool;           (* is it a literal type? *)
  base_constant : base → fn → bool;     (* can it be constructed, copied, compared... in one? *)
}.

Section types.
Context `{P : Program}.
Inductive ty :=
  | Base (b : base)
  | Arr (t : ty) (n : nat) | Bits (n : nat) | BitRef (n : nat)
  | Opt (t : ty) | Var (ts : list ty) | Tup (ts : list ty)
  | ARef (t : ty) | SRef | ORef (t : ty) | VRef (ts : list ty) | FRef.

(** Literal types: the destructor is trivial, all members are literal and there is a constexpr
    constructor besides copies. Arrays: array.hpp:40 (a pointer if Size is 0), 177-179. bitset.hpp:61,
    124, 76-86. optional.hpp:94, variant.hpp:29 and 248 have user-provided destructors. The constructor
    of storage_t is not constexpr in tuple.hpp:46-47; tuple<> has an aggregate. array_ref.hpp:25, 171;
    string_ref.hpp:16, 120; optional_ref.hpp:17, 74; function_ref.hpp:16-31, 107-108, 113-115. The union
    of variant_ref.hpp:20-23 is left uninitialised by the only constructor of storage_t, so that is not
    constexpr *)
Fixpoint literal (t : ty) : bool :=
  match t with
  | Base b => base_literal b
  | Arr u n => (n =? 0) || literal u
  | Bits _ | BitRef _ => true
  | Opt _ | Var _ => false
  | Tup ts => match ts with [] => true | _ => false end
  | ARef _ | SRef | ORef _ | FRef => true
  | VRef _ => false
  end.
(** the types whose operations the functions of a type use *)
Definition elements (t : ty) : list ty :=
  match t with
  | Arr u _ | Opt u | ARef u | ORef u => [u]
  | Var ts | Tup ts | VRef ts => ts
  | _ => []
  end.
End types.
Arguments ty : clear implicits.
Arguments ty {P}.

(** the functions of the standard library that are used, and which of them are constexpr in C++17 *)
Inductive std_fn :=
  | s_reverse_iterator | s_forward | s_move | s_fill | s_swap_ranges | s_equal | s_lexicographical_compare |
    s_min | s_all_of | s_any_of | s_accumulate | s_transform | s_fill_n | s_addressof | s_destroy_at | s_swap
    | s_data | s_size | s_char_traits_length | s_string_view | s_numeric_limits | s_string_view_eq |
    s_string_view_lt.
Definition std_constexpr (f : std_fn) : bool :=
  match f with
  | s_move | s_forward | s_addressof | s_min | s_data | s_size | s_reverse_iterator | s_char_traits_length |
    s_string_view | s_string_view_eq | s_string_view_lt | s_numeric_limits => true
  | _ => false
  end.

Inductive step :=
  | Call (f : fn)         (* another function of the same class *)
  | Elem (f : fn)         (* an operation of every element *)
  | Std (f : std_fn)
  | NotConstexpr              (* a function that is not constexpr *)
  | PlacementNew
  | Throw.

Section bodies.
Context `{P : Program}.
Notation body := (option (list step)).

(** the iterator classes: pointers in disguise (array.hpp:72-163 and alike) *)
Definition iterator_body (f : fn) : body :=
  match f with
  | f_iterator | f_iterator_star | f_iterator_inc | f_iterator_add_assign | f_iterator_eq | f_iterator_lt |
    f_iterator_minus_iterator => Some []
  | f_iterator_post_inc => Some [Call f_iterator_inc]
  | f_iterator_plus => Some [Call f_iterator_add_assign]
  | f_iterator_index => Some [Call f_iterator_plus; Call f_iterator_star]
  | f_iterator_to_const => Some [Call f_iterator]
  | f_iterator_ne => Some [Call f_iterator_eq]
  | f_iterator_gt => Some [Call f_iterator_lt]
  | f_iterator_le => Some [Call f_iterator_gt]
  | f_iterator_ge => Some [Call f_iterator_lt]
  | _ => None
  end.
(** begin() and so on of array.hpp:223-246, array_ref.hpp:223-246, string_ref.hpp:176-191 *)
Definition range_body (f : fn) : body :=
  match f with
  | f_begin => Some [Call f_data; Call f_iterator]
  | f_cbegin => Some [Call f_begin; Call f_iterator_to_const]
  | f_end => Some [Call f_begin; Call f_size; Call f_iterator_plus]
  | f_cend => Some [Call f_end; Call f_iterator_to_const]
  | f_rbegin => Some [Call f_end; Std s_reverse_iterator]
  | f_crbegin => Some [Call f_cend; Std s_reverse_iterator]
  | f_rend => Some [Call f_begin; Std s_reverse_iterator]
  | f_crend => Some [Call f_cbegin; Std s_reverse_iterator]
  | _ => iterator_body f
  end.
(** array.hpp:42-70, 177-272; copies are implicit. Elements without argument are initialised from {} *)
Definition array_body (n : nat) (f : fn) : body :=
  let elem g := if n =? 0 then [] else [Elem g] in
  match f with
  | f_default => Some (elem f_default)
  | f_construct => Some (Std s_forward :: elem f_construct)
  | f_construct_fewer => Some (Std s_forward :: elem f_construct ++ elem f_default)
  | f_copy => Some (elem f_copy) | f_move => Some (elem f_move) | f_assign => Some (elem f_assign)
  | f_data | f_size | f_max_size => Some []
  | f_empty => Some [Call f_size]
  | f_index => Some [Call f_data]
  | f_front => Some [Call f_index]
  | f_back => Some [Call f_size; Call f_index]
  | f_at => Some [Call f_size; Call f_index]
  | f_get => Some [Call f_index]
  | f_get_of_rvalue => Some [Call f_index; Std s_move]
  | f_fill => Some [Call f_begin; Call f_end; Std s_fill]
  | f_swap => Some [Call f_begin; Call f_end; Std s_swap_ranges]
  | f_friend_swap => Some [Call f_swap]
  | f_eq => Some [Call f_begin; Call f_end; Std s_equal]
  | f_ne => Some [Call f_eq]
  | f_lt => Some [Call f_begin; Call f_end; Std s_lexicographical_compare]
  | f_gt => Some [Call f_lt]
  | f_le => Some [Call f_gt]
  | f_ge => Some [Call f_lt]
  | _ => range_body f
  end.
(** bitset.hpp:58-72, 122-333, 359-376 *)
Definition bitset_body (n : nat) (f : fn) : body :=
  let sized l := if n =? 0 then [] else l in
  let indexed l := if n =? 0 then [Throw] else l in
  match f with
  | f_default | f_copy | f_move | f_assign | f_size | f_index_const | f_clear_trailing_bits => Some []
  | f_value => Some (Std s_min :: sized [Call f_set_index])
  | f_index => Some []
  | f_at => Some (indexed [Call f_size; Call f_index])
  | f_at_const => Some (indexed [Call f_size; Call f_index_const])
  | f_test => Some [Call f_at_const]
  | f_get => Some [Call f_index_const]
  | f_all => Some (sized [Std s_all_of])
  | f_any => Some (sized [Std s_any_of])
  | f_none | f_operator_bool => Some [Call f_any]
  | f_count => Some (sized [Std s_accumulate])
  | f_empty | f_max_size => Some [Call f_size]
  | f_and_assign | f_or_assign | f_xor_assign => Some (sized [Std s_transform])
  | f_and => Some [Call f_copy; Call f_and_assign]
  | f_or => Some [Call f_copy; Call f_or_assign]
  | f_xor => Some [Call f_copy; Call f_xor_assign]
  | f_compl => Some [Call f_copy; Call f_flip]
  | f_shl_assign => Some (sized [Call f_clear_trailing_bits])
  | f_shl => Some [Call f_copy; Call f_shl_assign]
  | f_shr_assign => Some []
  | f_shr => Some [Call f_copy; Call f_shr_assign]
  | f_set => Some (sized [Std s_fill_n; Call f_clear_trailing_bits])
  | f_set_index => Some (indexed [Call f_reset_index])
  | f_reset => Some (sized [Std s_fill_n])
  | f_reset_index => Some (indexed [])
  | f_flip => Some (sized [Std s_transform; Call f_clear_trailing_bits])
  | f_flip_index => Some (indexed [])
  | f_swap => Some (sized [Std s_swap_ranges])
  | f_friend_swap => Some [Call f_swap]
  | f_eq => Some (sized [Std s_equal])
  | f_ne => Some [Call f_eq]
  | _ => None
  end.
(** bitset::reference, bitset.hpp:76-120; the functions of the bitset it calls are elements *)
Definition bitref_body (f : fn) : body :=
  match f with
  | f_copy => Some []
  | f_assign_ref_bool => Some [Elem f_set_index]
  | f_assign_ref => Some [Call f_bool; Call f_assign_ref_bool]
  | f_bool => Some [Elem f_index; Call f_bool]       (* 98 self is not const, so self[index] is a reference *)
  | f_compl => Some [Call f_bool]
  | f_flip => Some [Elem f_flip_index]
  | f_swap => Some [Call f_bool; Call f_assign_ref_bool]
  | f_friend_swap => Some [Call f_copy; Call f_swap]
  | _ => None
  end.
(** optional.hpp:31-314; the functions that only look at an existing object are left out, as no such
    object exists in a constant expression *)
Definition optional_body (f : fn) : body :=
  match f with
  | f_default | f_nullopt | f_has_value => Some []
  | f_value => Some [Std s_addressof; PlacementNew; Elem f_copy]
  | f_rvalue => Some [Std s_addressof; PlacementNew; Std s_move; Elem f_move]
  | f_in_place => Some [Std s_addressof; PlacementNew; Std s_forward; Elem f_construct]
  | f_copy => Some [Std s_addressof; PlacementNew; Elem f_copy]
  | f_move => Some [Std s_addressof; PlacementNew; Std s_move; Elem f_move]
  | f_reset => Some [Std s_addressof; Std s_destroy_at]
  | _ => None
  end.
(** variant.hpp:27-57, 203-221 *)
Definition variant_body (f : fn) : body :=
  match f with
  | f_default => Some [Std s_addressof; PlacementNew; Elem f_default]
  | f_value | f_in_place => Some [Std s_forward; Std s_addressof; PlacementNew; Elem f_construct]
  | _ => None
  end.
(** tuple.hpp:46-80, 89-131; copies are implicit *)
Definition tuple_body (ts : list ty) (f : fn) : body :=
  match f, ts with
  | f_default, [] => Some []
  | f_default, _ | f_construct, _ => Some [Std s_forward; NotConstexpr; Elem f_construct]
  | f_copy, _ => Some [Elem f_copy] | f_move, _ => Some [Elem f_move] | f_assign, _ => Some [Elem f_assign]
  | f_get, _ => Some []
  | f_get_of_rvalue, _ => Some [Call f_get; Std s_move]
  | f_swap, [] => Some []
  | f_swap, _ => Some [Std s_swap]
  | f_friend_swap, _ => Some [Call f_swap]
  | f_eq, _ => Some [Elem f_eq]
  | f_ne, _ => Some [Call f_eq]
  | f_lt, _ => Some [Elem f_lt]
  | f_gt, _ => Some [Call f_lt]
  | f_le, _ => Some [Call f_gt]
  | f_ge, _ => Some [Call f_lt]
  | _, _ => None
  end.
(** array_ref.hpp:170-246 *)
Definition array_ref_body (f : fn) : body :=
  match f with
  | f_default | f_copy | f_move | f_assign | f_pointers | f_data | f_size => Some []
  | f_pointer_and_count => Some [Call f_pointers]
  | f_range => Some [Std s_data; Std s_size; Call f_pointer_and_count]
  | f_empty => Some [Call f_size]
  | f_index => Some [Call f_data]
  | f_front => Some [Call f_index]
  | f_back => Some [Call f_size; Call f_index]
  | f_at => Some [Call f_size; Call f_index]
  | f_first => Some [Call f_data; Call f_pointer_and_count]
  | f_last | f_subrange => Some [Call f_data; Call f_size; Call f_pointer_and_count]
  | _ => range_body f
  end.
(** string_ref.hpp:119-218, 226-228 *)
Definition string_ref_body (f : fn) : body :=
  match f with
  | f_default | f_copy | f_move | f_assign | f_pointer_and_count | f_data | f_size | f_remove_prefix | f_remove_suffix => Some []
  | f_pointer => Some [Std s_char_traits_length]
  | f_string_view => Some [Std s_string_view; Call f_pointer_and_count]
  | f_to_string_view => Some [Call f_data; Call f_size; Std s_string_view]
  | f_literal => Some [Call f_pointer]
  | f_empty => Some [Call f_size]
  | f_max_size => Some [Std s_numeric_limits]
  | f_index => Some [Call f_data]
  | f_front => Some [Call f_index]
  | f_back => Some [Call f_size; Call f_index]
  | f_at => Some [Call f_size; Call f_index]
  | f_substr => Some [Call f_data; Call f_size; Call f_pointer_and_count]
  | f_eq => Some [Call f_to_string_view; Std s_string_view_eq]
  | f_ne => Some [Call f_eq]
  | f_lt => Some [Call f_to_string_view; Std s_string_view_lt]
  | f_gt => Some [Call f_lt]
  | f_le => Some [Call f_gt]
  | f_ge => Some [Call f_lt]
  | _ => range_body f
  end.
(** optional_ref.hpp:73-105; whether 81-83 is constant depends on the class of the argument *)
Definition optional_ref_body (f : fn) : body :=
  match f with
  | f_default | f_copy | f_move | f_assign | f_nullopt | f_arrow | f_star | f_operator_bool | f_has_value => Some []
  | f_value => Some [Call f_operator_bool; Call f_star]
  | f_from_object => Some [Std s_addressof]
  | f_value_or => Some [Call f_operator_bool; Call f_star; Std s_forward; Elem f_copy; Elem f_construct]
  | _ => None
  end.
(** variant_ref.hpp:112-163: the constructors leave storage and type uninitialised *)
Definition variant_ref_body (f : fn) : body :=
  match f with
  | f_from_object | f_copy => Some [NotConstexpr]
  | _ => None
  end.
(** function_ref.hpp:45-73, 110-126: functor, which is what operator() calls, is not constexpr *)
Definition function_ref_body (f : fn) : body :=
  match f with
  | f_from_functor => Some [Std s_addressof]
  | f_copy | f_assign => Some []
  | f_invoke => Some [Std s_forward; NotConstexpr]
  | _ => None
  end.
Definition fn_body (t : ty) (f : fn) : body :=
  match t with
  | Base _ => None
  | Arr _ n => array_body n f
  | Bits n => bitset_body n f
  | BitRef _ => bitref_body f
  | Opt _ => optional_body f
  | Var _ => variant_body f
  | Tup ts => tuple_body ts f
  | ARef _ => array_ref_body f
  | SRef => string_ref_body f
  | ORef _ => optional_ref_body f
  | VRef _ => variant_ref_body f
  | FRef => function_ref_body f
  end.
(** whose operations [Elem] means *)
Definition operands (t : ty) : list ty := match t with BitRef n => [Bits n] | _ => elements t end.

(** the evaluation of a call as part of a constant expression comes to an end without doing anything
    that [expr.const] excludes; the object the function belongs to was created in the same way *)
Inductive constant : ty → fn → Prop :=
  | constant_base b f : base_constant b f = true → constant (Base b) f
  | constant_call t f steps : fn_body t f = Some steps → literal t = true →
      constant_steps t steps → constant t f
with constant_steps : ty → list step → Prop :=
  | constant_nil t : constant_steps t []
  | constant_fn t g steps : constant t g → constant_steps t steps → constant_steps t (Call g :: steps)
  | constant_elem t g steps : (∀ u, u ∈ operands t → constant u g) → constant_steps t steps → constant_steps t (Elem g :: steps)
  | constant_std t g steps : std_constexpr g = true → constant_steps t steps → constant_steps t (Std g :: steps).
End bodies.
