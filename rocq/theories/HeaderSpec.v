(** C103: what including headers of the library should do. *)
From stdpp Require Import prelude strings.
From Verif Require Import HeaderModel.

(** headers of the standard library that a header of the library needs and does not include: names it uses,
    and one header that declares each *)
Definition missing (h : header) : list (string * std_header) :=
  match h with
  | p_array => [("move", h_utility); ("forward", h_utility); ("tuple_size", h_utility); ("tuple_element", h_utility)]
  | p_array_ref => []
  | p_bitset => [("hash", h_functional); ("out_of_range", h_stdexcept); ("ios", h_ios); ("tuple_size", h_utility); ("tuple_element", h_utility)]
  | p_function_ref => [("invoke", h_functional); ("addressof", h_memory)]
  | p_optional => [("addressof", h_memory); ("placement new", h_new); ("destroy_at", h_memory)]
  | p_optional_ref => [("addressof", h_memory)]
  | p_string => [("swap", h_utility); ("conditional_t", h_type_traits); ("enable_if_t", h_type_traits); ("is_same_v", h_type_traits);
      ("is_base_of_v", h_type_traits); ("move", h_utility); ("ostream", h_ostream)]
  | p_string_ref => [("random_access_iterator_tag", h_iterator); ("ostream", h_ostream)]
  | p_tuple => [("forward", h_utility); ("swap", h_utility); ("move", h_utility); ("tuple_size", h_utility); ("tuple_element", h_utility)]
  | p_variant => [("addressof", h_memory); ("placement new", h_new); ("destroy_at", h_memory); ("equal_to", h_functional);
      ("not_equal_to", h_functional); ("less", h_functional); ("less_equal", h_functional); ("greater", h_functional); ("greater_equal", h_functional)]
  | p_variant_ref => [("addressof", h_memory); ("ptrdiff_t", h_cstddef); ("terminate", h_exception)]
  | p_vector => [("free", h_cstdlib); ("calloc", h_cstdlib); ("bad_alloc", h_new); ("exchange", h_utility); ("swap", h_utility);
      ("move", h_utility); ("forward", h_utility); ("placement new", h_new)]
  end.
(** directives that bring in a header of the standard library, directly or not *)
Definition brings (tu : list directive) (s : std_header) : Prop :=
  Std s ∈ tu ∨ ∃ h, Ptl h ∈ tu ∧ Inc s ∈ items h.
(** everything that a header needs is there where it is included for the first time *)
Definition prepared (tu : list directive) : Prop :=
  ∀ pre h post, tu = pre ++ Ptl h :: post → Ptl h ∉ pre → ∀ n s, (n, s) ∈ missing h → ∃ s', brings pre s' ∧ n ∈ declares s'.

(** the classes whose members are packed, and how: optional.hpp:13, tuple.hpp:43, variant.hpp:177; all others
    as the program has set *)
Definition packed_classes : list string := ["optional"; "internal_tuple::storage_t<Head, Tail...>"; "variant<Head, Tail...>"].
Definition packing (ps : list N) (name : string) : option N := if bool_decide (name ∈ packed_classes) then Some 1%N else head ps.
