(** Model of which constructions in a variant compile: set (variant.hpp:44-49), emplace
    (variant.hpp:123-129, 252-264) and the constructors (variant.hpp:203-221).

    An alternative is a number, the alternatives of the variant are a list of them; an argument
    list is an element of [args]. Which initialisations the types of the program accept is an
    oracle: with braces ([braces]), with parentheses ([parens]), without throwing ([nothrow]).
    Simplified: the static_asserts of the class hold; volatile does not exist. *)
From stdpp Require Import prelude.
From Verif Require Import VariantModel.
Local Open Scope nat_scope.

Class EmplaceLang := {
  args : Type;
  braces : nat → args → bool;     (* T{args...} compiles *)
  parens : nat → args → bool;     (* T(args...) compiles: std::is_constructible_v<T, Args...> *)
  nothrow : nat → args → bool;    (* std::is_nothrow_constructible_v<T, Args...> *)
}.

Section emplace.
Context `{L : EmplaceLang}.

(** variant.hpp:14-19, 44-49 set<I>(args...); the empty storage_t has no member set *)
Fixpoint set_compiles (alts : list nat) (i : nat) (a : args) : bool :=
  match alts with
  | [] => false
  | h :: t => match i with O => braces h a | S i' => set_compiles t i' a end
  end.
(** variant.hpp:31-43 get<I>() *)
Fixpoint get_compiles (alts : list nat) (i : nat) : bool :=
  match alts with
  | [] => false
  | h :: t => match i with O => true | S i' => get_compiles t i' end
  end.
Definition types (alts : list nat) : list ty := Ty false <$> alts.
Definition index_of (T : ty) (alts : list nat) : nat := determine_index T (types alts) 0.
(** variant.hpp:198-201 can_store *)
Definition can_store (T : ty) (alts : list nat) : bool := negb (index_of (remove_const T) alts =? not_found).
(** variant.hpp:123-129 emplace: the table has an entry for each alternative *)
Definition emplace_compiles (alts : list nat) (a : args) : bool :=
  forallb (λ i, set_compiles alts i a) (seq 0 (length alts)).
(** variant.hpp:214-217 variant(std::in_place_index_t<Index>, Args &&...) *)
Definition in_place_index_compiles (alts : list nat) (i : nat) (a : args) : bool :=
  (i <? length alts) && set_compiles alts i a.
(** variant.hpp:218-221 variant(std::in_place_type_t<T>, Args &&...) *)
Definition in_place_type_compiles (alts : list nat) (T : ty) (a : args) : bool :=
  can_store T alts && in_place_index_compiles alts (index_of T alts) a.
(** variant.hpp:254-264 emplace<T>(args...); it ends with return get<T>(), lines 285-306 *)
Definition emplace_type_compiles (alts : list nat) (T : ty) (a : args) : bool :=
  can_store T alts &&
  (if nothrow (t_id T) a then emplace_compiles alts a else in_place_type_compiles alts T a) &&
  get_compiles alts (index_of T alts).
(** variant.hpp:252-253 emplace<Index>(args...) *)
Definition emplace_index_compiles (alts : list nat) (i : nat) (a : args) : bool :=
  match alts !! i with Some t => emplace_type_compiles alts (Ty false t) a | None => false end.
(** variant.hpp:210-212, 239-244 variant(T &&) and operator=(T &&): [a] is the value of type [T] *)
Definition value_compiles (alts : list nat) (T : ty) (a : args) : bool :=
  can_store T alts && set_compiles alts (index_of (remove_const T) alts) a.
End emplace.
