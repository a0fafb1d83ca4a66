(** Which members a struct may have while it is still being defined: what the class templates of the library
    demand of their arguments when they are instantiated.

    A member of class type must be complete ([class.mem]), which instantiates its template: the static_asserts,
    the types of members and bases, and the declarations of member functions. Bodies and default arguments of
    functions and the contents of member templates are instantiated later, if at all. A type trait other than
    std::is_same, a sizeof, a member, a base and an element of an array must be of complete type.

    Simplified: the traits are taken to hold (C94 and C95 are about their values); function_ref signatures mention
    structs by reference only; user structs have no bases. *)
From stdpp Require Import prelude.

Inductive ty :=
  | Scalar                          (* int, double, enumerations, ... *)
  | Text                            (* ptl::string, string_ref, bitset: their definitions depend on no type *)
  | Struct (s : nat)
  | Ptr (t : ty)                    (* t * and t & *)
  | Vec (t : ty) | Arr (t : ty) (n : nat) | Opt (t : ty) | Var (t : ty) (ts : list ty) | Tup (ts : list ty)
  | ARef (t : ty) | ORef (t : ty) | VRef (t : ty) (ts : list ty)
  | FRef (ts : list ty).            (* result and parameters, by reference *)

(** the types met when a class is instantiated: those above and the helpers of the library *)
Inductive ity :=
  | User (t : ty)
  | CArray (t : ty)                 (* t[n], n > 0 *)
  | VecStorage (t : ty)             (* vector<t>::storage_t *)
  | VarStorage (ts : list ty)       (* internal_variant::storage_t<ts...> *)
  | TupStorage (ts : list ty)       (* internal_tuple::storage_t<ts...> *)
  | VRefStorage (ts : list ty)      (* internal_variant_ref::storage_t<ts...> *)
  | FunStorage                      (* internal_function_ref::storage_t *)
  | FunTraits.                      (* internal_function_ref::traits, invoker *)

(** what the definition of a class contains *)
Inductive item :=
  | Test (t : ty)                   (* a type trait of t *)
  | SizeOf (i : ity)
  | Member (i : ity)
  | Base (i : ity)
  | Same (t u : ty).                (* std::is_same_v<t, u> *)

(** vector.hpp:20-27, array.hpp:30-38, optional.hpp:18-24, variant.hpp:182-187, tuple.hpp:15-24, 83: one trait
    stands for all *)
Definition tests (t : ty) : list item := [Test t].
(** internal_variant::validate_unique, variant.hpp:71-77, and that of variant_ref.hpp:50-56 *)
Fixpoint unique (ts : list ty) : list item :=
  match ts with [] => [] | t :: ts => map (Same t) ts ++ unique ts end.

Definition items (i : ity) : list item :=
  match i with
  (* vector.hpp:20-33: the traits, sizeof for max_capacity; 35-39, 90: storage_t of pointers and sizes *)
  | User (Vec t) => tests t ++ [SizeOf (User t); Member (VecStorage t)]
  | VecStorage t => [Member (User (Ptr t)); Member (User (Ptr t)); Member (User Scalar); Member (User Scalar)]
  (* array.hpp:30-40; the storage of an empty array is a pointer, 15-22 *)
  | User (Arr t n) => tests t ++ [Member (if n =? 0 then User (Ptr t) else CArray t)]
  (* optional.hpp:18-29 *)
  | User (Opt t) => tests t ++ [Member (User t); Member (User Scalar)]
  (* variant.hpp:179-196, 15-24, 79-85 *)
  | User (Var t ts) => concat (tests <$> t :: ts) ++ unique (t :: ts) ++
      (SizeOf <$> (VarStorage (t :: ts) :: (User <$> t :: ts))) ++ [Member (VarStorage (t :: ts)); Member (User Scalar)]
  | VarStorage [] => []
  | VarStorage (t :: ts) => [Member (User t); Member (VarStorage ts)]
  (* tuple.hpp:82-87, 26-30, 42-77 *)
  | User (Tup ts) => concat (tests <$> ts) ++ [Member (TupStorage ts)]
  | TupStorage [] => []
  | TupStorage (t :: ts) => [Base (TupStorage ts); Member (User t)]
  (* array_ref.hpp:24-25 *)
  | User (ARef t) => [Member (User (Ptr t)); Member (User (Ptr t))]
  (* optional_ref.hpp:16-17 *)
  | User (ORef t) => [Member (User (Ptr t))]
  (* variant_ref.hpp:95-105, 15-23 *)
  | User (VRef t ts) => unique (t :: ts) ++
      [SizeOf (VRefStorage (t :: ts)); Member (VRefStorage (t :: ts)); Member (User Scalar)]
  | VRefStorage [] => []
  | VRefStorage (t :: ts) => [Member (User (Ptr t)); Member (VRefStorage ts)]
  (* function_ref.hpp:99-108, 16-20, 53-92: pointers only *)
  | User (FRef ts) => [Base FunTraits; Member FunStorage; Member (User (Ptr Scalar))]
  | FunStorage => [Member (User (Ptr Scalar))]
  | FunTraits => []
  | User Scalar | User Text | User (Struct _) | User (Ptr _) => []
  | CArray t => [Member (User t)]
  end.
(** the types that an item needs complete *)
Definition wants (j : item) : list ity :=
  match j with Test t => [User t] | SizeOf i | Member i | Base i => [i] | Same _ _ => [] end.

(** complete types, with the structs [Γ] defined so far *)
Inductive complete (Γ : nat → Prop) : ity → Prop :=
  | complete_struct s : Γ s → complete Γ (User (Struct s))
  | complete_other i : (∀ s, i ≠ User (Struct s)) →
      (∀ j k, j ∈ items i → k ∈ wants j → complete Γ k) → complete Γ i.

(** structs named in a type, all of which must have been declared *)
Fixpoint names (t : ty) : list nat :=
  match t with
  | Scalar | Text => []
  | Struct s => [s]
  | Ptr t | Vec t | Arr t _ | Opt t | ARef t | ORef t => names t
  | Var t ts | VRef t ts => names t ++ concat (map names ts)
  | Tup ts | FRef ts => concat (map names ts)
  end.

(** struct s; and struct s { members }; *)
Inductive decl := Forward (s : nat) | Define (s : nat) (ms : list ty).
(** does the compiler accept a translation unit, with [Δ] declared and [Γ] defined before? *)
Inductive accepts (Δ Γ : nat → Prop) : list decl → Prop :=
  | accepts_nil : accepts Δ Γ []
  | accepts_forward s ds : accepts (λ u, u = s ∨ Δ u) Γ ds → accepts Δ Γ (Forward s :: ds)
  | accepts_define s ms ds :
      ¬ Γ s →
      (∀ t u, t ∈ ms → u ∈ names t → u = s ∨ Δ u) →
      (∀ t, t ∈ ms → complete Γ (User t)) →
      accepts (λ u, u = s ∨ Δ u) (λ u, u = s ∨ Γ u) ds →
      accepts Δ Γ (Define s ms :: ds).
Definition compiles (ds : list decl) : Prop := accepts (λ _, False) (λ _, False) ds.
