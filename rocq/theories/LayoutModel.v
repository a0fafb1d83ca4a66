(** Model of the memory layout of all types of the library.

    [lay] is the layout algorithm of the Itanium C++ ABI (GCC, Clang) restricted to what the
    library uses: at most one, non-virtual base class, no bit-fields and no virtual functions, with
    #pragma pack. The types are the class definitions of the headers. Types of the program are
    either [Opaque], of any size and alignment, or classes, unions and arrays of the same
    language.

    Simplified: an empty class is identified by its name, other classes are identified by their
    structure; opaque types have no empty subobject that also occurs elsewhere. A base class that
    is a POD may not have its tail padding reused; no base class in the library has any. *)
From stdpp Require Import prelude.
From stdpp Require Import strings.
Local Open Scope N_scope.

Inductive ty :=
  | Opaque (size align : N) (std : bool)   (* std: whether it is a standard-layout type *)
  | Arr (t : ty) (n : N)
  | Cls (name : string) (pack : option N) (base : option ty) (members : list ty)
  | Uni (pack : option N) (members : list ty).

Global Instance ty_eq_dec : EqDecision ty.
Proof.
  refine (fix go (x y : ty) {struct x} : Decision (x = y) :=
    let _ : EqDecision ty := go in
    match x, y with
    | Opaque s a d, Opaque s' a' d' => cast_if_and3 (decide (s = s')) (decide (a = a')) (decide (d = d'))
    | Arr t n, Arr t' n' => cast_if_and (decide (t = t')) (decide (n = n'))
    | Cls n p b l, Cls n' p' b' l' => cast_if_and4 (decide (n = n')) (decide (p = p')) (decide (b = b')) (decide (l = l'))
    | Uni p l, Uni p' l' => cast_if_and (decide (p = p')) (decide (l = l'))
    | _, _ => right _
    end); abstract congruence.
Defined.

(** [dsize] is the size without tail padding, [offsets] those of the members, [empties] the empty
    class subobjects with their offsets *)
Record layout := Lay { size : N; align : N; dsize : N; offsets : list N; empties : list (N * string) }.

Definition round_up (o a : N) : N := (o + a - 1) / a * a.
Definition packed (pack : option N) (a : N) : N := match pack with Some p => N.min p a | None => a end.
(** placing subobject [ys] at [o] would give two empty objects of the same type the same address *)
Definition clash (xs ys : list (N * string)) (o : N) : bool :=
  existsb (λ x, existsb (λ y, (o + y.1 =? x.1) && String.eqb x.2 y.2) ys) xs.
Fixpoint find_place (fuel : nat) (xs ys : list (N * string)) (a o : N) : N :=
  match fuel with
  | O => o
  | S fuel' => if clash xs ys o then find_place fuel' xs ys a (o + a) else o
  end.
Definition shift (o : N) (ys : list (N * string)) : list (N * string) := (λ y, (o + y.1, y.2)) <$> ys.
(** the next member *)
Definition place (pack : option N) (l m : layout) : layout :=
  let a := packed pack (align m) in
  let o := find_place (S (length (empties l) * length (empties m))) (empties l) (empties m) a (round_up (dsize l) a) in
  Lay (size l) (N.max (align l) a) (o + size m) (offsets l ++ [o]) (empties l ++ shift o (empties m)).

Fixpoint lay (t : ty) : layout :=
  match t with
  | Opaque s a _ => Lay s a s [] []
  | Arr t n =>
      let l := lay t in
      Lay (n * size l) (align l) (n * size l) []
        (concat ((λ i, shift (N.of_nat i * size l) (empties l)) <$> seq 0 (N.to_nat n)))
  | Cls name pack base ms =>
      let start := match base with
        | None => Lay 0 1 0 [] []
        | Some b => let l := lay b in Lay 0 (packed pack (align l)) (dsize l) [] (empties l)
        end in
      let r := foldl (place pack) start (map lay ms) in
      Lay (round_up (N.max 1 (dsize r)) (align r)) (align r) (dsize r) (offsets r)
        (empties r ++ if dsize r =? 0 then [(0, name)] else [])
  | Uni pack ms =>
      let ls := map lay ms in
      let a := foldr N.max 1 ((λ l, packed pack (align l)) <$> ls) in
      let s := round_up (N.max 1 (foldr N.max 0 (size <$> ls))) a in
      Lay s a s ((λ _, 0) <$> ls) (concat (empties <$> ls))
  end.
Definition sizeof (t : ty) : N := size (lay t).
Definition alignof (t : ty) : N := align (lay t).
(** offset of the [i]-th member declared in a class *)
Definition member_offset (t : ty) (i : nat) : option N := offsets (lay t) !! i.

(** std::is_standard_layout_v, [class]p7 of C++17 *)
Fixpoint first_types (t : ty) : list ty :=
  match t with
  | Opaque _ _ _ => []
  | Arr t _ => t :: first_types t
  | Uni _ ms => concat (map (λ m, m :: first_types m) ms)
  | Cls _ _ _ (m :: _) => m :: first_types m
  | Cls _ _ (Some b) [] => first_types b
  | Cls _ _ None [] => []
  end.
Fixpoint bases (t : ty) : list ty :=
  match t with Cls _ _ (Some b) _ => b :: bases b | _ => [] end.
Fixpoint classes_with_members (t : ty) : nat :=
  match t with
  | Cls _ _ base ms =>
      (match ms with [] => 0 | _ => 1 end + match base with Some b => classes_with_members b | None => 0 end)%nat
  | _ => 0
  end.
Fixpoint standard_layout (t : ty) : bool :=
  match t with
  | Opaque _ _ std => std
  | Arr t _ => standard_layout t
  | Uni _ ms => forallb standard_layout ms
  | Cls name pack base ms =>
      forallb standard_layout ms &&
      match base with Some b => standard_layout b | None => true end &&
      (classes_with_members (Cls name pack base ms) <=? 1)%nat &&
      forallb (λ b, bool_decide (b ∉ first_types (Cls name pack base ms))) (bases (Cls name pack base ms))
  end.

(** The platform: size and alignment of pointers, pointers to functions and std::size_t, and the
    alignment of memory from calloc *)
Class Target := { word : N; max_align : N }.

Section types.
Context `{Target}.
Definition UChar : ty := Opaque 1 1 true.   (* char and unsigned char *)
Definition Ptr : ty := Opaque word word true.
Definition SizeT : ty := Opaque word word true.

(** array.hpp:15-22, 40 *)
Definition array_t (t : ty) (n : N) : ty := Cls "array" None None [if decide (n = 0) then Ptr else Arr t n].
(** array_ref.hpp:25 *)
Definition array_ref_t : ty := Cls "array_ref" None None [Ptr; Ptr].
(** string_ref.hpp:16 *)
Definition string_ref_t : ty := Cls "string_ref" None None [Ptr; Ptr].
(** bitset.hpp:31-38, 61 *)
Definition bitset_t (n : N) : ty :=
  Cls "bitset" None None [if decide (n = 0) then UChar else Arr UChar (n / 8 + if decide (n mod 8 = 0) then 0 else 1)].
(** function_ref.hpp:16-20, 54, 81-90, 100, 107-108: storage_t, two empty base classes *)
Definition function_ref_t : ty :=
  Cls "function_ref" None
    (Some (Cls "internal_function_ref::traits" None (Some (Cls "internal_function_ref::invoker" None None [])) []))
    [Cls "internal_function_ref::storage_t" None None [Uni None [Ptr; Ptr]]; Ptr].
(** optional.hpp:13, 26-29 *)
Definition optional_t (t : ty) : ty := Cls "optional" (Some 1) None [Uni (Some 1) [t]; UChar].
(** optional_ref.hpp:17 *)
Definition optional_ref_t : ty := Cls "optional_ref" None None [Ptr].
(** string.hpp:20-35, 138; sso_size (22) is 3 * sizeof(void * ) - 2 *)
Definition sso_size : N := 3 * word - 2.
Definition sso_t : ty := Cls "sso" None None [UChar; Arr UChar (sso_size + 1)].
Definition heap_t : ty := Cls "heap" None None [Ptr; SizeT; SizeT].
Definition string_t : ty := Cls "string" None None [Cls "string::storage_t" None None [Ptr; Uni None [sso_t; heap_t]]].
(** tuple.hpp:29-45, 74 storage_t, 87 *)
Definition tuple_end : string := "internal_tuple::storage_t<>".
Fixpoint tuple_storage (ts : list ty) : ty :=
  match ts with
  | [] => Cls tuple_end None None []
  | t :: ts' => Cls "internal_tuple::storage_t" (Some 1) (Some (tuple_storage ts')) [t]
  end.
Definition tuple_t (ts : list ty) : ty := Cls "tuple" None None [tuple_storage ts].
(** tuple.hpp:49-60 get<Index>: the address relative to the storage_t; a base class is at 0 *)
Fixpoint tuple_offset (ts : list ty) (index : nat) : option N :=
  match ts, index with
  | [], _ => None
  | _ :: _, O => member_offset (tuple_storage ts) 0
  | _ :: ts', S index' => tuple_offset ts' index'
  end.
(** variant.hpp:15-23 storage_t, outside of the #pragma pack *)
Fixpoint variant_storage (ts : list ty) : ty :=
  match ts with
  | [] => Cls "internal_variant::storage_t<>" None None []
  | t :: ts' => Cls "internal_variant::storage_t" None None [Uni None [t; variant_storage ts']]
  end.
(** variant.hpp:31-42 get<I>: the address relative to the storage_t *)
Fixpoint variant_offset (ts : list ty) (i : nat) : option N :=
  match ts, i with
  | [], _ => None
  | t :: ts', O =>
      o ← member_offset (variant_storage ts) 0;
      o' ← member_offset (Uni None [t; variant_storage ts']) 0;
      Some (o + o')
  | t :: ts', S i' =>
      o ← member_offset (variant_storage ts) 0;
      o' ← member_offset (Uni None [t; variant_storage ts']) 1;
      o'' ← variant_offset ts' i';
      Some (o + o' + o'')
  end.
(** variant.hpp:79-85 max_sizeof *)
Fixpoint max_sizeof (ts : list ty) (size : N) : N :=
  match ts with
  | [] => size
  | t :: ts' => let size := if size <? sizeof t then sizeof t else size in max_sizeof ts' size
  end.
(** variant.hpp:177, 195-196 *)
Definition variant_t (ts : list ty) : ty := Cls "variant" (Some 1) None [variant_storage ts; UChar].
(** variant.hpp:191 the static_assert *)
Definition variant_compiles (ts : list ty) : bool := sizeof (variant_storage ts) =? max_sizeof ts 0.
(** variant_ref.hpp:15-23, 104-105 *)
Fixpoint variant_ref_storage (n : nat) : ty :=
  match n with
  | O => Cls "internal_variant_ref::storage_t<>" None None []
  | S n' => Cls "internal_variant_ref::storage_t" None None [Uni None [Ptr; variant_ref_storage n']]
  end.
Definition variant_ref_t (n : nat) : ty := Cls "variant_ref" None None [variant_ref_storage n; SizeT].
(** vector.hpp:35-39, 90 *)
Definition vector_t : ty := Cls "vector" None None [Cls "vector::storage_t" None None [Ptr; Ptr; SizeT; SizeT]].
End types.
