(** Model of the memory layout of all types of the library under the Microsoft C++ ABI (MSVC,
    clang-cl), to compare it with that of LayoutModel.v, the Itanium C++ ABI.

    [ms_lay] is the layout algorithm as documented by its reimplementation in Clang
    (MicrosoftRecordLayoutBuilder), restricted to what the library uses: at most one, non-virtual
    base class, no bit-fields and no virtual functions, with #pragma pack. Differences: base classes
    are followed by their tail padding; objects of empty classes may share addresses; an
    alignment that was asked for (alignas, __declspec(align)) is always obeyed, even with #pragma
    pack, and a class inherits it from its members and base classes.

    Simplified: empty base classes are at offset 0 and take no space, the extra byte between two
    empty bases does not occur with one base class; /Zp is not used. Types of the program have the
    same size and alignment under both ABIs. *)
From stdpp Require Import prelude strings.
From Verif Require Import LayoutModel.
Local Open Scope N_scope.

(** the types of LayoutModel.v; opaque types with the alignment that was asked for, or 1 *)
Inductive aty :=
  | AOpaque (size align : N) (std : bool) (required : N)
  | AArr (t : aty) (n : N)
  | ACls (name : string) (pack : option N) (base : option aty) (members : list aty)
  | AUni (pack : option N) (members : list aty).
(** the same type for LayoutModel.v *)
Fixpoint erase (t : aty) : ty :=
  match t with
  | AOpaque s a d _ => Opaque s a d
  | AArr t n => Arr (erase t) n
  | ACls n p b ms => Cls n p (match b with Some b => Some (erase b) | None => None end) (map erase ms)
  | AUni p ms => Uni p (map erase ms)
  end.

(** [ms_required] is the alignment that is obeyed always, [ms_base] the size as a base class *)
Record ms_layout := MsLay { ms_size : N; ms_align : N; ms_required : N; ms_base : N; ms_offsets : list N }.
(** alignment of a member or base class *)
Definition ms_adjusted (pack : option N) (m : ms_layout) : N := N.max (packed pack (ms_align m)) (ms_required m).
(** the next member *)
Definition ms_place (pack : option N) (l m : ms_layout) : ms_layout :=
  let a := ms_adjusted pack m in
  let o := round_up (ms_size l) a in
  MsLay (o + ms_size m) (N.max (ms_align l) a) (N.max (ms_required l) (ms_required m)) 0 (ms_offsets l ++ [o]).
(** the next member of a union *)
Definition ms_overlay (pack : option N) (l m : ms_layout) : ms_layout :=
  let a := ms_adjusted pack m in
  MsLay (N.max (ms_size l) (ms_size m)) (N.max (ms_align l) a) (N.max (ms_required l) (ms_required m)) 0 (ms_offsets l ++ [0]).
(** after the last member *)
Definition ms_finish (pack : option N) (l : ms_layout) : ms_layout :=
  let base := round_up (ms_size l) (packed pack (ms_align l)) in
  let size := round_up base (N.max (packed pack (ms_align l)) (ms_required l)) in
  MsLay (if size =? 0 then 1 else size) (N.max (ms_align l) (ms_required l)) (ms_required l) base (ms_offsets l).
Fixpoint ms_lay (t : aty) : ms_layout :=
  match t with
  | AOpaque s a _ r => MsLay s a r s []
  | AArr t n => let l := ms_lay t in MsLay (n * ms_size l) (ms_align l) (ms_required l) (n * ms_size l) []
  | ACls _ pack base ms =>
      let start := match base with
        | None => MsLay 0 1 1 0 []
        | Some b => let l := ms_lay b in MsLay (ms_base l) (N.max 1 (ms_adjusted pack l)) (ms_required l) 0 []
        end in
      ms_finish pack (foldl (ms_place pack) start (map ms_lay ms))
  | AUni pack ms => ms_finish pack (foldl (ms_overlay pack) (MsLay 0 1 1 0 []) (map ms_lay ms))
  end.

(** ** The types of the library, as in LayoutModel.v *)
Section types.
Context `{Target}.
Definition a_uchar : aty := AOpaque 1 1 true 1.
Definition a_ptr : aty := AOpaque word word true 1.
Definition a_size : aty := AOpaque word word true 1.
(** array.hpp:15-22, 40 *)
Definition a_array (t : aty) (n : N) : aty := ACls "array" None None [if decide (n = 0) then a_ptr else AArr t n].
(** array_ref.hpp:25, string_ref.hpp:16, optional_ref.hpp:17 *)
Definition a_array_ref : aty := ACls "array_ref" None None [a_ptr; a_ptr].
Definition a_string_ref : aty := ACls "string_ref" None None [a_ptr; a_ptr].
Definition a_optional_ref : aty := ACls "optional_ref" None None [a_ptr].
(** bitset.hpp:31-38, 61 *)
Definition a_bitset (n : N) : aty :=
  ACls "bitset" None None [if decide (n = 0) then a_uchar else AArr a_uchar (n / 8 + if decide (n mod 8 = 0) then 0 else 1)].
(** function_ref.hpp:16-20, 54, 81-90, 100, 107-108 *)
Definition a_function_ref : aty :=
  ACls "function_ref" None
    (Some (ACls "internal_function_ref::traits" None (Some (ACls "internal_function_ref::invoker" None None [])) []))
    [ACls "internal_function_ref::storage_t" None None [AUni None [a_ptr; a_ptr]]; a_ptr].
(** optional.hpp:13, 26-29 *)
Definition a_optional (t : aty) : aty := ACls "optional" (Some 1) None [AUni (Some 1) [t]; a_uchar].
(** string.hpp:20-35, 138 *)
Definition a_string : aty :=
  ACls "string" None None [ACls "string::storage_t" None None
    [a_ptr; AUni None [ACls "sso" None None [a_uchar; AArr a_uchar (sso_size + 1)]; ACls "heap" None None [a_ptr; a_size; a_size]]]].
(** tuple.hpp:29-45, 74, 87 *)
Fixpoint a_tuple_storage (ts : list aty) : aty :=
  match ts with
  | [] => ACls tuple_end None None []
  | t :: ts' => ACls "internal_tuple::storage_t" (Some 1) (Some (a_tuple_storage ts')) [t]
  end.
Definition a_tuple (ts : list aty) : aty := ACls "tuple" None None [a_tuple_storage ts].
(** variant.hpp:15-23, 177, 195-196 *)
Fixpoint a_variant_storage (ts : list aty) : aty :=
  match ts with
  | [] => ACls "internal_variant::storage_t<>" None None []
  | t :: ts' => ACls "internal_variant::storage_t" None None [AUni None [t; a_variant_storage ts']]
  end.
Definition a_variant (ts : list aty) : aty := ACls "variant" (Some 1) None [a_variant_storage ts; a_uchar].
(** variant_ref.hpp:15-23, 104-105 *)
Fixpoint a_variant_ref_storage (n : nat) : aty :=
  match n with
  | O => ACls "internal_variant_ref::storage_t<>" None None []
  | S n' => ACls "internal_variant_ref::storage_t" None None [AUni None [a_ptr; a_variant_ref_storage n']]
  end.
Definition a_variant_ref (n : nat) : aty := ACls "variant_ref" None None [a_variant_ref_storage n; a_size].
(** vector.hpp:35-39, 90 *)
Definition a_vector : aty := ACls "vector" None None [ACls "vector::storage_t" None None [a_ptr; a_ptr; a_size; a_size]].

(** types of the program and of the library, as they are written *)
Inductive lib :=
  | Base (size align : N) (std : bool) (required : N)
  | Vec | Str | ARef | SRef | ORef | FRef | VRef (n : nat) | Bits (n : N)
  | Opt (e : lib) | Var (es : list lib) | Array (e : lib) (n : N) | Tup (es : list lib).
Fixpoint class_of (t : lib) : aty :=
  match t with
  | Base s a d r => AOpaque s a d r
  | Vec => a_vector | Str => a_string | ARef => a_array_ref | SRef => a_string_ref | ORef => a_optional_ref
  | FRef => a_function_ref | VRef n => a_variant_ref n | Bits n => a_bitset n
  | Opt e => a_optional (class_of e)
  | Var es => a_variant (map class_of es)
  | Array e n => a_array (class_of e) n
  | Tup es => a_tuple (map class_of es)
  end.
End types.
