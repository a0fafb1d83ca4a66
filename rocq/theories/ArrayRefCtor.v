(** Model of which ranges an array_ref<Type> can be constructed from, what it then refers to, and
    what class template argument deduction deduces (array_ref.hpp:13-61, 169-192, 247-255).

    Addresses are integers. Object types are opaque; they have a size and may have base classes
    at an offset ([base]). A range is what std::data and std::size of it give. Simplified:
    volatile does not exist, std::size gives std::size_t, the data found by argument dependent
    lookup is std::data. *)
From stdpp Require Import prelude.
Local Open Scope Z_scope.

Class ViewLang := {
  cls : Type;                       (* object types without const *)
  cls_eq :> EqDecision cls;
  size_of : cls → Z;
  base : cls → cls → option Z;      (* offset of the base class subobject in the derived class *)
}.

Inductive category := LValue | RValue.
(** a second argument: a pointer to the element type, or an integer, which may be of type
    std::size_t or not, and a literal 0 (a null pointer constant) or not *)
Inductive second := SPointer | SInteger (is_size literal_zero : bool).

Section ctor.
Context `{L : ViewLang}.

(** a pointer type: to a class, possibly const *)
Record pty := Pty { to : cls; cst : bool }.
(** the types of std::data for a non-const lvalue and for const or temporary ranges, the nested
    value_type (raw arrays have none), the address of the elements and their number *)
Record range := Range {
  data_mut : option pty; data_const : option pty; value_type : option cls;
  addr : Z; count : nat }.
(** an argument *)
Record arg := Arg { rng : range; is_const : bool; cat : category }.

(** implicit pointer conversions: how an address changes *)
Definition pointer_conversion (p q : pty) : option Z :=
  if cst p && negb (cst q) then None
  else if decide (to p = to q) then Some 0 else base (to p) (to q).

(** decltype(data(std::declval<ContiguousRange>())); [None] is the fallback of lines 16-17 *)
Definition data_type (a : arg) : option pty :=
  if is_const a then data_const (rng a)
  else match cat a with LValue => data_mut (rng a) | RValue => data_const (rng a) end.
(** array_ref.hpp:26-60 is_compatible_range: rebind(Type * ) is chosen if the conversion exists *)
Definition is_compatible_range (T : pty) (a : arg) : bool :=
  match data_type a with
  | None => false
  | Some p => match pointer_conversion p T with Some _ => true | None => false end
  end.
(** std::data(range) in the body, where range is an lvalue *)
Definition body_type (a : arg) : option pty := if is_const a then data_const (rng a) else data_mut (rng a).
(** array_ref.hpp:177-185 the two pointers of array_ref(pointer ptr, size_type count) *)
Definition from_pointer (T : pty) (p : Z) (n : nat) : Z * Z := (p, p + Z.of_nat n * size_of (to T)).
(** array_ref.hpp:190-192 array_ref(ContiguousRange &&): the two pointers, [None] if it does not
    compile *)
Definition construct (T : pty) (a : arg) : option (Z * Z) :=
  if is_compatible_range T a then
    match body_type a with
    | Some p => match pointer_conversion p T with
                | Some off => Some (from_pointer T (addr (rng a) + off) (count (rng a)))
                | None => None
                end
    | None => None
    end
  else None.
(** array_ref.hpp:198-199 size() and 206 operator[]: address of the i-th element *)
Definition view_size (T : pty) (v : Z * Z) : Z := (v.2 - v.1) / size_of (to T).
Definition view_elem (T : pty) (v : Z * Z) (i : nat) : Z := v.1 + Z.of_nat i * size_of (to T).

(** ranks of the implicit conversions of the second argument to pointer and to size_type, 0 for
    none needed, 2 for a conversion *)
Definition rank_pointer (s : second) : option nat :=
  match s with SPointer => Some 0%nat | SInteger _ true => Some 2%nat | SInteger _ false => None end.
Definition rank_size (s : second) : option nat :=
  match s with SPointer => None | SInteger true _ => Some 0%nat | SInteger false _ => Some 2%nat end.
(** array_ref.hpp:177 (pointer, pointer) and 184 (pointer, size_type): overload resolution *)
Inductive chosen := TwoPointers | PointerCount | Ambiguous.
Definition resolve (s : second) : option chosen :=
  match rank_pointer s, rank_size s with
  | Some i, Some j => Some (if (i <? j)%nat then TwoPointers else if (j <? i)%nat then PointerCount else Ambiguous)
  | Some _, None => Some TwoPointers
  | None, Some _ => Some PointerCount
  | None, None => None
  end.

(** array_ref.hpp:247-255 the deduction guides for one argument that is not an array_ref. Raw
    arrays ([value_type] is [None]) use the first, as they have no value_type *)
Definition deduced (a : arg) : option pty :=
  match value_type (rng a) with
  | None => data_type a
  | Some V =>
      match is_const a, cat a with
      | false, LValue => Some (Pty V false)
      | _, _ => Some (Pty V true)
      end
  end.
(** array_ref{range} *)
Definition construct_deduced (a : arg) : option (pty * (Z * Z)) :=
  match deduced a with
  | None => None
  | Some T => match construct T a with Some v => Some (T, v) | None => None end
  end.
End ctor.
Arguments pty : clear implicits.
Arguments pty _ : assert.
Arguments range : clear implicits.
Arguments range _ : assert.
Arguments arg : clear implicits.
Arguments arg _ : assert.
