(** Model of how values come into being in the storage of optional, variant and vector: by
    new(p) Type{...}, for which [expr.new] looks for an operator new in the scope of Type first, or by
    the algorithms of <memory>, which use the global one.

    Simplified: objects are addresses with the value that lives there; constructors of Type do not
    throw; a vector's storage is where its callbacks construct elements (the rest is in VectorModel.v),
    a variant is the member of its union that is set. *)
From stdpp Require Import prelude gmap.

(** the element type: its values, what a moved-from one is, and its own operator new. [None]: there is
    none. [Some None]: those there are cannot be called with the size and a Type * (not viable, private,
    deleted). [Some (Some f)]: [f] tells which address is returned, [None] is a null pointer *)
Class ElemType := {
  V : Type;
  moved : V → V;
  member_new : option (option (nat → option nat));
}.

Section model.
Context `{T : ElemType}.
Notation mem := (gmap nat V).
Inductive result {A : Type} := NoCompile | Undefined | Done (a : A) (m : mem).
Global Arguments result : clear implicits.
Definition M (A : Type) := mem → result A.
Definition ret {A} (a : A) : M A := λ m, Done a m.
Definition bind {A B} (x : M A) (k : A → M B) : M B := λ m,
  match x m with NoCompile => NoCompile | Undefined => Undefined | Done a m' => k a m' end.
Notation "x <- m ;; k" := (bind m (λ x, k)) (at level 100, m at next level, right associativity).
Notation "m ;;; k" := (bind m (λ _, k)) (at level 100, right associativity).
(** a function body with a new-expression compiles only if that does *)
Definition new_compiles : bool := match member_new with Some None => false | _ => true end.
Definition instantiate {A} (x : M A) : M A := if new_compiles then x else λ _, NoCompile.

(** an object comes into being at [p] *)
Definition put (p : nat) (v : V) : M unit := λ m,
  match m !! p with Some _ => Undefined | None => Done tt (<[p:=v]> m) end.
Definition rd (p : nat) : M V := λ m, match m !! p with Some v => Done v m | None => Undefined end.
Definition store (p : nat) (v : V) : M unit := λ m,
  match m !! p with Some _ => Done tt (<[p:=v]> m) | None => Undefined end.
Definition destroy (p : nat) : M unit := λ m,
  match m !! p with Some _ => Done tt (delete p m) | None => Undefined end.
(** new(p) Type{...} *)
Definition new_at (p : nat) (v : V) : M unit :=
  match member_new with
  | None => put p v
  | Some None => λ _, NoCompile
  | Some (Some f) => match f p with Some q => put q v | None => ret tt end
  end.
(** std::uninitialized_fill_n, _value_construct_n, _copy, _move: ::new(static_cast<void *>(p)) Type(...) *)
Fixpoint uninitialized (p : nat) (vs : list V) : M unit :=
  match vs with [] => ret tt | v :: vs' => put p v ;;; uninitialized (S p) vs' end.
(** the value that Type{...} is made from: a copy, or the object at [q] is moved from *)
Inductive arg := Copy (v : V) | Move (q : nat).
Definition value_of (a : arg) : M V :=
  match a with Copy v => ret v | Move q => v <- rd q ;; store q (moved v) ;;; ret v end.

(** ** optional: the address of val and [initialized], optional.hpp:26-29 *)
Record opt := Opt { o_val : nat; o_initialized : bool }.
(** optional.hpp:42, 44, 49 optional(const Type &), optional(Type &&), optional(std::in_place_t, ...) *)
Definition opt_construct (x : nat) (a : arg) : M opt := instantiate (
  v <- value_of a ;; new_at x v ;;; ret (Opt x true)).
(** optional.hpp:37 optional(const optional &) *)
Definition opt_copy (x : nat) (y : opt) : M opt := instantiate (
  if o_initialized y then v <- rd (o_val y) ;; new_at x v ;;; ret (Opt x (o_initialized y)) else ret (Opt x (o_initialized y))).
(** optional.hpp:39 optional(optional &&) *)
Definition opt_move (x : nat) (y : opt) : M opt := instantiate (
  if o_initialized y then v <- value_of (Move (o_val y)) ;; new_at x v ;;; ret (Opt x (o_initialized y)) else ret (Opt x (o_initialized y))).
(** optional.hpp:75-91, 157-166 operator=(const Type &), operator=(Type &&), emplace *)
Definition opt_assign (o : opt) (a : arg) : M opt := instantiate (
  v <- value_of a ;;
  if o_initialized o then store (o_val o) v ;;; ret o else new_at (o_val o) v ;;; ret (Opt (o_val o) true)).
(** optional.hpp:169-186 swap of two different objects; the first is empty after a value was moved *)
Definition opt_swap (x y : opt) : M (opt * opt) := instantiate (
  match o_initialized x, o_initialized y with
  | false, false => ret (x, y)
  | true, false =>
      v <- value_of (Move (o_val x)) ;; new_at (o_val y) v ;;; destroy (o_val x) ;;; ret (Opt (o_val x) false, Opt (o_val y) true)
  | false, true =>
      v <- value_of (Move (o_val y)) ;; new_at (o_val x) v ;;; destroy (o_val y) ;;; ret (Opt (o_val x) true, Opt (o_val y) false)
  | true, true => u <- rd (o_val x) ;; v <- rd (o_val y) ;; store (o_val x) v ;;; store (o_val y) u ;;; ret (x, y)
  end).
(** optional.hpp:97-108 reading the value of an optional that has one *)
Definition opt_deref (o : opt) : M V := rd (o_val o).

(** ** variant.hpp:44-49 set: the member of the union at [x] *)
Definition var_set (x : nat) (a : arg) : M unit := instantiate (v <- value_of a ;; new_at x v).

(** ** vector: the callbacks of insert_impl, assign_impl and resize_impl *)
(** vector.hpp:361 emplace, and through it 298-301, 358 push_back, emplace_back, insert(pos, Type &&) *)
Definition vec_emplace (p : nat) (a : arg) : M unit := instantiate (v <- value_of a ;; new_at p v).
(** vector.hpp:313-318, 336, 338, 355, 359 resize, assign and insert of counts and ranges *)
Definition vec_fill (p : nat) (vs : list V) : M unit := uninitialized p vs.
End model.
Arguments result {T} A.
