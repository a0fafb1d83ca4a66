(** Model of which constructor calls of array compile: the constraint, the body and overload
    resolution against the implicit copy and move constructor (array.hpp:177-179).

    An expression is a type, a const and a value category. The conversions between types are
    those of the program, not of this library: an oracle. Simplified: volatile, arrays of bound
    0 and explicit conversions do not exist; [converts] means initialisation of an element in a
    braced list, so it excludes narrowing. *)
From stdpp Require Import prelude.

Inductive category := LValue | RValue.
Global Instance category_eq : EqDecision category.
Proof. solve_decision. Defined.
Record expr {T : Type} := Expr { ty : T; is_const : bool; cat : category }.
Arguments expr : clear implicits.
Arguments Expr {T}.
(** a non-reference type, or an lvalue reference to it; possibly const *)
Inductive type {T : Type} := Plain (b : T) (c : bool) | LRef (b : T) (c : bool).
Arguments type : clear implicits.
Arguments Plain {T}.
Arguments LRef {T}.

Class Lang := {
  T : Type;                       (* the object types of the program, without const *)
  T_eq :> EqDecision T;
  Type_ : T;                      (* the element type *)
  Arr : T;                        (* array<Type, Size> *)
  Size : nat;
  converts : expr T → T → bool;   (* the expression implicitly converts to a value of that type *)
  binds : expr T → T → bool;      (* ... to a non-const lvalue reference to that type *)
}.

Section ctor.
Context `{L : Lang}.

(** what Args is deduced as for a parameter Args && *)
Definition deduce (e : expr T) : type T :=
  match cat e with
  | LValue => LRef (ty e) (is_const e)
  | RValue => Plain (ty e) (is_const e)
  end.
(** std::declval<From>() of a non-reference type without const *)
Definition declval (b : T) : expr T := Expr b false RValue.
(** std::is_convertible_v<From, To> for such From *)
Definition is_convertible (from : T) (to : type T) : bool :=
  match to with
  | Plain b _ => converts (declval from) b
  | LRef b false => binds (declval from) b
  | LRef b true => converts (declval from) b || binds (declval from) b
  end.
(** array.hpp:177 the enable_if: the constructor takes part in overload resolution *)
Definition template_viable (args : list (expr T)) : bool := forallb (λ e, is_convertible Type_ (deduce e)) args.
(** array.hpp:179 values{std::forward<Args>(args)...} compiles *)
Definition body_compiles (args : list (expr T)) : bool :=
  (length args <=? Size) && forallb (λ e, converts e Type_) args.

(** the constructor that a call resolves to *)
Inductive chosen := Template | Copy | Move | NoConstructor.
(** overload resolution for one argument. The parameter of the template has exactly the type of
    the argument, so it is better than the others unless they have exactly this type, too; then
    the one that is not a template is better *)
Definition resolve1 (e : expr T) : chosen :=
  if decide (ty e = Arr) then
    match cat e, is_const e with
    | LValue, true => Copy
    | RValue, false => Move
    | _, _ => if template_viable [e] then Template else Copy
    end
  else if template_viable [e] then Template
  else if converts e Arr then Copy     (* through a conversion of the argument's own type *)
  else NoConstructor.
Definition resolve (args : list (expr T)) : chosen :=
  match args with
  | [e] => resolve1 e
  | _ => if template_viable args then Template else NoConstructor
  end.
(** the call compiles *)
Definition compiles (args : list (expr T)) : bool :=
  match resolve args with
  | Template => body_compiles args
  | Copy | Move => true
  | NoConstructor => false
  end.
(** std::is_constructible_v<array, Args...>: the body is not looked at *)
Definition is_constructible (args : list (expr T)) : bool :=
  match resolve args with NoConstructor => false | _ => true end.
End ctor.
