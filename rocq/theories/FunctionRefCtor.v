(** Model of which callables a function_ref accepts, what it stores and whether the instantiated
    call compiles: the constraints (function_ref.hpp:45, 55-58, 110, 113, 122), overload
    resolution of the constructors and assignments (110-124), the bodies that they instantiate
    (35-41, 45-50, 65-67) and the deduction guide (129-130).

    What the callables of the program return is an oracle; the argument types of the signature are
    fixed and can be forwarded. Simplified: no volatile, no ref-qualified call operators. *)
From stdpp Require Import prelude.
Local Open Scope nat_scope.

(** what kind of type: a function, a pointer to one, a pointer to a member, a function_ref (with
    this signature, or another), or an object of another type, maybe a class with call operators *)
Inductive kind (C : Type) := Function | Pointer (f : C) | MemberPointer | Own | OtherSignature | Object.
Arguments Function {C}.
Arguments Pointer {C} _.
Arguments MemberPointer {C}.
Arguments Own {C}.
Arguments OtherSignature {C}.
Arguments Object {C}.

Class CallLang := {
  C : Type;                          (* types of callables *)
  R : Type;                          (* types of results *)
  kind_of : C → kind C;
  invoke : C → bool → option R;      (* result of std::invoke on an lvalue, const or not *)
  nothrow : C → bool → bool;         (* and whether that is noexcept *)
  is_void : R → bool;
  converts : R → R → bool;           (* a result of the one type converts to the other *)
  nothrow_converts : R → R → bool;
  decay : R → R;                     (* std::decay_t *)
  decays : R → bool;                 (* and whether it can be initialised by such a result *)
}.
(** Result(Args...) with its qualifiers *)
Record sig (R : Type) := Sig { s_result : R; s_const : bool; s_noexcept : bool }.
Arguments Sig {R} _ _ _.
Arguments s_result {R} _.
Arguments s_const {R} _.
Arguments s_noexcept {R} _.

Section ctor.
Context `{L : CallLang}.

(** std::is_invocable_r_v<Result, T &, Args...>, T const if [k] *)
Definition is_invocable_r (res : R) (t : C) (k : bool) : bool :=
  match invoke t k with Some r => is_void res || converts r res | None => false end.
(** std::is_nothrow_invocable_r_v *)
Definition is_nothrow_invocable_r (res : R) (t : C) (k : bool) : bool :=
  match invoke t k with
  | Some r => nothrow t k && (is_void res || (converts r res && nothrow_converts r res))
  | None => false
  end.
(** function_ref.hpp:55-58 is_invocable_using *)
Definition is_invocable_using (g : sig R) (t : C) (k : bool) : bool :=
  if s_noexcept g then is_nothrow_invocable_r (s_result g) t k else is_invocable_r (s_result g) t k.

(** ** Constructors *)
(** function_ref.hpp:110-111 function_ref(F * func): for functions and pointers to functions *)
Definition pointer_viable (g : sig R) (t : C) : option C :=
  match kind_of t with
  | Function => if is_invocable_using g t false then Some t else None
  | Pointer f => if is_invocable_using g f false then Some f else None
  | _ => None
  end.
(** function_ref.hpp:113-115 function_ref(F &&): T is const if [k]; const_<T> in lines 60-61 *)
Definition object_viable (g : sig R) (t : C) (k : bool) : bool :=
  match kind_of t with
  | Own | MemberPointer => false
  | _ => is_invocable_using g t (s_const g || k)
  end.
(** what the function_ref refers to: the same as the argument (a copy), a function, or the
    argument itself; the last two with the instantiation functor<T>. F * is more specialised than
    F && *)
Inductive selected := Copied | ToFunction (f : C) | ToObject (t : C) (k : bool) | NoConstructor.
Definition select (g : sig R) (t : C) (k : bool) : selected :=
  match kind_of t with
  | Own => Copied                          (* function_ref.hpp:117-118 *)
  | _ =>
      match pointer_viable g t with
      | Some f => ToFunction f
      | None => if object_viable g t k then ToObject t k else NoConstructor
      end
  end.
(** function_ref.hpp:65-67 functor<T>, for T const if [k]: lines 35-41 give an lvalue of type T;
    lines 45-50 check that it is invocable for Result, and return the decayed result, which
    initialises Result *)
Definition functor_compiles (g : sig R) (t : C) (k : bool) : bool :=
  is_invocable_r (s_result g) t k &&
  match invoke t k with
  | Some r => is_void (s_result g) || (decays r && converts (decay r) (s_result g))
  | None => false
  end.
(** the whole construction *)
Definition compiles (g : sig R) (t : C) (k : bool) : bool :=
  match select g t k with
  | Copied => true
  | ToFunction f => functor_compiles g f false
  | ToObject t k => functor_compiles g t k
  | NoConstructor => false
  end.
(** functor<T> and operator() are noexcept if the signature is (lines 67, 70): can an exception
    of the callable, or of the conversion of its result, reach that? *)
Definition may_terminate (g : sig R) (t : C) (k : bool) : bool :=
  s_noexcept g && match select g t k with
    | Copied | NoConstructor => false
    | ToFunction f => negb (is_nothrow_invocable_r (s_result g) f false)
    | ToObject t k => negb (is_nothrow_invocable_r (s_result g) t k)
    end.

(** ** Assignment: [t] is the type of the right-hand side *)
(** function_ref.hpp:122-124 the deleted operator=(T): T is a parameter by value, so functions
    decay to pointers *)
Definition deleted_viable (t : C) : bool :=
  match kind_of t with Own | Function | Pointer _ => false | _ => true end.
(** the deleted one matches exactly, the conversion for operator=(const function_ref &) does not *)
Inductive assignment := Rebinds (s : selected) | Deleted | NoAssignment.
Definition assign (g : sig R) (t : C) (k : bool) : assignment :=
  if deleted_viable t then Deleted
  else match select g t k with NoConstructor => NoAssignment | s => Rebinds s end.

(** ** Deduction: function_ref.hpp:129-130, [signature] is the one that a function type or
    function_ref type has; there is the copy deduction candidate but no other implicit guide, as
    the primary template is not defined (96-97) *)
Definition deduce (signature : C → sig R) (t : C) : option (sig R) :=
  match kind_of t with Function | Own => Some (signature t) | Pointer f => Some (signature f) | _ => None end.
End ctor.
