(** Model of which constructor of optional_ref a call selects and what CTAD deduces: the trait
    is_compatible_optional (optional_ref.hpp:19-71), the constructors (73-83) and the deduction
    guides (112-116).

    What the types of the program offer is an oracle. Simplified: no volatile; of conversion
    functions to an optional_ref nothing is known, they do not exist; the implicit guide of
    optional_ref(std::nullopt_t) deduces nothing and is left out. *)
From stdpp Require Import prelude.
Local Open Scope nat_scope.

(** a type without reference: an identity and const *)
Record cty (T : Type) := Cty { base : T; cst : bool }.
Arguments Cty {T} _ _.
Arguments base {T} _.
Arguments cst {T} _.
Inductive category := LValue | RValue.
Global Instance category_eq_dec : EqDecision category.
Proof. solve_decision. Defined.
(** the result of an expression that yields a U & or a U *)
Inductive result (T : Type) := LRef (u : cty T) | Other (u : cty T).
Arguments LRef {T} _.
Arguments Other {T} _.

Class RefLang := {
  T : Type;
  T_eq :> EqDecision T;
  nullopt_t : T;                       (* std::nullopt_t *)
  oref : cty T → T;                    (* optional_ref<U> *)
  oref_of : T → option (cty T);        (* U if the type is optional_ref<U> *)
  star : cty T → option (result T);    (* *e for an lvalue e; [None] if it does not compile *)
  star_rvalue : cty T → option (cty T);(* *std::declval<U>(), without the reference *)
  to_bool : cty T → bool;              (* static_cast<bool>(e) compiles for an lvalue e *)
  ptr_converts : cty T → cty T → bool; (* U * converts to V * *)
  derived : T → T → bool;              (* U is V or derived from it *)
  converts : cty T → category → T → bool;  (* a user-defined or arithmetic conversion to V exists *)
}.

Section ctor.
Context `{L : RefLang}.
(** an argument: its type and category *)
Record expr := Expr { ty : cty T; cat : category }.

(** ** optional_ref.hpp:19-71 is_compatible_optional<Optional>::value: [None] if the static_assert
    of line 53 fails. Line 35 casts a const lvalue, line 50 dereferences an [Optional &] *)
Definition is_compatible_optional (R O : cty T) : option bool :=
  match star O with
  | None => Some false
  | Some (Other _) => None
  | Some (LRef U) => Some (to_bool (Cty (base O) true) && ptr_converts U R)
  end.

(** ** Constructors of optional_ref<R> *)
(** the argument that optional_ref(Optional &) is deduced for, optional_ref.hpp:81-83: const
    rvalues bind to a const lvalue reference, other rvalues do not bind *)
Definition binds_template (e : expr) : bool := bool_decide (cat e = LValue) || cst (ty e).
(** optional_ref.hpp:78-79 optional_ref(Type &): binds to an object or to a temporary that the
    argument converts to *)
Inductive binding := Direct | Temporary.
Definition binds_object (R : cty T) (e : expr) : option binding :=
  if derived (base (ty e)) (base R) && (negb (cst (ty e)) || cst R) && (bool_decide (cat e = LValue) || cst R) then Some Direct
  else if cst R && negb (derived (base (ty e)) (base R)) && converts (ty e) (cat e) (base R) then Some Temporary
  else None.
(** the parameter has exactly the type of the argument *)
Definition identical (R : cty T) (e : expr) : bool := bool_decide (base (ty e) = base R) && eqb (cst (ty e)) (cst R).

(** the constructor selected; [HardError]: instantiating the trait does not compile, which happens
    for every call with one argument as the template's parameter is deduced first *)
Inductive selected := FromNullopt | FromObject (b : binding) | FromOptional | Copied | Moved | NoConstructor | HardError.
Definition select (R : cty T) (e : expr) : selected :=
  match is_compatible_optional R (ty e) with
  | None => HardError
  | Some compatible =>
      let template := compatible && binds_template e in
      if decide (base (ty e) = nullopt_t) then FromNullopt
      else if decide (base (ty e) = oref R) then
        (* optional_ref(const optional_ref &), optional_ref(optional_ref &&), implicit *)
        match cat e, cst (ty e) with
        | LValue, false => if template then FromOptional else Copied
        | RValue, false => Moved
        | _, true => Copied
        end
      else match binds_object R e, template with
      | Some b, true => if identical R e then FromObject b else FromOptional
      | Some b, false => FromObject b
      | None, true => FromOptional
      | None, false => NoConstructor
      end
  end.

(** ** Deduction *)
(** optional_ref.hpp:112-113 guide for const Optional &, which every argument binds to *)
Definition guide_const (e : expr) : option (cty T) :=
  (λ U, Cty (base U) true) <$> star_rvalue (Cty (base (ty e)) false).
(** optional_ref.hpp:115-116 guide for Optional & *)
Definition guide (e : expr) : option (cty T) := if binds_template e then star_rvalue (ty e) else None.
(** optional_ref.hpp:78-79 the implicit guide of optional_ref(Type &) *)
Definition guide_object (e : expr) : option (cty T) := if binds_template e then Some (ty e) else None.
(** overload resolution between them: for const arguments the parameters are the same and const
    Optional & is more specialised, else Optional & is the better match; guides are better than
    implicit ones. For an optional_ref<U> the copy deduction candidate is the most specialised *)
Definition deduce (e : expr) : option (cty T) :=
  match oref_of (base (ty e)) with
  | Some U => Some U
  | None =>
      if cst (ty e) then
        match guide_const e with
        | Some U => Some U
        | None => match guide e with Some U => Some U | None => guide_object e end
        end
      else
        match guide e with
        | Some U => Some U
        | None =>
            (* the implicit guide binds Type &, better than const Optional & *)
            match guide_object e with Some U => Some U | None => guide_const e end
        end
  end.
(** optional_ref name{e}; *)
Definition deduced_select (e : expr) : option (cty T * selected) :=
  match deduce e with Some R => Some (R, select R e) | None => None end.
End ctor.
