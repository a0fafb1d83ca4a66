(** Model of which constructor calls of tuple compile: the constraint, the body and overload
    resolution against the implicit copy and move constructor (tuple.hpp:46-47, 89-91).

    Expressions are those of ArrayCtor.v. Which expressions initialise which types is up to the
    program: an oracle. Simplified as there; conversions to the tuple type itself other than by
    its own constructors do not exist. *)
From stdpp Require Import prelude.
From Verif Require Import ArrayCtor.

Class TupLang := {
  TT : Type;
  TT_eq :> EqDecision TT;
  Comps : list TT;               (* the component types *)
  Tup : TT;                      (* tuple<Comps...> *)
  inits : expr TT → TT → bool;   (* T value{expression} compiles *)
}.

Section ctor.
Context `{L : TupLang}.
Notation N := (length Comps).
(** tuple.hpp:89 the enable_if *)
Definition tup_viable (args : list (expr TT)) : bool := (length args =? N) || (length args =? 0).
(** tuple.hpp:47 storage_t(Arg &&, Args &&...); storage_t<> (29-41) takes no arguments, the others
    at least one *)
Fixpoint storage_compiles (types : list TT) (args : list (expr TT)) : bool :=
  match types, args with
  | [], [] => true
  | t :: types', e :: args' => storage_compiles types' args' && inits e t
  | _, _ => false
  end.
Definition tup_resolve (args : list (expr TT)) : chosen :=
  match args with
  | [e] =>
      if decide (ty e = Tup) then
        match cat e, is_const e with
        | LValue, true => Copy
        | RValue, false => Move
        | _, _ => if tup_viable [e] then Template else Copy
        end
      else if tup_viable [e] then Template else NoConstructor
  | _ => if tup_viable args then Template else NoConstructor
  end.
(** the call compiles *)
Definition tup_compiles (args : list (expr TT)) : bool :=
  match tup_resolve args with
  | Template => storage_compiles Comps args
  | Copy | Move => true
  | NoConstructor => false
  end.
(** std::is_constructible_v *)
Definition tup_constructible (args : list (expr TT)) : bool :=
  match tup_resolve args with NoConstructor => false | _ => true end.
End ctor.
