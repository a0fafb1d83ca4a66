(** Model of the initialisations with which optional, variant and vector store a value: with
    braces, new(p) Type{args...} (optional.hpp:37-49, 78, 87, 160-162, 173, 178; variant.hpp:48;
    vector.hpp:361), or with parentheses, as the algorithms of the standard library do
    (vector.hpp:214-215, 229, 311, 317, 323, 336, 338, 355, 359).

    List initialisation is that of the standard with CWG 2137; compilers that do not implement it
    copy in the case of a single argument of the very type. The types of the program are an
    oracle. Simplified: constructions do not throw; a value does
    not change when it is moved from; enumerations, references and arrays are not initialised. *)
From stdpp Require Import prelude.
Local Open Scope nat_scope.

(** overload resolution among the constructors for an initializer_list only: none is viable, one
    is selected, or one is selected and needs a narrowing conversion *)
Inductive il_result (V : Type) := NotViable | Selected (v : V) | Narrowing.
Arguments NotViable {_}.
Arguments Selected {_} _.
Arguments Narrowing {_}.

Class InitLang := {
  ty : Type;
  V : Type;
  type_of : V → ty;
  ty_eq :> EqDecision ty;
  is_aggregate : ty → bool;
  from_members : ty → list V → option V;    (* aggregate initialisation *)
  value_init : ty → option V;               (* T() *)
  init_list : ty → list V → il_result V;    (* constructors for an initializer_list *)
  parens : ty → list V → option V;          (* T(args...), all constructors, or a conversion *)
  narrows : ty → list V → bool;             (* does T(args...) need a narrowing conversion? *)
}.

Section init.
Context `{L : InitLang}.

(** T{args...}, [dcl.init.list]/3 of C++17: [None] if it does not compile *)
Definition braces (T : ty) (args : list V) : option V :=
  let all := if narrows T args then None else parens T args in
  if is_aggregate T then
    match args with
    | [v] => if decide (type_of v = T) then all else from_members T args
    | _ => from_members T args
    end
  else
    match args, value_init T with
    | [], Some v => Some v
    | _, _ =>
        match init_list T args with
        | Selected v => Some v
        | Narrowing => None
        | NotViable => all
        end
    end.

(** the places where a container stores a copy of a value, or a value moved from *)
Inductive place :=
  | OptionalCopy | OptionalMove             (* optional.hpp:37, 39 *)
  | OptionalValue                           (* optional.hpp:42, 44, 78, 87 *)
  | OptionalSwap                            (* optional.hpp:173, 178 *)
  | VariantCopy | VariantMove               (* variant.hpp:48 from 138-139 *)
  | VariantValue                            (* variant.hpp:48 from 212 *)
  | VectorPushBack                          (* vector.hpp:298-301, 361 *)
  | VectorInsertMove                        (* vector.hpp:358, 361 *)
  | VectorInsertCopy                        (* vector.hpp:357, 359 *)
  | VectorFill                              (* vector.hpp:317, 338, 359 *)
  | VectorCopy                              (* vector.hpp:336, 355 *)
  | VectorGrow.                             (* vector.hpp:214-215, 229, 311, 323 *)
Definition with_braces (p : place) : bool :=
  match p with VectorInsertCopy | VectorFill | VectorCopy | VectorGrow => false | _ => true end.
Definition stored (p : place) (T : ty) (v : V) : option V := if with_braces p then braces T [v] else parens T [v].

(** the places where a value is constructed from the arguments of the caller: optional.hpp:49,
    160, 162, variant.hpp:48 from 127 and 217, vector.hpp:301, 361 *)
Definition emplaced (T : ty) (args : list V) : option V := braces T args.

(** copying an optional or a variant n times, each time from the previous copy *)
Fixpoint copies (n : nat) (p : place) (T : ty) (v : V) : option V :=
  match n with O => Some v | S n' => match stored p T v with Some u => copies n' p T u | None => None end end.
End init.
