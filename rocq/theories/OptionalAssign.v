(** Model of overload resolution for assignment to an optional<Type> and construction of one:
    the five overloads of operator= (optional.hpp:51-91) and the constructors with the same
    parameters (optional.hpp:31-44).

    What the program's types convert to is an oracle. Simplified: no volatile, no conversion
    functions to references, no types derived from optional or Type; ranks of conversions as in
    [over.ics.scs]. *)
From stdpp Require Import prelude.
Local Open Scope nat_scope.

(** the type in the optional: does {} initialise it, and without calling a constructor (scalars)?
    do its constructors take an optional of it, or std::nullopt (an optional in an optional, or a
    class like std::any)? *)
Record type := Type_ { scalar : bool; empty_braces : bool; from_opt : bool; from_null : bool }.
(** ranks of implicit conversion sequences: 0 identity, 1 promotion, 2 conversion, 3 user-defined *)
Definition rank := option nat.
(** the right-hand side *)
Inductive arg :=
  | Braces                                   (* {} *)
  | Null                                     (* std::nullopt *)
  | Opt (const lvalue : bool)                (* an optional<Type> *)
  | Val (const lvalue : bool)                (* a Type *)
  | Other (to_type : rank).                  (* of another type, and its conversion to Type *)
(** optional.hpp:52 (std::nullopt_t), 58 (const optional &), 66 (optional &&), 75 (const Type &),
    84 (Type &&) *)
Inductive overload := ANull | ACopy | AMove | AValue | AValueMove.
Definition overloads : list overload := [ANull; ACopy; AMove; AValue; AValueMove].

(** does the argument bind to const T & and to T &&, if it is a T? *)
Definition binds (move const lvalue : bool) : bool := negb move || (negb const && negb lvalue).
(** the conversion sequence for the parameter *)
Definition conversion (T : type) (a : arg) (o : overload) : rank :=
  match a, o with
  | Braces, ANull => None                    (* std::nullopt_t has no default constructor *)
  | Braces, (ACopy | AMove) => Some 3        (* optional() *)
  | Braces, (AValue | AValueMove) => if empty_braces T then Some (if scalar T then 0 else 3) else None
  | Null, ANull => Some 0
  | Null, (ACopy | AMove) => Some 3          (* optional(std::nullopt_t) *)
  | Null, (AValue | AValueMove) => if from_null T then Some 3 else None
  | Opt _ _, ANull => None
  | Opt c l, ACopy => Some 0
  | Opt c l, AMove => if binds true c l then Some 0 else None
  | Opt _ _, (AValue | AValueMove) => if from_opt T then Some 3 else None
  | Val _ _, ANull => None
  | Val _ _, (ACopy | AMove) => Some 3       (* optional(const Type &) or optional(Type &&) *)
  | Val c l, AValue => Some 0
  | Val c l, AValueMove => if binds true c l then Some 0 else None
  | Other _, ANull => None
  | Other r, (ACopy | AMove) =>              (* only one user-defined conversion is possible *)
      match r with Some r => if r <? 3 then Some 3 else None | None => None end
  | Other r, (AValue | AValueMove) => r
  end.
(** parameters of the same type but for the reference *)
Definition is_move (o : overload) : bool := match o with AMove | AValueMove => true | _ => false end.
Definition same_type (o p : overload) : bool :=
  match o, p with (ACopy | AMove), (ACopy | AMove) | (AValue | AValueMove), (AValue | AValueMove) => true | _, _ => false end.
(** [over.ics.rank]: lower rank, or binding an rvalue reference to an rvalue where the other is
    const T &; two user-defined conversions to different types are indistinguishable *)
Definition better (T : type) (a : arg) (o p : overload) : bool :=
  match conversion T a o, conversion T a p with
  | Some i, Some j => (i <? j) || ((i =? j) && same_type o p && is_move o && negb (is_move p))
  | _, _ => false
  end.
Definition viable (T : type) (a : arg) (o : overload) : bool := match conversion T a o with Some _ => true | None => false end.
Inductive resolution := Chosen (o : overload) | Ambiguous | NoMatch.
Definition resolve (T : type) (a : arg) : resolution :=
  let vs := List.filter (viable T a) overloads in
  match List.filter (λ o, length (List.filter (λ p, negb (better T a o p)) vs) =? 1) vs with
  | [o] => Chosen o
  | _ => match vs with [] => NoMatch | _ => Ambiguous end
  end.

(** the state of the optional after an assignment, with the values of the right-hand side:
    [opt] of the optional, [val] of the Type it is or converts to; {} is an empty optional or the
    value-initialised [zero] *)
Definition assign {V} (o : overload) (a : arg) (opt : option V) (val zero : V) : option V :=
  match o with
  | ANull => None
  | ACopy | AMove => match a with Opt _ _ => opt | Val _ _ | Other _ => Some val | _ => None end
  | AValue | AValueMove => Some (match a with Braces => zero | _ => val end)
  end.
