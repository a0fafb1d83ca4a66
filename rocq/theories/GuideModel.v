(** Model of class template argument deduction for array, vector, tuple and optional: the deduction
    guides (array.hpp:275-276, vector.hpp:395-396, tuple.hpp:134-135), the implicit ones of the
    constructors (array.hpp:177-179, vector.hpp:247-265, tuple.hpp:89-91, optional.hpp:31-49) and
    of copies, and the choice between them ([over.match.class.deduct], [over.match.best] of C++17).

    Which types are iterators and which convert to std::size_t is up to the program. Simplified:
    no volatile, no overloaded functions and no nested braces as arguments; of several conversions
    to a parameter only those of the standard library's guides matter, so a class that is an
    iterator and also a number is taken for an iterator. *)
From stdpp Require Import prelude.

(** types without reference; [cst] of an array is that of its elements *)
Inductive ty {T : Type} :=
  | Plain (t : T)
  | Const (t : ty)                      (* occurs as deduced argument only *)
  | CArr (t : ty) (n : nat)             (* U[n] *)
  | Fun (t : T)                         (* a function type *)
  | Ptr (t : ty) (c : bool)             (* U *, const U * *)
  | IList (t : ty)                      (* std::initializer_list<U> *)
  | Array (t : ty) (n : nat) | Vector (t : ty) | Tuple (ts : list ty) | Optional (t : ty).
Arguments ty : clear implicits.
Inductive category := LValue | RValue.
Record expr {T : Type} := Expr { typ : ty T; cst : bool; cat : category }.
Arguments expr : clear implicits.
Arguments Expr {T}.

Class Lang := {
  T : Type;
  ty_eq :> EqDecision (ty T);
  iterator_value : ty T → option (ty T);   (* std::iterator_traits<U>::value_type *)
  to_size : expr T → bool;                 (* converts to std::size_t *)
}.

Section guides.
Context `{L : Lang}.
Notation ty := (ty T).
Notation expr := (expr T).

(** what a parameter U by value deduces *)
Definition by_value (e : expr) : ty :=
  match typ e with
  | CArr t _ => Ptr t (cst e)
  | Fun t => Ptr (Fun t) false
  | t => t
  end.
(** what a parameter const U & deduces *)
Definition by_const_ref (e : expr) : ty := typ e.
(** what a parameter U && deduces, if U is a parameter of the class (so not a forwarding reference) *)
Definition by_rvalue_ref (e : expr) : option ty :=
  match cat e, typ e with
  | RValue, _ => Some (if cst e then Const (typ e) else typ e)
  | LValue, Fun t => Some (Fun t)     (* binds to functions *)
  | LValue, _ => None
  end.

(** A viable guide for one argument: what it deduces, how it takes the argument, whether its
    parameter is a specialisation of the class template, whether it is a user-defined guide and
    whether it is the copy deduction candidate *)
Inductive passing := Value | ConstRef | RvalueRef.
Record guide := Guide { deduced : ty; pass : passing; special : bool; user : bool; copies : bool }.
(** Is g better than h? [over.ics.rank]: of two references the one that binds an rvalue as rvalue, or
    a function as lvalue; then the more specialised template; then user-defined guides; then the
    copy deduction candidate *)
Definition better_conversion (e : expr) (g h : guide) : bool :=
  match pass g, pass h with
  | RvalueRef, ConstRef => match typ e, cat e with Fun _, _ => false | _, RValue => true | _, _ => false end
  | ConstRef, RvalueRef => match typ e with Fun _ => true | _ => false end
  | _, _ => false
  end.
Definition better (e : expr) (g h : guide) : bool :=
  if better_conversion e g h then true
  else if better_conversion e h g then false
  else if special g && negb (special h) then true
  else if special h && negb (special g) then false
  else if user g && negb (user h) then true
  else if user h && negb (user g) then false
  else copies g && negb (copies h).
(** the guide that is better than all others *)
Fixpoint best_of (e : expr) (before after : list guide) : option guide :=
  match after with
  | [] => None
  | g :: after' => if forallb (better e g) (before ++ after') then Some g else best_of e (before ++ [g]) after'
  end.
Definition best (e : expr) (gs : list guide) : option ty := deduced <$> best_of e [] gs.

(** the copy deduction candidate and the guides of copy and move constructor *)
Definition copy_guides (e : expr) : list guide :=
  [Guide (typ e) Value true false true; Guide (typ e) ConstRef true false false] ++
  (if cst e then [] else match cat e with RValue => [Guide (typ e) RvalueRef true false false] | LValue => [] end).

(** array.hpp:276 is the only guide besides copies: 177-179 deduces neither Type nor Size *)
Definition array_deduce (args : list expr) : option ty :=
  match args with
  | [] => None
  | [e] =>
      best e (Guide (Array (by_value e) 1) Value false true false ::
              match typ e with Array _ _ => copy_guides e | _ => [] end)
  | e :: args' => Some (Array (by_value e) (1 + length args'))
  end.
(** tuple.hpp:135; 89-91 deduces no Types, so it is viable without arguments only, with the same
    result *)
Definition tuple_deduce (args : list expr) : option ty :=
  match args with
  | [e] =>
      best e (Guide (Tuple [by_value e]) Value false true false ::
              match typ e with Tuple _ => copy_guides e | _ => [] end)
  | _ => Some (Tuple (by_value <$> args))
  end.
(** optional.hpp:42, 44 and copies; 32, 34 and 49 do not deduce Type *)
Definition optional_deduce (args : list expr) : option ty :=
  match args with
  | [e] =>
      best e (Guide (Optional (by_const_ref e)) ConstRef false false false ::
              (match by_rvalue_ref e with Some t => [Guide (Optional t) RvalueRef false false false] | None => [] end) ++
              match typ e with Optional _ => copy_guides e | _ => [] end)
  | _ => None
  end.
(** vector(args): vector.hpp:263 (count, value), 265 and copies; 396; 257-262 do not deduce Type *)
Definition vector_deduce (args : list expr) : option ty :=
  match args with
  | [e] => match typ e with Vector t => Some (Vector t) | IList t => Some (Vector t) | _ => None end
  | [a; b] =>
      match (if decide (by_value a = by_value b) then iterator_value (by_value a) else None) with
      | Some t => Some (Vector t)
      | None => if to_size a then Some (Vector (by_const_ref b)) else None
      end
  | _ => None
  end.
(** vector{args}: 265 first, unless a vector is copied *)
Definition vector_braces_deduce (args : list expr) : option ty :=
  match args with
  | [] => None
  | e :: args' =>
      match typ e, args' with
      | Vector t, [] => Some (Vector t)
      | _, _ => if forallb (λ a, bool_decide (by_value a = by_value e)) args' then Some (Vector (by_value e)) else vector_deduce args
      end
  end.
End guides.
