(** What comparing means: lexicographic order of sequences, and what it takes for six
    operators to belong to one order. Nothing here mentions the code. *)
From stdpp Require Import prelude.

Section lex.
Context {A : Type} (lt eq : A → A → Prop).

(** the first [k] elements of both sequences exist and do not differ *)
Definition same_upto (k : nat) (a b : list A) : Prop :=
  ∀ j, j < k → ∃ x y, a !! j = Some x ∧ b !! j = Some y ∧ ¬ lt x y ∧ ¬ lt y x.
(** [a] comes before [b]: at the first difference it has the smaller element, or it ends there *)
Definition lex_less (a b : list A) : Prop :=
  ∃ k, same_upto k a b ∧
    ((a !! k = None ∧ is_Some (b !! k)) ∨ ∃ x y, a !! k = Some x ∧ b !! k = Some y ∧ lt x y).
(** equally long, with equal elements *)
Definition all_equal (a b : list A) : Prop :=
  length a = length b ∧ ∀ k x y, a !! k = Some x → b !! k = Some y → eq x y.
End lex.

(** [lt] orders the values that [eq] tells apart: exactly one of x < y, x == y, y < x, and
    == is an equivalence that < does not look inside *)
Record total_order {A} (lt eq : A → A → Prop) : Prop := TotalOrder {
  to_irrefl : ∀ x, ¬ lt x x;
  to_trans : ∀ x y z, lt x y → lt y z → lt x z;
  to_equal : ∀ x y, eq x y ↔ ¬ lt x y ∧ ¬ lt y x;
  to_equal_trans : ∀ x y z, eq x y → eq y z → eq x z;
}.

(** six answers to questions about two operands, and the order they should come from *)
Record answers := Answers { a_lt : bool; a_le : bool; a_gt : bool; a_ge : bool; a_eq : bool; a_ne : bool }.
Definition answers_for (c : comparison) : answers :=
  match c with
  | Lt => Answers true true false false false true
  | Eq => Answers false true false true true false
  | Gt => Answers false false true true false true
  end.

(** the six comparison operators of a type *)
Class SixOps (A : Type) := six_ops : A → A → answers.
(** they answer according to a total order *)
Definition ops_total {A} `{SixOps A} : Prop :=
  ∃ lt eq : A → A → Prop, total_order lt eq ∧
    ∀ x y, ∃ c, six_ops x y = answers_for c ∧
      match c with Lt => lt x y | Eq => eq x y | Gt => lt y x end.
