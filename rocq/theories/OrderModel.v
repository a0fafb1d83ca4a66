(** Model of std::equal and std::lexicographical_compare and of the comparisons of
    /repo/inc/ptl/vector.hpp built on them. The element type's operators < and == are
    arbitrary functions of the two values that do not throw. *)
From stdpp Require Import prelude gmap.
From Verif Require Import Cpp VectorModel.
Local Open Scope nat_scope.

(** operator< and operator== of an element type *)
Class EltCmp (A : Type) := { elt_lt : A → A → bool; elt_eq : A → A → bool }.

Section algorithms.
Context {S A : Type} `{E : EltCmp A}.

(** ranges of random access iterators: how to read the k-th element *)
Fixpoint equal_loop (f g : nat → M S A) (k n : nat) : M S bool :=
  match n with
  | O => ret true
  | Datatypes.S n' =>
      a <- f k ;; b <- g k ;;
      if elt_eq a b then equal_loop f g (Datatypes.S k) n' else ret false
  end.
(** std::equal(first1, last1, first2, last2) *)
Definition std_equal (f : nat → M S A) (n1 : nat) (g : nat → M S A) (n2 : nat) : M S bool :=
  if n1 =? n2 then equal_loop f g 0 n1 else ret false.

Fixpoint lex_loop (f : nat → M S A) (n1 : nat) (g : nat → M S A) (n2 : nat) (k : nat) : M S bool :=
  match n1, n2 with
  | O, O => ret false
  | O, Datatypes.S _ => ret true
  | Datatypes.S _, O => ret false
  | Datatypes.S n1', Datatypes.S n2' =>
      a <- f k ;; b <- g k ;;
      if elt_lt a b then ret true
      else c <- g k ;; d <- f k ;;
           if elt_lt c d then ret false
           else lex_loop f n1' g n2' (Datatypes.S k)
  end.
(** std::lexicographical_compare(first1, last1, first2, last2) *)
Definition std_lexicographical_compare (f : nat → M S A) (n1 : nat) (g : nat → M S A) (n2 : nat) : M S bool :=
  lex_loop f n1 g n2 0.
End algorithms.

Section vector.
Context `{C : VecCfg} `{E : !EltCmp V}.

(** vector.hpp:382 operator<; the distance of begin() and end() is size() *)
Definition vec_lt (x y : nat) : M world bool := noexcept (
  n <- vec_size x ;; k <- vec_size y ;; std_lexicographical_compare (vec_index x) n (vec_index y) k).
(** vector.hpp:384 *)
Definition vec_gt (x y : nat) : M world bool := noexcept (vec_lt y x).
(** vector.hpp:386 *)
Definition vec_le (x y : nat) : M world bool := noexcept (r <- vec_gt x y ;; ret (negb r)).
(** vector.hpp:388 *)
Definition vec_ge (x y : nat) : M world bool := noexcept (r <- vec_lt x y ;; ret (negb r)).
(** vector.hpp:390 *)
Definition vec_eq (x y : nat) : M world bool := noexcept (
  n <- vec_size x ;; k <- vec_size y ;; std_equal (vec_index x) n (vec_index y) k).
(** vector.hpp:392 *)
Definition vec_ne (x y : nat) : M world bool := noexcept (r <- vec_eq x y ;; ret (negb r)).
End vector.
