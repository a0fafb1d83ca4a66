(** Model of the comparisons, hash and literals of /repo/inc/ptl/string.hpp. *)
From stdpp Require Import prelude gmap.
From Coq Require Import NArith.
From Verif Require Import Cpp StringModel.
Local Open Scope nat_scope.

(** std::char_traits<char>::lt compares as unsigned char *)
Definition uchar (c : char) : N := Byte.to_N c.

(** std::hash<std::string_view>, an unknown function of the characters *)
Class HashFn := hash_bytes : list char → nat.

Section model.
Context `{C : StrCfg} `{H : HashFn}.

(** an operand: a string, or a std::string_view of the caller *)
Inductive operand := AStr (x : nat) | AView (r : range).
(** string.hpp:550-553 operator std::string_view of the strings among the operands *)
Definition view_of (a : operand) : M world ((nat → chsrc) * nat) :=
  match a with
  | AStr x => n <- str_size x ;; if n =? 0 then ret (λ _, CVal None, 0) else bind_range (RSub x 0 n)
  | AView r => bind_range r
  end.

(** std::char_traits<char>::compare of the next [n] characters *)
Fixpoint traits_compare (f g : nat → chsrc) (k n : nat) : M world comparison :=
  match n with
  | O => ret Eq
  | S n' =>
      a <- rd_src (f k) ;; b <- rd_src (g k) ;;
      if (uchar a <? uchar b)%N then ret Lt
      else if (uchar b <? uchar a)%N then ret Gt
      else traits_compare f g (S k) n'
  end.
(** std::string_view::compare *)
Definition sv_compare (l r : (nat → chsrc) * nat) : M world comparison :=
  c <- traits_compare l.1 r.1 0 (l.2 `min` r.2) ;;
  match c with Eq => ret (l.2 ?= r.2) | _ => ret c end.

(** string.hpp:572-610; the overloads for two strings, a string and a view, and a view and a
    string all convert to std::string_view and compare those *)
Definition compare_with (f : comparison → bool) (a b : operand) : M world bool :=
  noexcept (l <- view_of a ;; r <- view_of b ;; c <- sv_compare l r ;; ret (f c)).
(** string.hpp:574, 587, 600 *)
Definition str_lt : operand → operand → M world bool :=
  compare_with (λ c, match c with Lt => true | _ => false end).
(** string.hpp:576, 589, 602 *)
Definition str_le : operand → operand → M world bool :=
  compare_with (λ c, match c with Gt => false | _ => true end).
(** string.hpp:578, 591, 604 *)
Definition str_ge : operand → operand → M world bool :=
  compare_with (λ c, match c with Lt => false | _ => true end).
(** string.hpp:580, 593, 606 *)
Definition str_gt : operand → operand → M world bool :=
  compare_with (λ c, match c with Gt => true | _ => false end).
(** string.hpp:582, 595, 608 *)
Definition str_eq : operand → operand → M world bool :=
  compare_with (λ c, match c with Eq => true | _ => false end).
(** string.hpp:584, 597, 610 *)
Definition str_ne : operand → operand → M world bool :=
  compare_with (λ c, match c with Eq => false | _ => true end).

(** the characters of a view, in order *)
Fixpoint view_chars (f : nat → chsrc) (k n : nat) : M world (list char) :=
  match n with
  | O => ret []
  | S n' => c <- rd_src (f k) ;; l <- view_chars f (S k) n' ;; ret (c :: l)
  end.
(** string.hpp:629-631 std::hash<ptl::string> *)
Definition str_hash (x : nat) : M world nat :=
  noexcept (v <- view_of (AStr x) ;; l <- view_chars v.1 0 v.2 ;; ret (hash_bytes l)).

(** the array a literal with characters [a] denotes *)
Definition lit_array (a : list char) : list char := a ++ [NUL].
(** std::char_traits<char>::length; [None] if there is no terminator *)
Fixpoint traits_length (a : list char) : option nat :=
  match a with
  | [] => None
  | c :: a' => if (uchar c =? 0)%N then Some 0 else S <$> traits_length a'
  end.
(** string.hpp:623 operator""_s, into a new string [x]; the length is not used *)
Definition str_literal (x : nat) (a : list char) : M world unit :=
  noexcept (
    match traits_length (lit_array a) with
    | Some n => str_new_range x (RExt (Some <$> take n (lit_array a)))
    | None => stuck OutOfBounds
    end).
End model.
