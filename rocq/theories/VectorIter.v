(** Model of begin(), end(), ... of /repo/inc/ptl/vector.hpp. The elements of a vector lie in a
    block; its iterators are those of IterModel.v. *)
From stdpp Require Import prelude gmap.
From Coq Require Import ZArith.
From Verif Require Import Cpp VectorModel IterModel.
Local Open Scope Z_scope.

Section model.
Context `{C : VecCfg}.

Global Instance vector_arrays : Arrays world nat V := {
  extent b w := (λ c, Z.of_nat (length c)) <$> heap w !! b;
  load b i := if 0 <=? i then rd (Some b, Z.to_nat i) else stuck OutOfBounds;
  store b i v := if 0 <=? i then VectorModel.store (Some b, Z.to_nat i) v else stuck OutOfBounds;
}.
(** a std::size_t converted to std::ptrdiff_t *)
Definition to_diff (n : nat) : Z :=
  if Z.of_nat n <? 2 ^ (Z.of_nat wbits - 1) then Z.of_nat n else Z.of_nat n - 2 ^ Z.of_nat wbits.

(** vector.hpp:363-365 begin, cbegin *)
Definition vec_begin (x : nat) : M world (pointer nat) := noexcept (
  b <- vec_data x ;; ret (match b with None => Null | Some b => At b 0 end)).
(** vector.hpp:366-368 end, cend *)
Definition vec_end (x : nat) : M world (pointer nat) := noexcept (
  p <- vec_begin x ;; n <- vec_size x ;; it_add p (to_diff n)).
(** vector.hpp:369-371 rbegin, crbegin: the iterator inside *)
Definition vec_rbegin (x : nat) : M world (pointer nat) := noexcept (vec_end x).
(** vector.hpp:372-374 rend, crend *)
Definition vec_rend (x : nat) : M world (pointer nat) := noexcept (vec_begin x).
End model.
