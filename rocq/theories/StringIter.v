(** Model of begin(), end(), ... of /repo/inc/ptl/string.hpp. The characters of a string lie in
    its inline buffer or in a block; its iterators are those of IterModel.v. *)
From stdpp Require Import prelude gmap.
From Coq Require Import ZArith.
From Verif Require Import Cpp StringModel IterModel.
Local Open Scope Z_scope.

Section model.
Context `{C : StrCfg}.
Notation bufid := (nat + nat)%type.

Global Instance string_arrays : Arrays world bufid char := {
  extent b w := (λ c, Z.of_nat (length c)) <$> mem w !! b;
  load b i := if 0 <=? i then rd (b, Z.to_nat i) else stuck OutOfBounds;
  store b i v := if 0 <=? i then wr (b, Z.to_nat i) v else stuck OutOfBounds;
}.
(** a std::size_t converted to std::ptrdiff_t *)
Definition to_diff (n : nat) : Z :=
  if Z.of_nat n <? 2 ^ (Z.of_nat wbits - 1) then Z.of_nat n else Z.of_nat n - 2 ^ Z.of_nat wbits.

(** string.hpp:555-557 begin, cbegin *)
Definition str_begin (x : nat) : M world (pointer bufid) := noexcept (
  d <- str_data x ;; ret (At d.1 (Z.of_nat d.2))).
(** string.hpp:558-560 end, cend *)
Definition str_end (x : nat) : M world (pointer bufid) := noexcept (
  p <- str_begin x ;; n <- str_size x ;; it_add p (to_diff n)).
(** string.hpp:561-563 rbegin, crbegin: the iterator inside *)
Definition str_rbegin (x : nat) : M world (pointer bufid) := noexcept (str_end x).
(** string.hpp:564-566 rend, crend *)
Definition str_rend (x : nat) : M world (pointer bufid) := noexcept (str_begin x).
End model.
