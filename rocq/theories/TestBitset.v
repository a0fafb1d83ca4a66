(** The test cases of /repo/test/bitset.cpp, run in the model. They are a check of the model against what the
    authors expect of the code; the properties are in BitsetProps.v. The comparison with std::bitset is by the
    bits that the operations of the test case set there. *)
From stdpp Require Import prelude gmap.
From Coq Require Import ZArith Ascii String.
From Verif Require Import Cpp BitsetModel BitsetIoModel.
Local Open Scope nat_scope.

Definition require (b : bool) : M bworld unit := if b then ret tt else stuck NoObject.
(** one call whose results do not matter *)
Definition do (Size : nat) (o : bop) : M bworld unit := bexec 64 Size o ;;; ret tt.
Definition gives (Size : nat) (o : bop) (r : bobs) : M bworld unit :=
  x <- bexec 64 Size o ;;
  require (match x, r with
           | BBool a, BBool b => Bool.eqb a b
           | BInt a, BInt b => (a =? b)%Z
           | _, _ => false
           end).
Fixpoint all_do (Size : nat) (os : list bop) : M bworld unit :=
  match os with [] => ret tt | o :: os' => do Size o ;;; all_do Size os' end.
(** REQUIRE(sb == pb), with the bits of [sb]: test/bitset.cpp:12-20 reads each bit by the const operator[] *)
Fixpoint reads_from (Size x i : nat) (l : list bool) : M bworld unit :=
  match l with [] => ret tt | b :: l' => gives Size (BIndex x i) (BBool b) ;;; reads_from Size x (S i) l' end.
Definition reads (Size x : nat) (l : list bool) : M bworld unit :=
  require (List.length l =? Size) ;;; reads_from Size x 0 l.
(** the bits of std::bitset<Size> with exactly the bits [js] set *)
Definition bits_at (Size : nat) (js : list nat) : list bool := (λ i, existsb (Nat.eqb i) js) <$> seq 0 Size.
Definition passes (t : M bworld unit) : bool := match t ∅ with Ok _ _ => true | _ => false end.

(** test/bitset.cpp:23-35 "bitset ctor" *)
Example bitset_ctor :
  passes (do 10 (BNew 0) ;;; reads 10 0 (bits_at 10 [])) = true
  ∧ passes (do 10 (BNewInt 0 85) ;;; reads 10 0 (bits_at 10 [0; 2; 4; 6])) = true
  ∧ passes (do 4 (BNewInt 0 85) ;;; reads 4 0 (bits_at 4 [0; 2])) = true.
Proof. by vm_compute. Qed.

(** test/bitset.cpp:37-56 "bitset io": the characters written are those to be read *)
Definition printed (Size : nat) (b : bitset) : option (list ascii) :=
  match bs_print Size b with Ok l _ => Some l | _ => None end.
(** ss << "..." on a stream, which does nothing unless the state is good *)
Definition put_text (t : list ascii) (s : istream) : istream :=
  if good s then IStream (rest s ++ t) (past s) (eofbit s) (failbit s) (badbit s) (skipws s) else setstate false true false s.
Definition extracted (Size : nat) (s : istream) : option (bitset * istream) :=
  match bs_extract Size (bs_default Size, s) with Ok _ r => Some r | _ => None end.
Definition five : bitset := [8%Z].
Example bitset_io :
  printed 5 five = Some (list_ascii_of_string "01000")
  ∧ ∃ s1 s2 s3 : istream,
      extracted 5 (put_text (list_ascii_of_string "01000") (IStream [] [] false false false true)) = Some (five, s1)
      ∧ extracted 1 (put_text (list_ascii_of_string "10") s1) = Some ([1%Z], s2)
      ∧ extracted 1 s2 = Some ([0%Z], s3).
Proof. split; [by vm_compute|]. do 3 eexists. split; [by vm_compute|]. split; by vm_compute. Qed.

(** test/bitset.cpp:58-83 "bitset set" *)
Definition test_set : M bworld unit :=
  do 10 (BNew 0) ;;; do 10 (BSet 0 5 true) ;;; do 10 (BSet 0 8 true) ;;; reads 10 0 (bits_at 10 [5; 8]) ;;;
  do 10 (BSetAll 0) ;;; reads 10 0 (bits_at 10 (seq 0 10)) ;;;
  do 10 (BSet 0 1 false) ;;; reads 10 0 (bits_at 10 [0; 2; 3; 4; 5; 6; 7; 8; 9]) ;;;
  do 10 (BReset 0 5) ;;; reads 10 0 (bits_at 10 [0; 2; 3; 4; 6; 7; 8; 9]) ;;;
  do 10 (BResetAll 0) ;;; reads 10 0 (bits_at 10 []).
Example bitset_set : passes test_set = true. Proof. by vm_compute. Qed.

(** test/bitset.cpp:85-134 "bitset count" *)
Definition summary (n : Z) (none any all : bool) : M bworld unit :=
  gives 10 (BCount 0) (BInt n) ;;; gives 10 (BNoneQ 0) (BBool none) ;;; gives 10 (BAnyQ 0) (BBool any) ;;;
  gives 10 (BAllQ 0) (BBool all).
Definition tests (i : nat) (b : bool) : M bworld unit := gives 10 (BTest 0 i) (BBool b).
Definition test_count : M bworld unit :=
  do 10 (BNew 0) ;;; summary 0 true false false ;;;
  do 10 (BSet 0 1 true) ;;; tests 1 true ;;; tests 0 false ;;; summary 1 false true false ;;;
  do 10 (BSet 0 4 true) ;;; tests 1 true ;;; tests 3 false ;;; tests 4 true ;;; summary 2 false true false ;;;
  do 10 (BSetAll 0) ;;; summary 10 false true true ;;;
  do 10 (BResetAll 0) ;;; summary 0 true false false ;;;
  do 10 (BFlipAll 0) ;;; summary 10 false true true ;;;
  do 10 (BFlip 0 5) ;;; tests 0 true ;;; tests 5 false ;;; summary 9 false true false.
Example bitset_count : passes test_count = true. Proof. by vm_compute. Qed.

(** test/bitset.cpp:136-160 "bitset bitwise"; a copy of the first operand is 3 *)
Definition test_bitwise : M bworld unit :=
  all_do 10 [BNew 0; BNew 1; BNew 2; BSet 0 0 true; BSet 0 2 true; BSet 0 4 true; BSet 0 6 true; BSet 0 8 true;
             BSet 1 0 true; BSet 1 3 true; BSet 1 6 true; BSet 1 9 true] ;;;
  all_do 10 [BSetAll 2; BReset 2 1; BReset 2 5; BReset 2 7; BCopy 3 0; BOr 3 1] ;;;
  gives 10 (BEqual 3 2) (BBool true) ;;;
  all_do 10 [BResetAll 2; BSet 2 0 true; BSet 2 6 true; BCopy 3 0; BAnd 3 1] ;;;
  gives 10 (BEqual 3 2) (BBool true) ;;;
  all_do 10 [BResetAll 2; BSet 2 2 true; BSet 2 3 true; BSet 2 4 true; BSet 2 8 true; BSet 2 9 true;
             BCopy 3 0; BXor 3 1] ;;;
  gives 10 (BEqual 3 2) (BBool true).
Example bitset_bitwise : passes test_bitwise = true. Proof. by vm_compute. Qed.

(** test/bitset.cpp:162-192 "bitset shifting" *)
Definition test_shift : M bworld unit :=
  all_do 10 [BNew 0; BNew 1; BSet 0 0 true; BShl 0 1; BSet 1 1 true] ;;; gives 10 (BEqual 0 1) (BBool true) ;;;
  all_do 10 [BShl 0 7; BResetAll 1; BSet 1 8 true] ;;; gives 10 (BEqual 0 1) (BBool true) ;;;
  all_do 10 [BShr 0 3; BResetAll 1; BSet 1 5 true] ;;; gives 10 (BEqual 0 1) (BBool true) ;;;
  all_do 10 [BShr 0 9; BResetAll 1] ;;; gives 10 (BEqual 0 1) (BBool true) ;;;
  all_do 10 [BSet 0 0 true; BShl 0 10] ;;; gives 10 (BEqual 0 1) (BBool true).
Example bitset_shifting : passes test_shift = true. Proof. by vm_compute. Qed.

(** test/bitset.cpp:194-203 "bitset swapping" *)
Definition test_swap : M bworld unit :=
  all_do 10 [BNewInt 1 170; BNewInt 2 85; BCopy 3 1; BCopy 4 2] ;;;
  gives 10 (BEqual 1 3) (BBool true) ;;; gives 10 (BEqual 2 4) (BBool true) ;;;
  do 10 (BSwap 3 4) ;;;
  gives 10 (BEqual 1 4) (BBool true) ;;; gives 10 (BEqual 2 3) (BBool true).
Example bitset_swapping : passes test_swap = true. Proof. by vm_compute. Qed.

(** test/bitset.cpp:205-212 "bitset structured binding"; the names are bound by a reference to const *)
Definition test_binding : M bworld unit :=
  all_do 3 [BNew 0; BSet 0 1 true] ;;;
  gives 3 (BIndex 0 0) (BBool false) ;;; gives 3 (BIndex 0 1) (BBool true) ;;; gives 3 (BIndex 0 2) (BBool false).
Example bitset_structured_binding : passes test_binding = true. Proof. by vm_compute. Qed.

(** test/bitset.cpp:225-236 "bitset operator bool" *)
Definition converts (b : bool) : M bworld unit := x <- on_bs 0 (bs_to_bool 4) ;; require (Bool.eqb x b).
Definition test_bool : M bworld unit :=
  do 4 (BNew 0) ;;; converts false ;;; do 4 (BSet 0 0 true) ;;; converts true ;;; do 4 (BReset 0 0) ;;; converts false ;;;
  do 4 (BSetAll 0) ;;; converts true ;;; do 4 (BResetAll 0) ;;; converts false.
Example bitset_operator_bool : passes test_bool = true. Proof. by vm_compute. Qed.
