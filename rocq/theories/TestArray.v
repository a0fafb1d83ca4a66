(** The test cases of /repo/test/array.cpp, run in the model. They are a check of the model against what the
    authors expect of the code; the properties are in ArrayProps.v. The sizes checked by the static_asserts
    (10-11) and deduction (12-13, 71-76) are in TestStatic.v. *)
From stdpp Require Import prelude gmap.
From Coq Require Import ZArith.
From Verif Require Import Cpp IterModel OrderModel ArrayModel.
Local Open Scope Z_scope.

Section tests.
Context `{C : ArrCfg}.
Definition require (b : bool) : M world unit := if b then ret tt else stuck NoObject.
Definition holds (m : M world bool) : M world unit := b <- m ;; require b.
Definition untrue (m : M world bool) : M world unit := b <- m ;; require (negb b).
Definition same `{EqDecision V} (a b : M world V) : M world unit := x <- a ;; y <- b ;; require (bool_decide (x = y)).
Definition value (m : M world (pointer nat)) : M world V := p <- m ;; pread p.
(** for(const auto & tmp : arr): from begin() to end() *)
Fixpoint loop (f : V → M world unit) (n : nat) (p last : pointer nat) : M world unit :=
  match n with
  | O => require (bool_decide (p = last))
  | S n' => v <- pread p ;; f v ;;; q <- it_inc p ;; loop f n' q last
  end.
Definition for_each (x : nat) (f : V → M world unit) : M world unit :=
  b <- arr_begin x ;; e <- arr_end x ;; n <- distance b e ;; loop f n b e.
Fixpoint leave (xs : list nat) : M world unit :=
  match xs with [] => ret tt | x :: xs' => leave xs' ;;; arr_destroy x end.
Definition passes (t : M world unit) : bool :=
  match t init_world with Ok _ w => bool_decide (arrs w = ∅) | _ => false end.
End tests.

#[local] Instance Z_dec : EqDecision Z := Z.eq_dec.
#[local] Instance Z_cmp : EltCmp Z := { elt_lt := Z.ltb; elt_eq := Z.eqb }.
Definition ints (n : nat) : ArrCfg :=
  {| V := Z; Size := n; moved := id; selfmove := id; torn := λ _ v, v; dflt := 0; wbits := 64; fails := λ _, false |}.
#[local] Instance ten : ArrCfg := ints 10.
Definition vals (l : list Z) : list (@arg ten) := (λ v, AMove (RVal (v : @V ten))) <$> l.
Definition is (v : Z) (u : @V ten) : M (@world ten) unit := require (u =? v).

(** test/array.cpp:15-22 "array ctor" *)
Fixpoint counts (x : nat) (f : Z → Z) (l : list nat) : M (@world ten) unit :=
  match l with [] => ret tt | i :: l' => v <- value (arr_index x (Z.of_nat i)) ;; is (f (Z.of_nat i)) v ;;; counts x f l' end.
Definition test_ctor : M (@world ten) unit :=
  arr_new 0 [] ;;; for_each 0 (is 0) ;;;
  arr_new 1 (vals [0; 1; 2; 3; 4; 5; 6; 7; 8; 9]) ;;; counts 1 (λ i, i) (seq 0 (Z.to_nat arr_size)) ;;;
  arr_new 2 (vals [9; 8; 7; 6; 5; 4; 3; 2; 1]) ;;; counts 2 (λ i, (arr_size - 1) - i) (seq 0 (Z.to_nat arr_size)) ;;;
  leave [0%nat; 1%nat; 2%nat].
Example array_ctor : passes test_ctor = true.
Proof. by vm_compute. Qed.

(** test/array.cpp:42-46 "array fill" *)
Definition test_fill : M (@world ten) unit := arr_new 0 [] ;;; arr_fill 0 (RVal (10 : @V ten)) ;;; for_each 0 (is 10) ;;; leave [0%nat].
Example array_fill : passes test_fill = true.
Proof. by vm_compute. Qed.

(** test/array.cpp:24-31 "array size" *)
Definition test_size (c : ArrCfg) (n : Z) : M (@world c) unit :=
  arr_new 0 [] ;;; require (arr_size =? n) ;;; require (arr_max_size =? n) ;;; leave [0%nat].
Example array_size : @passes (ints 10) (test_size (ints 10) 10) = true ∧ @passes (ints 0) (test_size (ints 0) 0) = true.
Proof. split; by vm_compute. Qed.

#[local] Instance three : ArrCfg := ints 3.
Definition vals3 (l : list Z) : list (@arg three) := (λ v, AMove (RVal (v : @V three))) <$> l.
#[local] Instance three_cmp : EltCmp (@V three) := Z_cmp.
#[local] Instance three_dec : EqDecision (@V three) := Z_dec.
(** test/array.cpp:33-40 "array comparison" *)
Definition test_cmp : M (@world three) unit :=
  arr_new 0 (vals3 [0; 1; 2]) ;;; arr_new_copy 1 0 ;;; holds (arr_eq 0 1) ;;; untrue (arr_lt 0 1) ;;;
  arr_new 2 (vals3 [0; 1; 3]) ;;; holds (arr_lt 0 2) ;;; untrue (arr_eq 0 2) ;;; leave [0%nat; 1%nat; 2%nat].
Example array_comparison : passes test_cmp = true.
Proof. by vm_compute. Qed.

(** test/array.cpp:48-61 "array swapping" *)
Definition test_swap : M (@world three) unit :=
  arr_new 0 (vals3 [0; 1; 2]) ;;; arr_new 1 (vals3 [3; 4; 5]) ;;; arr_new_copy 2 0 ;;; arr_new_copy 3 1 ;;;
  holds (arr_eq 0 2) ;;; holds (arr_eq 1 3) ;;; holds (arr_ne 0 1) ;;;
  arr_swap 0 1 ;;; holds (arr_eq 0 3) ;;; holds (arr_eq 1 2) ;;; holds (arr_ne 0 1) ;;;
  leave [0%nat; 1%nat; 2%nat; 3%nat].
Example array_swapping : passes test_swap = true.
Proof. by vm_compute. Qed.

(** test/array.cpp:63-69 "array structured_binding": object 1 is the hidden copy that the names refer to *)
Definition test_binding : M (@world three) unit :=
  arr_new 0 (vals3 [0; 1; 2]) ;;; arr_new_copy 1 0 ;;;
  same (value (arr_get 0 1)) (value (arr_index 0 0)) ;;;
  same (value (arr_get 1 1)) (value (arr_index 0 1)) ;;;
  same (value (arr_get 2 1)) (value (arr_index 0 2)) ;;; leave [0%nat; 1%nat].
Example array_structured_binding : passes test_binding = true.
Proof. by vm_compute. Qed.
