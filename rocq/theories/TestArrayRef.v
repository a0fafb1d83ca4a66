(** The test cases of /repo/test/array_ref.cpp, run in the model. They are a check of the model against what the
    authors expect of the code; the properties are in ArrayRefProps.v. const_iterators aside, array_ref<int> and
    array_ref<const int> are the same in the model; which ranges they take is in ArrayRefCtorProps.v, deduction
    (67-85) in TestStatic.v. *)
From stdpp Require Import prelude gmap.
From Coq Require Import ZArith.
From Verif Require Import Cpp IterModel ViewModel ArrayRefModel.
Local Open Scope Z_scope.

#[local] Instance cfg : ViewCfg := { wbits := 64 }.
#[local] Instance Z_dec : EqDecision Z := Z.eq_dec.
Definition require (b : bool) : M (world Z) unit := if b then ret tt else stuck NoObject.
Definition gives (m : M (world Z) Z) (v : Z) : M (world Z) unit := x <- m ;; require (x =? v).
Definition elem (x : nat) (i : Z) : M (world Z) Z := p <- ar_index x i ;; pread p.
Fixpoint reads (x : nat) (i : Z) (l : list Z) : M (world Z) unit :=
  match l with [] => ret tt | v :: l' => gives (elem x i) v ;;; reads x (i + 1) l' end.
Definition shows (x : nat) (l : list Z) : M (world Z) unit := gives (ar_size x) (Z.of_nat (length l)) ;;; reads x 0 l.
Definition passes (t : M (world Z) unit) : bool := match t init_world with Ok _ _ => true | _ => false end.
Definition ten : list Z := [0; 1; 2; 3; 4; 5; 6; 7; 8; 9].

(** test/array_ref.cpp:12-18 "array_ref ctor" *)
Example array_ref_ctor :
  passes (new_arr 0 ten ;;; ar_new_range 0 (RArr 0) ;;; ar_new_range 1 (RArr 0) ;;;
          gives (ar_size 0) 10 ;;; a <- pread (At 0%nat 0) ;; gives (elem 0 0) a) = true.
Proof. by vm_compute. Qed.
(** test/array_ref.cpp:20-32 "array_ref size": the empty vector has no memory *)
Example array_ref_size :
  passes (ar_new_range 0 REmpty ;;; ar_new_range 1 REmpty ;;; gives (ar_size 0) 0 ;;; gives (ar_size 1) 0 ;;;
          new_arr 0 (replicate 10 0) ;;; ar_new_range 2 (RArr 0) ;;; ar_new_range 3 (RArr 0) ;;;
          gives (ar_size 2) 10 ;;; gives (ar_size 3) 10) = true.
Proof. by vm_compute. Qed.
(** test/array_ref.cpp:34-65 "array_ref subviews" *)
Example array_ref_subviews :
  passes (new_arr 0 ten ;;; ar_new_range 0 (RArr 0) ;;;
          ar_first 1 0 3 ;;; shows 1 [0; 1; 2] ;;;
          ar_last 2 0 4 ;;; shows 2 [6; 7; 8; 9] ;;;
          ar_subrange 3 0 4 ;;; shows 3 [4; 5; 6; 7; 8; 9] ;;;
          ar_subrange_n 4 0 5 3 ;;; shows 4 [5; 6; 7]) = true.
Proof. by vm_compute. Qed.
