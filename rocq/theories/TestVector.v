(** The test cases of /repo/test/vector.cpp, run in the model. They are a check of the model against what the
    authors expect of the code; the properties are in VectorProps.v.

    At the end of each test case its vectors are destroyed; nothing may be left in memory. *)
From stdpp Require Import prelude gmap.
From Coq Require Import ZArith.
From Verif Require Import Cpp VectorModel OrderModel.
Local Open Scope nat_scope.

(** int elements; a std::size_t of 12 bits, as max_size() is computed in unary *)
Local Instance ints : VecCfg :=
  {| V := nat; moved := λ v, v; selfmove := λ v, v; dflt := 0; wbits := 12; szT := 1;
     alloc_fails := λ _, false; ctor_fails := λ _, false; running := λ _, 0 |}.
Local Instance cmp_ints : EltCmp V := {| elt_lt := Nat.ltb; elt_eq := Nat.eqb |}.

Definition require (b : bool) : M world unit := if b then ret tt else stuck NoObject.
Definition vals (l : list nat) : range := @RVals ints l.
(** REQUIRE(v == ptl::vector{...}) *)
Definition is (x : nat) (l : list nat) : M world unit :=
  vec_new_range 99 (vals l) ;;; b <- vec_eq x 99 ;; vec_destroy 99 ;;; require b.
Definition is_empty (x : nat) (e : bool) : M world unit := b <- vec_empty x ;; require (Bool.eqb b e).
Definition has_size (x n : nat) : M world unit := k <- vec_size x ;; require (k =? n).
Definition same (x y : nat) (e : bool) : M world unit := b <- vec_eq x y ;; require (Bool.eqb b e).
Definition differ (x y : nat) : M world unit := b <- vec_ne x y ;; require b.
Fixpoint elements (x i : nat) (l : list nat) : M world unit :=
  match l with [] => ret tt | v :: l' => (r <- @vec_index ints x i ;; require (r =? v)) ;;; elements x (S i) l' end.
Fixpoint finish (xs : list nat) : M world unit :=
  match xs with [] => ret tt | x :: xs' => vec_destroy x ;;; finish xs' end.
Definition returns (m : M world nat) (n : nat) : M world unit := r <- m ;; require (r =? n).
Definition passes (t : M world unit) : bool :=
  match t init_world with
  | Ok _ w => bool_decide (map_to_list (objs w) = []) && bool_decide (dom (heap w) = ∅)
  | _ => false
  end.

(** test/vector.cpp:13-36 "vector ctor" *)
Definition test_ctor : M world unit :=
  vec_new 0 ;;; is_empty 0 true ;;;
  vec_new_range 1 (vals (seq 0 10)) ;;; has_size 1 10 ;;; elements 1 0 (seq 0 10) ;;;
  vec_new_input 2 (seq 0 10 : list V) ;;; same 2 1 true ;;;
  vec_new_range 3 (RElems 1 0 10) ;;; same 3 1 true ;;;
  vec_new_count 4 10 ;;; has_size 4 10 ;;; is 4 (replicate 10 0) ;;;
  vec_new_fill 5 10 (CVal (1 : V)) ;;; has_size 5 10 ;;; is 5 (replicate 10 1) ;;;
  finish [5; 4; 3; 2; 1; 0].
Example vector_ctor : passes test_ctor = true. Proof. by vm_compute. Qed.

(** test/vector.cpp:38-47 "vector copy" *)
Definition test_copy : M world unit :=
  vec_new_range 0 (vals (rev (seq 0 10))) ;;; has_size 0 10 ;;;
  vec_new_copy 1 0 ;;; same 0 1 true ;;;
  vec_new 2 ;;; vec_copy_assign 2 1 ;;; same 2 1 true ;;;
  finish [2; 1; 0].
Example vector_copy : passes test_copy = true. Proof. by vm_compute. Qed.

(** test/vector.cpp:49-62 "vector move" *)
Definition test_move : M world unit :=
  vec_new_range 0 (vals (rev (seq 0 10))) ;;; has_size 0 10 ;;;
  vec_new_move 1 0 ;;; is_empty 0 true ;;; has_size 1 10 ;;; differ 1 0 ;;;
  vec_new 2 ;;; vec_move_assign 2 1 ;;; is_empty 1 true ;;; has_size 2 10 ;;; differ 2 1 ;;;
  finish [2; 1; 0].
Example vector_move : passes test_move = true. Proof. by vm_compute. Qed.

(** test/vector.cpp:64-71 "vector swapping" *)
Definition test_swap : M world unit :=
  vec_new_range 0 (vals [0; 1; 2; 3; 4]) ;;; vec_new_range 1 (vals [5; 6; 7; 8; 9]) ;;;
  vec_swap 0 1 ;;; elements 0 0 (seq 5 5) ;;; elements 1 0 (seq 0 5) ;;;
  finish [1; 0].
Example vector_swapping : passes test_swap = true. Proof. by vm_compute. Qed.

(** test/vector.cpp:73-93 "vector resize" *)
Definition test_resize : M world unit :=
  vec_new_range 0 (vals (seq 1 9)) ;;;
  vec_resize 0 3 ;;; is 0 [1; 2; 3] ;;;
  vec_resize 0 5 ;;; is 0 [1; 2; 3; 0; 0] ;;;
  vec_resize 0 5 ;;; is 0 [1; 2; 3; 0; 0] ;;;
  vec_resize_fill 0 2 (CVal (10 : V)) ;;; is 0 [1; 2] ;;;
  vec_resize_fill 0 5 (CVal (10 : V)) ;;; is 0 [1; 2; 10; 10; 10] ;;;
  vec_resize_fill 0 5 (CVal (20 : V)) ;;; is 0 [1; 2; 10; 10; 10] ;;;
  finish [0].
Example vector_resize : passes test_resize = true. Proof. by vm_compute. Qed.

(** test/vector.cpp:95-107 "vector clear"; push_back returns the element, here its position *)
Definition test_clear : M world unit :=
  vec_new 0 ;;; is_empty 0 true ;;;
  vec_clear 0 ;;; is_empty 0 true ;;;
  (i <- vec_push_back 0 (ECopy (CVal (0 : V))) ;; elements 0 i [0]) ;;; is_empty 0 false ;;;
  vec_clear 0 ;;; is_empty 0 true ;;;
  finish [0].
Example vector_clear : passes test_clear = true. Proof. by vm_compute. Qed.

(** test/vector.cpp:109-120 "vector erase" *)
Definition test_erase : M world unit :=
  vec_new_range 0 (vals [0; 0; 0; 10; 11; 12; 13; 14; 0; 0; 0; 99; 20; 21; 22; 23; 24; 0; 0; 0]) ;;;
  returns (vec_erase 0 0 3) 0 ;;;
  is 0 [10; 11; 12; 13; 14; 0; 0; 0; 99; 20; 21; 22; 23; 24; 0; 0; 0] ;;;
  (i <- vec_erase 0 5 8 ;; elements 0 i [99]) ;;;
  is 0 [10; 11; 12; 13; 14; 99; 20; 21; 22; 23; 24; 0; 0; 0] ;;;
  (n <- vec_size 0 ;; i <- vec_erase 0 (n - 3) n ;; k <- vec_size 0 ;; require (i =? k)) ;;;
  is 0 [10; 11; 12; 13; 14; 99; 20; 21; 22; 23; 24] ;;;
  finish [0].
Example vector_erase : passes test_erase = true. Proof. by vm_compute. Qed.

(** test/vector.cpp:122-147 "vector insert" *)
Definition test_insert : M world unit :=
  let x : list V := [99; 98; 97] in
  vec_new_range 0 (vals [10; 11; 12; 13; 14; 20; 21; 22; 23; 24]) ;;;
  returns (vec_insert_input 0 0 x) 0 ;;;
  is 0 [99; 98; 97; 10; 11; 12; 13; 14; 20; 21; 22; 23; 24] ;;;
  returns (vec_insert_input 0 8 x) 8 ;;;
  is 0 [99; 98; 97; 10; 11; 12; 13; 14; 99; 98; 97; 20; 21; 22; 23; 24] ;;;
  (n <- vec_size 0 ;; i <- vec_insert_input 0 n x ;; k <- vec_size 0 ;; require (i =? k - 3)) ;;;
  is 0 [99; 98; 97; 10; 11; 12; 13; 14; 99; 98; 97; 20; 21; 22; 23; 24; 99; 98; 97] ;;;
  returns (vec_insert_fill 0 0 2 (CVal (55 : V))) 0 ;;;
  is 0 [55; 55; 99; 98; 97; 10; 11; 12; 13; 14; 99; 98; 97; 20; 21; 22; 23; 24; 99; 98; 97] ;;;
  returns (vec_insert_fill 0 10 2 (CVal (55 : V))) 10 ;;;
  is 0 [55; 55; 99; 98; 97; 10; 11; 12; 13; 14; 55; 55; 99; 98; 97; 20; 21; 22; 23; 24; 99; 98; 97] ;;;
  (n <- vec_size 0 ;; i <- vec_insert_fill 0 n 2 (CVal (55 : V)) ;; k <- vec_size 0 ;; require (i =? k - 2)) ;;;
  is 0 [55; 55; 99; 98; 97; 10; 11; 12; 13; 14; 55; 55; 99; 98; 97; 20; 21; 22; 23; 24; 99; 98; 97; 55; 55] ;;;
  finish [0].
Example vector_insert : passes test_insert = true. Proof. by vm_compute. Qed.

(** test/vector.cpp:149-162 "vector assign" *)
Definition test_assign : M world unit :=
  vec_new 0 ;;; vec_assign_input 0 (seq 0 10 : list V) ;;; is 0 (seq 0 10) ;;;
  vec_assign_range 0 (vals [1; 2; 3]) ;;; is 0 [1; 2; 3] ;;;
  vec_assign_fill 0 4 (CVal (1 : V)) ;;; is 0 [1; 1; 1; 1] ;;;
  finish [0].
Example vector_assign : passes test_assign = true. Proof. by vm_compute. Qed.
