(** The test cases of /repo/test/tuple.cpp, run in the model. They are a check of the model against what the
    authors expect of the code; the properties are in TupleProps.v. The sizes checked by the
    static_asserts (10-12), the types of get (14-21) and deduction (76-85) are in TestStatic.v. *)
From stdpp Require Import prelude gmap.
From Coq Require Import ZArith.
From Verif Require Import Cpp TupleModel.
Local Open Scope nat_scope.

Section tests.
Context `{C : TupCfg}.
Definition require (b : bool) : M world unit := if b then ret tt else stuck NoObject.
Definition holds (m : M world bool) : M world unit := b <- m ;; require b.
Definition untrue (m : M world bool) : M world unit := b <- m ;; require (negb b).
Definition value (m : M world sub) : M world V := s <- m ;; rd s.
Definition set (m : M world sub) (v : V) : M world unit := s <- m ;; wr s v.
Definition same `{EqDecision V} (a b : M world V) : M world unit := x <- a ;; y <- b ;; require (bool_decide (x = y)).
Fixpoint leave (xs : list nat) : M world unit :=
  match xs with [] => ret tt | x :: xs' => leave xs' ;;; tup_destroy x end.
Definition passes (t : M world unit) : bool :=
  match t init_world with Ok _ w => bool_decide (tups w = ∅) | _ => false end.
End tests.

(** the types int, float and bool; their values as integers *)
Inductive kind := Int | Float | Bool.
#[local] Instance Z_dec : EqDecision Z := Z.eq_dec.
Definition cfg (l : list kind) : TupCfg :=
  {| K := kind; Types := l; V := Z; moved := id; selfmove := id; torn := λ _ v, v; fails := λ _, false |}.
Definition t_lt : kind → Z → Z → bool := λ _, Z.ltb.
Definition t_eq : kind → Z → Z → bool := λ _, Z.eqb.

(** tuple.cpp's tuple<> *)
#[local] Instance none : TupCfg := cfg [].
(** test/tuple.cpp:35-39 *)
Definition test_ctor_empty : M (@world none) unit :=
  tup_new 0 [] ;;; tup_new_copy 1 0 ;;; tup_new 2 [] ;;; tup_copy_assign 2 0 ;;; leave [0; 1; 2].
(** test/tuple.cpp:63-65 *)
Definition test_cmp_empty : M (@world none) unit :=
  tup_new 0 [] ;;; tup_new 1 [] ;;; untrue (tup_lt t_lt 0 1) ;;; holds (tup_eq t_eq 0 1) ;;; leave [0; 1].
Example tuple_empty : passes test_ctor_empty = true ∧ passes test_cmp_empty = true.
Proof. split; by vm_compute. Qed.

#[local] Instance ifb : TupCfg := cfg [Int; Float; Bool].
Definition vals (l : list Z) : list (@arg ifb) := (λ v, AMove (RVal (v : @V ifb))) <$> l.
#[local] Instance ifb_dec : EqDecision (@V ifb) := Z_dec.
(** test/tuple.cpp:23-40 "tuple ctor" *)
Definition agree (x y : nat) : M (@world ifb) unit :=
  same (value (tup_get 0 x)) (value (tup_get 0 y)) ;;; same (value (tup_get 1 x)) (value (tup_get 1 y)) ;;;
  same (value (tup_get 2 x)) (value (tup_get 2 y)).
Definition test_ctor : M (@world ifb) unit :=
  tup_new 0 (vals [5; 1; 1]%Z) ;;; tup_new_copy 1 0 ;;; agree 0 1 ;;;
  tup_new 2 (vals [1; 0; 0]%Z) ;;; tup_copy_assign 2 1 ;;; agree 0 2 ;;; leave [0; 1; 2].
Example tuple_ctor : passes test_ctor = true.
Proof. by vm_compute. Qed.

(** test/tuple.cpp:42-50 "tuple swapping"; objects 0 and 1 are ref0 and ref1, 2 and 3 are tup0 and tup1 *)
Definition test_swap : M (@world ifb) unit :=
  tup_new 0 (vals [5; 1; 1]%Z) ;;; tup_new 1 (vals [1; 0; 0]%Z) ;;; tup_new_copy 2 0 ;;; tup_new_copy 3 1 ;;;
  holds (tup_eq t_eq 2 0) ;;; holds (tup_eq t_eq 3 1) ;;; tup_swap 2 3 ;;;
  holds (tup_eq t_eq 2 1) ;;; holds (tup_eq t_eq 3 0) ;;; leave [0; 1; 2; 3].
Example tuple_swapping : passes test_swap = true.
Proof. by vm_compute. Qed.

(** test/tuple.cpp:52-66 "tuple comparison" *)
Definition test_cmp : M (@world ifb) unit :=
  tup_new 0 (vals [5; 1; 1]%Z) ;;; tup_new 1 (vals [1; 0; 0]%Z) ;;; holds (tup_lt t_lt 1 0) ;;;
  set (tup_get 0 0) (1%Z : @V ifb) ;;; holds (tup_lt t_lt 1 0) ;;;
  set (tup_get 1 0) (0%Z : @V ifb) ;;; holds (tup_lt t_lt 1 0) ;;;
  set (tup_get 2 0) (0%Z : @V ifb) ;;; untrue (tup_lt t_lt 1 0) ;;; holds (tup_eq t_eq 1 0) ;;; leave [0; 1].
Example tuple_comparison : passes test_cmp = true.
Proof. by vm_compute. Qed.

(** test/tuple.cpp:68-74 "tuple structured binding": object 1 is the hidden copy that the names refer to *)
Definition test_binding : M (@world ifb) unit :=
  tup_new 0 (vals [5; 1; 1]%Z) ;;; tup_new_copy 1 0 ;;; agree 1 0 ;;; leave [0; 1].
Example tuple_structured_binding : passes test_binding = true.
Proof. by vm_compute. Qed.
