(** The test cases of /repo/test/optional.cpp, run in the model. They are a check of the model against what the
    authors expect of the code; the properties are in OptionalProps.v. The sizes checked by the static_asserts
    (12-16) and deduction (116-119) are in TestStatic.v. *)
From stdpp Require Import prelude gmap.
From Coq Require Import ZArith String.
From Verif Require Import Cpp OrderSpec OptionalModel.
Local Open Scope nat_scope.

Section tests.
Context `{C : OptCfg}.
Definition require (b : bool) : M world unit := if b then ret tt else stuck NoObject.
Definition holds (m : M world bool) : M world unit := b <- m ;; require b.
Definition fails (m : M world bool) : M world unit := b <- m ;; require (negb b).
(** REQUIRE_THROWS, REQUIRE_NOTHROW *)
Definition throws {A} (m : M world A) : M world unit := λ w,
  match m w with Exn _ w' => Ok tt w' | Ok _ _ => Stuck NoObject | Stuck f => Stuck f | Terminated => Terminated end.
Definition nothrow {A} (m : M world A) : M world unit := λ w,
  match m w with Ok _ w' => Ok tt w' | Exn _ _ => Stuck NoObject | Stuck f => Stuck f | Terminated => Terminated end.
Definition gives `{EqDecision V} (m : M world V) (v : V) : M world unit := x <- m ;; require (bool_decide (x = v)).
(** the objects go out of scope in the reverse order *)
Fixpoint leave (xs : list nat) : M world unit :=
  match xs with [] => ret tt | x :: xs' => leave xs' ;;; opt_destroy x end.
Definition passes (t : M world unit) : bool :=
  match t init_world with Ok _ w => bool_decide (objs w = ∅) | _ => false end.
End tests.

(** ptl::optional<int>, and optional<float> with values that are integers *)
#[local] Instance ints : OptCfg :=
  { V := Z; moved := id; selfmove := id; torn := λ _ v, v; make l := List.hd 0%Z l; copy_fails := λ _, false }.
#[local] Instance ints_ops : SixOps (@V ints) := λ x y, answers_for (Z.compare x y).
#[local] Instance ints_dec : EqDecision (@V ints) := Z.eq_dec.

(** test/optional.cpp:18-36 "optional ctor" *)
Definition test_ctor : M (@world ints) unit :=
  opt_new 1 ;;; fails (opt_has_value 1) ;;;
  opt_assign_rvalue 1 (RVal 1%Z) ;;; holds (opt_has_value 1) ;;; gives (opt_deref 1) 1%Z ;;;
  opt_new_value 2 (AMake [RVal 5%Z]) ;;; holds (opt_has_value 2) ;;; gives (opt_deref 2) 5%Z ;;;
  opt_new 3 ;;; fails (opt_has_value 3) ;;;
  opt_emplace 3 (AMake [RVal 10%Z]) ;;; holds (opt_has_value 3) ;;; gives (opt_deref 3) 10%Z ;;;
  leave [1; 2; 3].
Example optional_ctor : passes test_ctor = true.
Proof. by vm_compute. Qed.

(** test/optional.cpp:38-46 "optional copy" *)
Definition test_copy : M (@world ints) unit :=
  opt_new 1 ;;; opt_new_copy 2 1 ;;; holds (oo_eq 1 2) ;;;
  opt_new_rvalue 3 (RVal 5%Z) ;;; opt_copy_assign 2 3 ;;; holds (oo_eq 3 2) ;;;
  leave [1; 2; 3].
Example optional_copy : passes test_copy = true.
Proof. by vm_compute. Qed.

(** test/optional.cpp:59-73 "optional value" *)
Definition test_value : M (@world ints) unit :=
  opt_new 1 ;;; fails (opt_has_value 1) ;;; gives (opt_value_or 1 (AMove (RVal 10%Z))) 10%Z ;;; throws (opt_value 1) ;;;
  opt_assign_rvalue 1 (RVal 20%Z) ;;; holds (opt_has_value 1) ;;; gives (opt_value_or 1 (AMove (RVal 10%Z))) 20%Z ;;;
  nothrow (opt_value 1) ;;;
  opt_assign_null 1 ;;; fails (opt_has_value 1) ;;; gives (opt_value_or 1 (AMove (RVal 10%Z))) 10%Z ;;; throws (opt_value 1) ;;;
  leave [1].
Example optional_value : passes test_value = true.
Proof. by vm_compute. Qed.

(** test/optional.cpp:92-103 "optional swapping" *)
Definition test_swap : M (@world ints) unit :=
  opt_new_rvalue 1 (RVal 5%Z) ;;; opt_new_rvalue 2 (RVal 10%Z) ;;; opt_swap 1 2 ;;;
  gives (opt_deref 1) 10%Z ;;; gives (opt_deref 2) 5%Z ;;;
  opt_new 3 ;;; opt_swap 1 3 ;;; fails (opt_has_value 1) ;;; holds (opt_has_value 3) ;;; gives (opt_deref 3) 10%Z ;;;
  leave [1; 2; 3].
Example optional_swapping : passes test_swap = true.
Proof. by vm_compute. Qed.

(** test/optional.cpp:105-114 "optional comparison" *)
Definition test_cmp : M (@world ints) unit :=
  opt_new 1 ;;; opt_new_rvalue 2 (RVal 5%Z) ;;; opt_new_rvalue 3 (RVal 10%Z) ;;; opt_new 4 ;;; opt_new_rvalue 5 (RVal 10%Z) ;;;
  holds (oo_ne 1 2) ;;; holds (oo_ne 1 3) ;;; holds (oo_eq 1 4) ;;; holds (oo_ne 1 5) ;;;
  holds (oo_lt 2 3) ;;; holds (oo_lt 2 5) ;;; holds (oo_eq 3 5) ;;;
  leave [1; 2; 3; 4; 5].
Example optional_comparison : passes test_cmp = true.
Proof. by vm_compute. Qed.

(** test/optional.cpp:48-57 "optional move", with the type of test/utils.hpp that cannot be copied and
    remembers whether it was moved from *)
#[local] Instance moveables : OptCfg :=
  { V := bool; moved := λ _, true; selfmove := λ _, true; torn := λ _ v, v; make := λ _, false; copy_fails := λ _, true }.
Definition test_move : M (@world moveables) unit :=
  opt_new_rvalue 1 (RVal false) ;;; opt_new_move 2 1 ;;; holds (opt_deref 1) ;;; fails (opt_deref 2) ;;;
  opt_move_assign 1 2 ;;; fails (opt_deref 1) ;;; holds (opt_deref 2) ;;;
  leave [1; 2].
Example optional_move : passes test_move = true.
Proof. by vm_compute. Qed.

(** test/optional.cpp:75-89, the second half of "optional value", with ptl::string *)
#[local] Instance strings : OptCfg :=
  { V := string; moved := λ _, ""%string; selfmove := λ _, ""%string; torn := λ _ v, v; make := λ _, ""%string; copy_fails := λ _, false }.
#[local] Instance strings_dec : EqDecision (@V strings) := string_dec.
Definition test_value_strings : M (@world strings) unit :=
  opt_new 2 ;;; fails (opt_has_value 2) ;;; gives (opt_take_or 2 (AMove (RVal "Test"%string))) "Test"%string ;;;
  throws (opt_take 2) ;;;
  opt_assign_rvalue 2 (RVal "Hello World"%string) ;;; holds (opt_has_value 2) ;;;
  gives (opt_take_or 2 (AMove (RVal "Test"%string))) "Hello World"%string ;;; nothrow (opt_take 2) ;;;
  opt_assign_null 2 ;;; fails (opt_has_value 2) ;;;
  gives (opt_take_or 2 (AMove (RVal "Test"%string))) "Test"%string ;;; throws (opt_take 2) ;;;
  leave [2].
Example optional_value_strings : passes test_value_strings = true.
Proof. by vm_compute. Qed.
