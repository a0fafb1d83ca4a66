(** The test cases of /repo/test/variant.cpp, run in the model. They are a check of the model against what the
    authors expect of the code; the properties are in VariantProps.v. The overloads of visit (63-191) are
    checked in TestVisit.v. *)
From stdpp Require Import prelude gmap.
From Coq Require Import ZArith.
From Verif Require Import Cpp OrderSpec VariantModel.
Local Open Scope nat_scope.

Section tests.
Context `{C : VarCfg}.
Definition require (b : bool) : M world unit := if b then ret tt else stuck NoObject.
Definition holds (m : M world bool) : M world unit := b <- m ;; require b.
Definition fails (m : M world bool) : M world unit := b <- m ;; require (negb b).
Definition gives `{EqDecision V} (m : M world V) (v : V) : M world unit := x <- m ;; require (bool_decide (x = v)).
Definition same `{EqDecision V} (m n : M world V) : M world unit := x <- m ;; y <- n ;; require (bool_decide (x = y)).
(** the objects go out of scope in the reverse order *)
Fixpoint leave (xs : list nat) : M world unit :=
  match xs with [] => ret tt | x :: xs' => leave xs' ;;; var_destroy (Some x) end.
Definition passes (t : M world unit) : bool :=
  match t init_world with Ok _ w => bool_decide (objs w = ∅) | _ => false end.
End tests.

(** values of int, double, X and Y, doubles in tenths; X and Y have no members *)
#[local] Instance Z_dec : EqDecision Z := Z.eq_dec.
Notation Int := (Ty false 0). Notation Double := (Ty false 1). Notation X := (Ty false 2). Notation Y := (Ty false 3).
Definition cfg (ts : list ty) : VarCfg :=
  {| V := Z; alts := ts; moved := λ _ v, v; make := λ _ _ l, List.hd 0%Z l; nothrow_copy := λ _, true;
     nothrow_make := λ _ _, true; decl_copy := λ _, true; decl_make := λ _ _, true; copy_fails := λ _, false |}.
Definition ops : nat → Z → Z → answers := λ _ x y, answers_for (Z.compare x y).

(** test/variant.cpp:11-37 "variant ctor" *)
#[local] Instance cfg_ctor1 : VarCfg := cfg [Int; Double].
Definition test_ctor1 : M (@world cfg_ctor1) unit :=
  var_new (Some 1) ;;; gives (var_get (Some 1) Int) 0%Z ;;;
  var_assign (Some 1) Double (AMove (RVal 100%Z)) ;;; holds (var_holds (Some 1) Double) ;;; gives (var_get (Some 1) Double) 100%Z ;;;
  var_assign (Some 1) Int (AMove (RVal 10%Z)) ;;; holds (var_holds (Some 1) Int) ;;; gives (var_get (Some 1) Int) 10%Z ;;;
  leave [1].
#[local] Instance cfg_ctor2 : VarCfg := cfg [Int; Double; X; Y].
Definition test_ctor2 : M (@world cfg_ctor2) unit :=
  var_new_value (Some 2) X (AMake 2 [(0, RVal 4%Z); (0, RVal 5%Z)]) ;;; holds (var_holds (Some 2) X) ;;;
  var_emplace (Some 2) Y (AMake 3 [(0, RVal 1%Z); (0, RVal 2%Z); (0, RVal 3%Z)]) ;;; holds (var_holds (Some 2) Y) ;;;
  leave [2].
Example variant_ctor : passes test_ctor1 = true ∧ passes test_ctor2 = true.
Proof. split; by vm_compute. Qed.

(** test/variant.cpp:39-50 "variant copy" *)
#[local] Instance cfg_copy : VarCfg := cfg [Double; Int].
Definition test_copy : M (@world cfg_copy) unit :=
  var_new_value (Some 0) Int (AMove (RVal 1000%Z)) ;;; fails (var_holds (Some 0) Double) ;;;
  var_new_copy (Some 1) (Some 0) ;;; fails (var_holds (Some 1) Double) ;;; same (var_get (Some 0) Int) (var_get (Some 1) Int) ;;;
  var_new (Some 2) ;;; var_copy_assign (Some 2) (Some 1) ;;; fails (var_holds (Some 2) Double) ;;;
  same (var_get (Some 0) Int) (var_get (Some 2) Int) ;;; gives (var_get (Some 2) Int) 1000%Z ;;;
  leave [0; 1; 2].
Example variant_copy : passes test_copy = true.
Proof. by vm_compute. Qed.

(** test/variant.cpp:52-61 "variant move", with the type of test/utils.hpp that cannot be copied and remembers
    whether it was moved from *)
Notation Moveable := (Ty false 0).
#[local] Instance moveables : VarCfg :=
  {| V := bool; alts := [Moveable]; moved := λ _ _, true; make := λ _ _ _, false; nothrow_copy := λ _, false;
     nothrow_make := λ _ _, true; decl_copy := λ _, false; decl_make := λ _ _, true; copy_fails := λ _, true |}.
Definition test_move : M (@world moveables) unit :=
  var_new (Some 1) ;;; var_new_move (Some 2) (Some 1) ;;;
  holds (var_get (Some 1) Moveable) ;;; fails (var_get (Some 2) Moveable) ;;;
  var_move_assign (Some 1) (Some 2) ;;; fails (var_get (Some 1) Moveable) ;;; holds (var_get (Some 2) Moveable) ;;;
  leave [1; 2].
Example variant_move : passes test_move = true.
Proof. by vm_compute. Qed.

(** test/variant.cpp:193-210 "variant swapping" *)
#[local] Instance cfg_swap : VarCfg := cfg [Int; Double].
Definition test_swap : M (@world cfg_swap) unit :=
  var_new_value (Some 1) Int (AMove (RVal 10%Z)) ;;; var_new_value (Some 2) Double (AMove (RVal 202%Z)) ;;;
  holds (var_holds (Some 1) Int) ;;; holds (var_holds (Some 2) Double) ;;;
  var_swap (Some 1) (Some 2) ;;;
  holds (var_holds (Some 1) Double) ;;; gives (var_get (Some 1) Double) 202%Z ;;;
  holds (var_holds (Some 2) Int) ;;; gives (var_get (Some 2) Int) 10%Z ;;;
  var_new_value (Some 3) Int (AMove (RVal 20%Z)) ;;; var_swap (Some 2) (Some 3) ;;;
  holds (var_holds (Some 2) Int) ;;; gives (var_get (Some 2) Int) 20%Z ;;;
  holds (var_holds (Some 3) Int) ;;; gives (var_get (Some 3) Int) 10%Z ;;;
  leave [1; 2; 3].
Example variant_swapping : passes test_swap = true.
Proof. by vm_compute. Qed.

(** test/variant.cpp:212-233 "variant comparison" *)
#[local] Instance cfg_cmp : VarCfg := cfg [Int; Double].
Definition test_cmp : M (@world cfg_cmp) unit :=
  let eq x y := var_eq ops (Some x) (Some y) in let ne x y := var_ne ops (Some x) (Some y) in
  let lt x y := var_lt ops (Some x) (Some y) in let gt x y := var_gt ops (Some x) (Some y) in
  var_new_value (Some 1) Int (AMove (RVal 10%Z)) ;;; var_new_value (Some 2) Double (AMove (RVal 100%Z)) ;;;
  fails (eq 1 2) ;;; holds (ne 1 2) ;;;
  var_new_copy (Some 3) (Some 1) ;;; holds (eq 1 3) ;;; fails (ne 1 3) ;;;
  holds (lt 1 2) ;;; fails (gt 1 2) ;;; holds (gt 2 1) ;;; fails (lt 2 1) ;;;
  var_new_value (Some 4) Int (AMove (RVal 1%Z)) ;;; holds (gt 1 4) ;;; holds (lt 4 1) ;;;
  leave [1; 2; 3; 4].
Example variant_comparison : passes test_cmp = true.
Proof. by vm_compute. Qed.
