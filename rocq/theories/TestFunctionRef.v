(** The test cases of /repo/test/function_ref.cpp, run in the model. They are a check of the model against what the
    authors expect of the code; the properties are in FunctionRefProps.v. The sizes (10-13) and
    deduction (25-28) are in TestStatic.v. *)
From stdpp Require Import prelude gmap.
From Coq Require Import ZArith.
From Verif Require Import Cpp FunctionRefModel.
Local Open Scope nat_scope.

(** test/function_ref.cpp:21-22 the functions 1 and 2, 53-56 the classes 1 to 4 *)
#[local] Instance cfg : FRefCfg := {
  V := Z; A := unit;
  fun_body n _ := Some (AVal (Z.of_nat n - 1)%Z);
  const_body c _ _ := Some (AVal (Z.of_nat c - 1)%Z);
  mut_body c s _ := (Some (AVal (Z.of_nat c - 1)%Z), s);
  has_const c := (c =? 1) || (c =? 2); has_mut c := (c =? 3) || (c =? 4);
  nothrow_fun n := n =? 2; nothrow_const c := c =? 2; nothrow_mut c := c =? 4 }.
Definition results (os : list frop) : option (list frobs) :=
  match frrun os init_world with Finished rs _ => Some rs | _ => None end.
Definition num (v : Z) : frobs := BResult (RVal (v : @V cfg)).
(** test/function_ref.cpp:16-19 *)
Definition free_throwing : sig := Sig false false false.
Definition free_noexcept : sig := Sig false true false.
Definition const_free_throwing : sig := Sig true false false.
Definition const_free_noexcept : sig := Sig true true false.
Definition call (x : nat) : frop := FCall x (tt : @A cfg).

(** test/function_ref.cpp:30-39 "function_ref function" and 41-50 "function_ref function ptr" *)
Example function_ref_function :
  results [FBindFun 1 free_throwing 1; call 1; FBindFun 2 const_free_throwing 1; call 2;
           FBindFun 3 free_noexcept 2; call 3; FBindFun 4 const_free_noexcept 2; call 4]
  = Some [BUnit; num 0; BUnit; num 0; BUnit; num 1; BUnit; num 1].
Proof. by vm_compute. Qed.
(** test/function_ref.cpp:52-74 "function_ref functor" *)
Definition object (a c : nat) : frop := FNewObj a c false (0%Z : @V cfg).
Example function_ref_functor :
  results [object 1 1; object 2 2; object 3 3; object 4 4;
           FBindObj 1 free_throwing false 1; call 1; FBindObj 2 const_free_throwing false 1; call 2;
           FBindObj 3 free_noexcept false 2; call 3; FBindObj 4 const_free_noexcept false 2; call 4;
           FBindObj 5 free_throwing false 3; call 5; FBindObj 6 free_noexcept false 4; call 6]
  = Some [BUnit; BUnit; BUnit; BUnit;
          BUnit; num 0; BUnit; num 0; BUnit; num 1; BUnit; num 1; BUnit; num 2; BUnit; num 3]
  ∧ invocable_obj const_free_throwing 3 true = false ∧ invocable_obj const_free_noexcept 4 true = false.
Proof. split_and!; by vm_compute. Qed.
