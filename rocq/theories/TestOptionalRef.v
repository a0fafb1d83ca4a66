(** The test cases of /repo/test/optional_ref.cpp, run in the model. They are a check of the model against what the
    authors expect of the code; the properties are in OptionalRefProps.v. Which constructors take part is in
    OptionalRefCtorProps.v, deduction (62-86) in TestStatic.v. *)
From stdpp Require Import prelude gmap.
From Coq Require Import ZArith.
From Verif Require Import Cpp OptionalRefModel.
Local Open Scope nat_scope.

#[local] Instance cfg : ORefCfg := { V := Z; copy_fails := λ _, false }.
Definition results (os : list orop) : option (list orobs) :=
  match orrun os init_world with Finished rs _ => Some rs | _ => None end.
Definition U : orobs := BUnit.
Definition num (v : Z) : @V cfg := v.

(** test/optional_ref.cpp:10-42 "optional_ref ctor": objects 1 and 2 are val1 and val2, optionals 1 and 2 are mop
    and cop; operator! is the conversion to bool *)
Example optional_ref_ctor :
  results [RNew 0; RHas 0; RHas 0;
           RNewObj 1 (num 0); RFromObj 1 (LObj 1); RHas 1; RStarRead 1;
           RFromObj 2 (LObj 1); RHas 2; RStarRead 2;
           RNewObj 2 (num 10); RFromObj 3 (LObj 2); RHas 3; RStarRead 3;
           ROptSet 1 (Some (num 5)); RFrom 4 (SOpt 1); RHas 4; RStarRead 4;
           RFrom 5 (SOpt 1); RHas 5; RStarRead 5;
           ROptSet 2 (Some (num 10)); RFrom 6 (SOpt 2); RHas 6; RStarRead 6]
  = Some [U; BBool false; BBool false;
          U; U; BBool true; BVal (num 0);
          U; BBool true; BVal (num 0);
          U; U; BBool true; BVal (num 10);
          U; U; BBool true; BVal (num 5);
          U; BBool true; BVal (num 5);
          U; U; BBool true; BVal (num 10)].
Proof. by vm_compute. Qed.
(** test/optional_ref.cpp:44-60 "optional_ref value"; 1 and 2 are the temporaries that are assigned *)
Example optional_ref_value :
  results [RNew 0; RHas 0; RValueOr 0 (num 10); RValue 0;
           RNewObj 0 (num 20); RFromObj 1 (LObj 0); RAssign 0 1; RDel 1; RHas 0; RValueOr 0 (num 10); RValue 0;
           RNew 2; RAssign 0 2; RDel 2; RHas 0; RValueOr 0 (num 10); RValue 0]
  = Some [U; BBool false; BVal (num 10); BThrew BadOptionalAccess;
          U; U; U; U; BBool true; BVal (num 20); BRef (LObj 0);
          U; U; U; BBool false; BVal (num 10); BThrew BadOptionalAccess].
Proof. by vm_compute. Qed.
