(** The test cases of /repo/test/variant_ref.cpp, run in the model. They are a check of the model against what the
    authors expect of the code; the properties are in VariantRefProps.v. The sizes are in TestStatic.v. *)
From stdpp Require Import prelude gmap.
From Coq Require Import ZArith.
From Verif Require Import Cpp VariantModel VariantRefModel.
Local Open Scope nat_scope.

(** int and double, doubles in tenths *)
Notation Int := (Ty false 0). Notation CInt := (Ty true 0). Notation Double := (Ty false 1). Notation CDouble := (Ty true 1).
Definition cfg (l : list ty) : VRefCfg := {| VariantRefModel.V := Z; VariantRefModel.alts := l |}.
Definition results {C : VRefCfg} (os : list vrop) : option (list vrobs) :=
  match vrrun os VariantRefModel.init_world with VariantRefModel.Finished rs _ => Some rs | _ => None end.

(** test/variant_ref.cpp:10-34 "variant_ref ctor": objects 1, 2, 3 are val1, val2, val3; reference 9 is the
    temporary that is assigned *)
#[local] Instance three : VRefCfg := cfg [Int; CInt; CDouble].
Example variant_ref_ctor :
  results (C := three)
    [RNewObj 1 CDouble (100%Z : @VariantRefModel.V three); RBind 0 true false 1; RHolds 0 CDouble; RGet 0 CDouble; RReadObj 1;
     RNewObj 2 CInt (10%Z : @VariantRefModel.V three); RBind 9 true false 2; RAssign 0 9; RDel 9; RHolds 0 CInt; RGet 0 CInt;
     RNewObj 3 Int (1%Z : @VariantRefModel.V three); RBind 9 true false 3; RAssign 0 9; RDel 9; RHolds 0 Int; RGet 0 Int]
  = Some [BUnit; BUnit; BBool true; BRef 1; BVal (100%Z : @VariantRefModel.V three);
          BUnit; BUnit; BUnit; BUnit; BBool true; BRef 2;
          BUnit; BUnit; BUnit; BUnit; BBool true; BRef 3].
Proof. by vm_compute. Qed.
#[local] Instance two : VRefCfg := cfg [Int; Double].
Example variant_ref_ctor_write :
  results (C := two)
    [RNewObj 3 Int (1%Z : @VariantRefModel.V two); RBind 1 true false 3; RHolds 1 Int; RGet 1 Int; RReadObj 3;
     RGet 1 Int; RSetObj 3 (255%Z : @VariantRefModel.V two); RGet 1 Int; RReadObj 3]
  = Some [BUnit; BUnit; BBool true; BRef 3; BVal (1%Z : @VariantRefModel.V two); BRef 3; BUnit; BRef 3;
          BVal (255%Z : @VariantRefModel.V two)].
Proof. by vm_compute. Qed.

(** test/variant_ref.cpp:36-55 "variant_ref visit" binds the view to the temporary 10, which is destroyed at the end
    of the declaration (37), and visits it afterwards (39-42): the behaviour of this test case is undefined.
    While the temporaries live, the visitors are called as it expects; objects 1, 2, 3 are 10, 1.5 and 1 *)
#[local] Instance both : VRefCfg := cfg [CInt; CDouble].
Definition keep : ty → @VariantRefModel.V both → @VariantRefModel.V both := λ _ v, v.
Definition num (v : Z) : @VariantRefModel.V both := v.
Example variant_ref_visit_dangles :
  vrrun (C := both) [RNewObj 1 Int (num 10); RBind 0 false false 1; RDelObj 1; RVisit 0 keep] VariantRefModel.init_world
  = VariantRefModel.Faulted DeadObject.
Proof. by vm_compute. Qed.
Example variant_ref_visit :
  match vrrun (C := both)
    [RNewObj 1 Int (num 10); RBind 0 false false 1; RVisit 0 keep;
     RNewObj 2 Double (num 15); RBind 9 false false 2; RAssign 0 9; RDel 9; RVisit 0 keep;
     RNewObj 3 Int (num 1); RBind 9 false false 3; RAssign 0 9; RDel 9; RVisit 0 keep] VariantRefModel.init_world
  with VariantRefModel.Finished _ w => VariantRefModel.visits w | _ => [] end
  = [(CInt, 1, num 10); (CDouble, 2, num 15); (CInt, 3, num 1)].
Proof. by vm_compute. Qed.
