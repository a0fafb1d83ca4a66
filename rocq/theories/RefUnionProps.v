(** C112: the members of the unions of a variant_ref are used while they are alive.

    A storage_t is a union of a pointer to the first alternative and a storage_t of the others. [true] is the rule of
    the standard for calls of member functions of objects that are not alive, see RefUnionModel.v. *)
From stdpp Require Import prelude gmap.
From Coq Require Import ZArith Lia.
From Verif Require Import Cpp VariantRefModel VariantRefSpec VariantRefProofs VariantRefProps RefUnionModel RefUnion.
Local Open Scope nat_scope.

Section props.
Context `{C : VRefCfg}.

(** the pointer to an object that is bound as the i-th alternative lives behind i unions *)
Definition behind (w : uworld) (s : state) : Prop :=
  ∀ x T a, s_refs s !! x = Some (T, a) → ∃ i, alts !! i = Some T ∧ u_refs w !! x = Some (URef (Nat.iter i LNext (LPtr a)) i).
Lemma rep_behind w s : world_of w = rep s → wf s → behind w s.
Proof.
  intros Hw Hwf x T a Hx. exists (pos T). split; [apply index_in; by eapply Hwf|].
  assert (Hr : (ref_of <$> u_refs w) !! x = Some (cell (T, a))).
  { assert (Hrefs : ref_of <$> u_refs w = cell <$> s_refs s) by exact (f_equal refs Hw). by rewrite Hrefs, lookup_fmap, Hx. }
  rewrite lookup_fmap in Hr. destruct (u_refs w !! x) as [[u t]|]; [|done]. injection Hr as Ht ->.
  by rewrite (tag_behind _ _ _ Ht).
Qed.

(** compilers that take a storage that is written to as alive: every history within the contract is defined and
    has the results of C55 *)
Theorem C112_lenient_partial os rs s : srun os init_state = Some (rs, s) →
  ∃ w, u_run false os u_init = UFinished rs w ∧ u_visits w = s_calls s ∧ behind w s.
Proof.
  intros H. destruct (run_ok false os _ _ _ _ world_of_init wf_init (P_init false) H) as (w & Hr & Hw & Hwf); [done|].
  exists w. split; [done|]. split; [exact (f_equal visits Hw)|by apply rep_behind].
Qed.
(** by the standard that is so for the histories that bind objects as the first alternative only *)
Theorem C112_first_partial os rs s : srun os init_state = Some (rs, s) → only_first os init_state = true →
  ∃ w, u_run true os u_init = UFinished rs w ∧ u_visits w = s_calls s ∧ behind w s.
Proof.
  intros H Hf. destruct (run_ok true os _ _ _ _ world_of_init wf_init (P_init true) H) as (w & Hr & Hw & Hwf); [done|].
  exists w. split; [done|]. split; [exact (f_equal visits Hw)|by apply rep_behind].
Qed.
(** all others are undefined *)
Theorem C112_others_refuted os rs s : srun os init_state = Some (rs, s) → only_first os init_state = false →
  u_run true os u_init = UFaulted DeadObject.
Proof. intros H Hf. exact (run_fails os _ _ _ _ world_of_init wf_init (P_init true) H Hf). Qed.
End props.

(** ** Examples: the alternatives of VariantRefProps.v, A, const A, const B and C *)
Local Existing Instance rcfg.
Definition u_results (h : uhist) : option (list vrobs) := match h with UFinished rs _ => Some rs | _ => None end.
Example C112_lenient_case :
  match srun script init_state with Some (rs, _) => u_results (u_run false script u_init) = Some rs ∧ length rs = 27 | None => False end.
Proof. vm_compute. done. Qed.
(** variant_refs of all four alternatives *)
Example C112_behind_case :
  match u_run false script u_init with
  | UFinished _ w => u_refs w !! 1 = Some (URef (LPtr 1) 0) ∧ u_refs w !! 3 = Some (URef (LNext (LPtr 1)) 1) ∧
      u_refs w !! 5 = Some (URef (LNext (LNext (LPtr 3))) 2) ∧ u_refs w !! 6 = Some (URef (LNext (LNext (LNext (LPtr 4)))) 3)
  | _ => False
  end.
Proof. vm_compute. done. Qed.
Definition first_script : list vrop := setup ++
  [RNewObj 5 rA (num 15); RBind 1 true false 1; RBind 2 true false 5; RCopy 3 1; RAssign 3 2; RVisit 3 plus_five; RGet 3 rA;
   RGet 3 rC; RReadObj 5; RDel 1; RHolds 2 (add_const rA)].
Example C112_first_case :
  only_first first_script init_state = true ∧
  drop 9 <$> u_results (u_run true first_script u_init) =
    Some [BUnit; BRef 5; BThrew BadVariantAccess; BVal (num 20); BUnit; BBool false].
Proof. vm_compute. done. Qed.
Example C112_others_case :
  only_first script init_state = false ∧ is_Some (srun script init_state) ∧
  only_first (first_script ++ [RBind 4 true false 4]) init_state = false ∧
  u_run true (first_script ++ [RBind 4 true false 4]) u_init = UFaulted DeadObject.
Proof. vm_compute. split; [done|]. split; [eauto|]. done. Qed.

Print Assumptions C112_lenient_partial.
Print Assumptions C112_first_partial.
Print Assumptions C112_others_refuted.
