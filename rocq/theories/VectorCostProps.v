(** C104: what the operations of vector cost.

    [nctor], [nalloc] and [nreloc] of a world count the elements that were copied or made from
    nothing, the allocations and the elements that were moved from one buffer to another.
    Moves within a buffer (std::rotate, erase) are not counted. *)
From stdpp Require Import prelude gmap.
From Coq Require Import ZArith Lia.
From Verif Require Import Cpp VectorModel VectorSpec VectorMem VectorProofs VectorOps VectorOps2 VectorOps3
  VectorHistory VectorExtra VectorProps VectorCostSpec VectorCost.
Local Open Scope nat_scope.

Section props.
Context `{C : VecCfg} (Hcfg : cfg_ok).

(** every call copies exactly the new elements, and allocates and relocates no more than it has to *)
Theorem C104_call_partial o w m : reachable w m → sstep o m ≠ Bad →
  match vexec o w with
  | Ok _ w' => nctor w' = nctor w + copies o m ∧ nalloc w' ≤ nalloc w + allocations o m ∧ nreloc w' ≤ nreloc w + relocations o m
  | Exn _ w' => nctor w' ≤ nctor w + copies o m ∧ nalloc w' ≤ nalloc w + allocations o m ∧ nreloc w' ≤ nreloc w + relocations o m
  | Stuck _ => False
  | Terminated => ∃ x k, o = VShrink x ∧ alloc_fails k = true
  end.
Proof.
  intros Hre Hb. pose proof (reachable_wf Hcfg _ _ Hre) as Hw. pose proof (step_costs Hcfg o w m Hw Hb) as H.
  unfold costs, spends in H. pose proof (call_ok Hcfg o w m Hw Hb) as Hs. unfold step_ok in Hs.
  destruct (vexec o w); [done|done|done|]. destruct Hs as (x & E & Hk). eauto.
Qed.
(** insertions into a vector, wherever and however many at a time, relocate a number of elements that is
    linear in the size the vector gets, even if some of them throw *)
Theorem C104_inserting_partial w m x l os : reachable w m → m !! x = Some l →
  Forall (λ o, inserts x o = true) os → respects os w m →
  ∃ rs w', vrun os w = Finished rs w' ∧ nreloc w' ≤ nreloc w + 3 * (length l + added_all os).
Proof.
  intros Hre Hl Hf Hr. pose proof (reachable_wf Hcfg _ _ Hre) as Hw. destruct (wf_get _ _ _ _ Hw Hl) as (v & Hx & _).
  apply (inserts_reloc Hcfg x os (nreloc w) 0 w m l v); [done|done|done|lia|lia|by left|done|done].
Qed.
(** but resizing by one element [n] times allocates [n] times, whatever was reserved before, and relocates
    all elements each time *)
Theorem C104_resizing_refuted w m x l n : reachable w m → m !! x = Some l → length l + n ≤ max_cap →
  (∀ k, alloc_fails k = false) → (∀ k, ctor_fails k = false) →
  ∃ rs w', vrun (one_by_one x (length l) n) w = Finished rs w' ∧ nalloc w' = nalloc w + n ∧
    2 * nreloc w' + n = 2 * nreloc w + 2 * n * length l + n * n.
Proof. intros Hre Hl Hn Ha Hc. apply (resizes_cost Hcfg x n Ha Hc w m l); [by apply (reachable_wf Hcfg)|done|done]. Qed.
(** and assigning elements for which there is room allocates if there is none for them beside the old ones;
    what was reserved is lost *)
Theorem C104_assigning_refuted w m x l r vs v w' : reachable w m → m !! x = Some l → srange m r = Some vs → objs w !! x = Some v →
  length vs ≤ v_cap v < length l + length vs → vec_assign_range x r w = Ok tt w' →
  nalloc w' = S (nalloc w) ∧ ∃ v', objs w' !! x = Some v' ∧ v_ptr v' ≠ v_ptr v ∧ v_cap v' ≤ v_cap v.
Proof.
  intros Hre Hl Hr Hx [Hle Hlt] He. pose proof (reachable_wf Hcfg _ _ Hre) as Hw.
  pose proof (assign_range_run Hcfg x r vs w m l v Hw Hl Hx Hr) as H. unfold run_to in H. rewrite He in H.
  destruct H as (_ & _ & [(? & _)|(_ & Ho & Ha & _)]); [lia|]. split; [done|]. rewrite Ho, lookup_insert. eexists. split; [done|]. cbn [v_ptr v_cap].
  pose proof (wf_other _ _ _ _ Hw Hx) as Hoth. unfold other_block in Hoth. split; [congruence|].
  pose proof (wf_rep _ _ _ _ _ Hw Hx Hl) as Hrep. pose proof (vrep_le _ _ _ Hrep).
  unfold vrep, min_cap in *. destruct (v_ptr v); [lia|]. destruct Hrep as [-> ->]. cbn [v_cap null_vec length] in *. lia.
Qed.
End props.

(** a vector of 10 elements at its capacity: push_back, insertion of 3 in the middle from a range of unknown
    length, copy, move and erasure *)
Definition ten : list (@vop good) := [VNew 0] ++ pushes 0 (seq 0 10).
Definition spent (os : list (@vop good)) : option (nat * nat * nat) :=
  @check good _ (λ w m, (nctor w, nalloc w, nreloc w)) (ten ++ os).
Example C104_call_case :
  spent [] = Some (10, 1, 0) ∧
  spent [VPushBack 0 (val 7)] = Some (11, 2, 10) ∧
  spent [@VInsertInput good 0 4 [1; 2; 3]] = Some (13, 3, 10) ∧
  spent [VNewCopy 1 0] = Some (20, 2, 0) ∧
  spent [VNewMove 1 0] = Some (10, 1, 0) ∧
  spent [VErase 0 2 5] = Some (10, 1, 0).
Proof. vm_compute. done. Qed.
Example C104_call_spec_case :
  let m : gmap nat (list nat) := <[0:=seq 0 10]> ∅ in
  let c o := (@copies good o m, @allocations good o m, @relocations good o m) in
  c (VPushBack 0 (val 7)) = (1, 1, 10) ∧ c (@VInsertInput good 0 4 [1; 2; 3]) = (3, 3, 16) ∧
  c (VNewCopy 1 0) = (10, 1, 0) ∧ c (VNewMove 1 0) = (0, 0, 0) ∧ c (VErase 0 2 5) = (0, 0, 0).
Proof. vm_compute. done. Qed.
Example C104_inserting_case :
  let os : list (@vop good) := [@VInsertFill good 0 3 5 (@CElem good 0 1); VPushBack 0 (val 3); @VInsertRange good 0 0 (@RElems good 0 2 6);
    @VEmplace good 0 1 (@EMove good 0 4)] in
  Forall (λ o, inserts 0 o = true) os ∧ added_all os = 13 ∧
  @respects good (ten ++ os) init_world ∅ ∧ spent os = Some (22, 3, 26).
Proof. split; [repeat constructor|]. vm_compute. done. Qed.
Example C104_resizing_case :
  spent (VReserve 0 100 :: one_by_one 0 10 20) = Some (30, 22, 400) ∧ spent [VReserve 0 100] = Some (10, 2, 10) ∧
  spent (VReserve 0 100 :: pushes 0 (seq 0 20)) = Some (30, 2, 10).
Proof. vm_compute. done. Qed.
Example C104_assigning_case :
  let os : list (@vop good) := [VReserve 0 12; @VAssignRange good 0 (@RVals good [1; 2; 3])] in
  spent os = Some (13, 3, 10) ∧ @check good _ (λ w m, v_cap <$> objs w !! 0) (ten ++ take 1 os) = Some (Some 12) ∧
  @check good _ (λ w m, v_cap <$> objs w !! 0) (ten ++ os) = Some (Some 10).
Proof. vm_compute. done. Qed.

Print Assumptions C104_call_partial.
Print Assumptions C104_inserting_partial.
Print Assumptions C104_resizing_refuted.
Print Assumptions C104_assigning_refuted.
