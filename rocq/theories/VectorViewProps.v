(** C111: views of a vector follow it.

    Programs call vectors, make array_refs of them, cut those into smaller ones, and read and write the elements
    through them, in any order. *)
From stdpp Require Import prelude gmap.
From Coq Require Import ZArith Lia.
From Verif Require Import Cpp VectorModel VectorSpec VectorMem VectorProofs VectorOps VectorOps2 VectorOps3
  VectorHistory VectorExtra VectorProps VectorCostProps VectorStableSpec VectorStable VectorStableProps
  VectorViewModel VectorViewSpec VectorView.
Local Open Scope nat_scope.

Section props.
Context `{C : VecCfg} (Hcfg : cfg_ok).
Notation state := (gmap nat (list V)).

(** no access through a view goes wrong as long as the view is a section of a vector, and what is read and written
    is that section *)
Theorem C111_history_partial ps : prespects ps p_init ∅ ∅ →
  match prun ps p_init with
  | PFinished rs s => ∃ m, preplay ps rs ∅ ∅ m ∧ shows (vectors s) m
  | PFaulted _ => False
  | PAborted => ∃ x k, PCall (VShrink x) ∈ ps ∧ alloc_fails k = true
  end.
Proof. exact (prun_ok Hcfg ps _ _ _ pinv_init). Qed.

(** but a view does not survive a resize to more elements, not even within the capacity *)
Theorem C111_resize_refuted o w vs m x l k i n r w' : reachable w m → m !! x = Some l → i < length l → length l < n →
  (o = VResize x n ∨ ∃ a v, o = VResizeFill x n a ∧ sarg m a = Some v) → vexec o w = Ok r w' →
  prun [PView k x; PIndex k i; PCall o; PIndex k i] (PWorld w vs) = PFaulted UseAfterFree.
Proof.
  intros Hre Hl Hi Hn Ho He. pose proof (reachable_wf Hcfg _ _ Hre) as Hw.
  destruct (wf_get _ _ _ _ Hw Hl) as (u & Hu & Hr). destruct (lookup_lt_is_Some_2 _ _ Hi) as [a Ha].
  pose proof (C106_resize_refuted Hcfg o w m x l i _ n r w' Hre Hl Hi (address_eq _ _ _ _ Hu) Ho Hn He) as Hst.
  set (v := ((v_ptr u, 0), advance (v_ptr u, 0) (v_siz u)) : view).
  assert (Hpv : pexec (PView k x) (PWorld w vs) = Ok PUnit (PWorld w (<[k:=v]> vs))).
  { cbn [pexec]. unfold view_of, bind, on_vectors, vec_data, vec_size, bind, get_vec. cbn [vectors views]. rewrite Hu. unfold ret. cbn [vectors views]. by rewrite Hu. }
  assert (Hg : ∀ w1, get_view k (PWorld w1 (<[k:=v]> vs)) = Ok v (PWorld w1 (<[k:=v]> vs))).
  { intros w1. apply get_view_eq. cbn [views]. by rewrite lookup_insert. }
  cbn [prun]. rewrite Hpv. cbn [pexec]. unfold view_index, bind. rewrite !Hg. unfold on_vectors, v, advance.
  cbn [vectors views fst snd]. rewrite Nat.add_0_l.
  rewrite (address_reads _ _ _ _ _ _ _ Hw Hl Hu Ha). unfold ret. cbn [vectors views]. rewrite He. cbn [vectors views].
  rewrite Hg. unfold v. cbn [fst snd vectors]. rewrite Nat.add_0_l, Hst. done.
Qed.
End props.

Definition results `{VecCfg} (h : phist) : option (list pobs) := match h with PFinished rs _ => Some rs | _ => None end.
Notation ppushes x l := (PCall <$> pushes x l).
(** vector 0 has ten elements and room for twenty. View 0 is all of it, view 1 elements 2 to 6, view 2 the last two
    of those. The vector is appended to, edited behind view 1, moved from and swapped; the views see the changes, and a
    write through one is seen through the others and in the vector *)
Example C111_history_case :
  let ps : list (@pop good) :=
    [PCall (VNew 0); PCall (VReserve 0 20)] ++ ppushes 0 (seq 0 10) ++
    [PView 0 0; PSub 1 0 2 5; PLast 2 1 2; PAll 1; PAll 2; PAt 1 5; PCall (VPushBack 0 (val 10)); PSize 0;
     PCall (VErase 0 8 10); PCall (VNewMove 1 0); PSet 2 1 (60 : @V good); PCall (VNew 2); PCall (VSwap 1 2);
     PCall (VIndex 2 6); PAll 1; PIndex 1 0; PCall (VReserve 2 15); PAt 2 0; PCall (VErase1 2 7); PAll 2] in
  let n k := ((λ i, PObs (ONat i)) <$> seq 0 k) : list (@pobs good) in
  prespects ps p_init ∅ ∅ ∧
  results (prun ps p_init) =
    Some ([PObs OUnit; PObs OUnit] ++ n 10 ++
          [PUnit; PUnit; PUnit; @PList good [2; 3; 4; 5; 6]; @PList good [5; 6]; PThrew OutOfRange; PObs (ONat 10); PNat 10;
           PObs (ONat 8); PObs OUnit; PUnit; PObs OUnit; PObs OUnit;
           PObs (@OVal good 60); @PList good [2; 3; 4; 5; 60]; @PVal good 2; PObs OUnit; @PVal good 5; PObs (ONat 7); @PList good [5; 60]]).
Proof. vm_compute. done. Qed.
(** view 0 is no longer a section after the vector has moved to a larger buffer, view 1 after an erasure in it *)
Example C111_dangling_case :
  let start : list (@pop good) := [PCall (VNew 0)] ++ ppushes 0 (seq 0 10) ++ [PView 0 0; PSub 1 0 2 5; PSub 2 0 0 4] in
  let look k : list (@pop good) := [PIndex k 1] in
  (prespects (start ++ [PCall (VPushBack 0 (val 7))] ++ look 0) p_init ∅ ∅ → False) ∧
  (∃ f, prun (start ++ [PCall (VPushBack 0 (val 7))] ++ look 0) p_init = PFaulted f) ∧
  (prespects (start ++ [PCall (VErase1 0 5)] ++ look 1) p_init ∅ ∅ → False) ∧
  prespects (start ++ [PCall (VErase1 0 5)] ++ look 2) p_init ∅ ∅.
Proof. vm_compute. split; [done|]. split; [eauto|]. done. Qed.
(** the second allocation fails: the insertion has no effect and the views stay *)
Example C111_failure_case :
  let C := cfg (λ k, k =? 1) never_fails in
  let ps : list (@pop C) :=
    [PCall (VNew 0)] ++ ppushes 0 (seq 0 10) ++ [PView 0 0; PCall (VInsertFill 0 2 5 (CElem 0 7)); PIndex 0 9] in
  prespects ps p_init ∅ ∅ ∧
  (drop 11 <$> results (prun ps p_init)) = Some [PUnit; PThrew BadAlloc; @PVal C 9].
Proof. vm_compute. done. Qed.
Example C111_resize_case :
  let ps : list (@pop good) :=
    [PCall (VNew 0); PCall (VReserve 0 20)] ++ ppushes 0 (seq 0 10) ++ [PView 0 0; PIndex 0 4; PCall (VResize 0 11); PIndex 0 4] in
  prun ps p_init = PFaulted UseAfterFree ∧
  @heir good (VResize 0 11) (<[0:=seq 0 10]> ∅) 10 20 0 4 = Some 0.
Proof. vm_compute. done. Qed.

Print Assumptions C111_history_partial.
Print Assumptions C111_resize_refuted.
