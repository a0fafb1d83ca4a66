(** C105: how often the operations of string allocate.

    [nalloc] of a world counts the calls of operator new[], also those that fail. *)
From stdpp Require Import prelude gmap.
From Coq Require Import ZArith Lia.
From Coq Require Import Init.Byte.
From Verif Require Import Cpp StringModel StringSpec StringMem StringRep StringOps StringOps2 StringOps3 StringHistory
  StringExtra StringLimits StringProps StringCostSpec StringCost.
Local Open Scope nat_scope.

Section props.
Context `{C : StrCfg} (Hcfg : cfg_ok).

(** every call allocates at most once, and only for a result of more than 22 characters, unless it reads
    a range of unknown length: that costs a block for every 24 characters *)
Theorem C105_call_partial o w m : reachable w m → sstep (inline w) o m ≠ Bad →
  match sexec o w with
  | Ok _ w' | Exn _ w' => nalloc w ≤ nalloc w' ≤ nalloc w + allocations o m
  | _ => False
  end.
Proof.
  intros Hre Hb. pose proof (reachable_wf Hcfg _ _ Hre) as Hw. pose proof (step_costs Hcfg o w m Hw Hb) as H.
  unfold costs in H. pose proof (call_ok Hcfg o w m Hw Hb) as Hs. destruct (sexec o w); done.
Qed.
(** and as many blocks are really spent: the number of allocations is linear in the length of the range,
    not logarithmic *)
Theorem C105_input_refuted w m x l r w' : reachable w m → m !! x = None → sexec (SNewInput x l) w = Ok r w' →
  length l ≤ (nalloc w' - nalloc w + 1) * footprint.
Proof. intros Hre Hx E. eapply (new_input_grows Hcfg); [by apply (reachable_wf Hcfg)|done|exact E]. Qed.
(** a text that would fit is assigned through a new block, if there is no room for it beside the old one *)
Theorem C105_assigning_refuted w m x l r vs c w' : reachable w m → m !! x = Some l → srange m r = Some vs →
  str_capacity x w = Ok c w → sso_size < length vs ≤ c → c < length l + length vs →
  str_assign_range x r w = Ok tt w' → nalloc w' = S (nalloc w).
Proof.
  intros Hre Hl Hr Hc [Hs _] Hlt E. eapply (assign_range_new Hcfg); [by apply (reachable_wf Hcfg)|exact Hl|exact Hr|exact Hc|done|done|exact E].
Qed.
End props.

(** a string of 3 characters and one of 6 in a block for 12; 4 characters fit into the object *)
Definition two : list (@sop) := str 0 abc ++ str 1 abcdef.
Definition spent (os : list sop) : option nat := check good (λ w m, nalloc w) (two ++ os).
Example C105_call_case :
  spent [] = Some 1 ∧ spent [SNewCopy 2 0] = Some 1 ∧ spent [SNewCopy 2 1] = Some 2 ∧ spent [SNewMove 2 1] = Some 1 ∧
  spent [SPushBack 0 x61] = Some 1 ∧ spent [SPushBack 0 x61; SPushBack 0 x61] = Some 2 ∧
  spent [SCopyAssign 1 1] = Some 1 ∧ spent [SAppendRange 0 (RSub 1 0 6)] = Some 2 ∧
  spent [SReplaceRange 0 1 2 (RSub 0 0 2)] = Some 1 ∧
  spent [SInsertInput 0 1 (replicate 20 (Some x62))] = Some 5.
Proof. vm_compute. done. Qed.
Example C105_call_spec_case :
  let m : gmap nat (list char) := <[0:=abc]> (<[1:=abcdef]> ∅) in
  let a o := @allocations good o m in
  a (SNewCopy 2 0) = 0 ∧ a (SNewCopy 2 1) = 1 ∧ a (SNewMove 2 1) = 0 ∧ a (SPushBack 0 x61) = 0 ∧ a (SCopyAssign 1 1) = 0 ∧
  a (SAppendRange 0 (RSub 1 0 6)) = 1 ∧ a (SReplaceRange 0 1 2 (RSub 0 0 2)) = 0 ∧
  a (SInsertInput 0 1 (replicate 20 (Some x62))) = 4.
Proof. vm_compute. done. Qed.
(** 100 characters, 16 blocks *)
Example C105_input_case : spent [SNewInput 2 (replicate 100 (Some x62))] = Some 17.
Proof. vm_compute. done. Qed.
(** 8 characters are assigned to a string of 6 that has room for 12 *)
Example C105_assigning_case :
  check good (λ w m, match @str_capacity good 1 w with Ok c _ => c | _ => 0 end) two = Some 12 ∧
  spent [SAssignRange 1 (ext (replicate 8 x62))] = Some 2 ∧ spent [SAssignFill 1 8 x62] = Some 1 ∧
  spent [SAssignRange 1 (ext (replicate 6 x62))] = Some 1.
Proof. vm_compute. done. Qed.

Print Assumptions C105_call_partial.
Print Assumptions C105_input_refuted.
Print Assumptions C105_assigning_refuted.
