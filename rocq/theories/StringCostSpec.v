(** C105: how many times a call may allocate, in terms of the texts before it. *)
From stdpp Require Import prelude gmap.
From Verif Require Import Cpp StringModel StringSpec.
Local Open Scope nat_scope.

Section spec.
Context `{C : StrCfg}.
Notation state := (gmap nat (list char)).

(** a text of [n] characters needs memory outside of the object if it is longer than 22 *)
Definition block (n : nat) : nat := if decide (n ≤ sso_size) then 0 else 1.
(** a text of [n] characters that is built one by one: a new block for every 24 of them *)
Definition blocks (n : nat) : nat := (n + 1) `div` footprint.
Definition allocations (o : sop) (m : state) : nat :=
  match o with
  | SCopyAssign x y => if decide (x = y) then 0 else block (slen m y)
  | SNewInput _ l | SAssignInput _ l => blocks (length l)
  | SAppendInput x l | SInsertInput x _ l => blocks (length l) + block (slen m x + length l)
  | SReplaceInput x i j l => blocks (length l) + block (slen m x - (j - i) + length l)
  | SNewRange _ r | SAssignRange _ r => block (rlen r)
  | SNewCopy _ y => block (slen m y)
  | SNewFill _ n _ | SAssignFill _ n _ | SReserve _ n | SResize _ n | SResizeFill _ n _ | SSubstr _ _ _ n => block n
  | SAssignIlist _ l => block (length l)
  | SConcat _ l r => block (rlen l + rlen r)
  | SAppendRange x r | SInsertRange x _ r => block (slen m x + rlen r)
  | SAppendIlist x l | SInsertIlist x _ l => block (slen m x + length l)
  | SAppendFill x n _ | SInsertFill x _ n _ => block (slen m x + n)
  | SReplaceRange x i j r => block (slen m x - (j - i) + rlen r)
  | SReplaceIlist x i j l => block (slen m x - (j - i) + length l)
  | SReplaceFill x i j n _ => block (slen m x - (j - i) + n)
  | SPushBack x _ => block (slen m x + 1)
  | SSubstrTail _ x i => block (slen m x - i)
  | _ => 0
  end.
End spec.
