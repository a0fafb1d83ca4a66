(** C104: what a call may cost, in terms of the sequences before it. *)
From stdpp Require Import prelude gmap.
From Verif Require Import Cpp VectorModel VectorSpec.
Local Open Scope nat_scope.

Section spec.
Context `{C : VecCfg}.
Notation state := (gmap nat (list V)).

Definition earg_copies (a : earg) : nat := match a with ECopy _ => 1 | EMove _ _ => 0 end.
(** copies and default values that are constructed: one for each new element that is not moved in *)
Definition copies (o : vop) (m : state) : nat :=
  match o with
  | VNewRange _ r | VAssignRange _ r | VInsertRange _ _ r => rlen m r
  | VNewCopy _ y => slen m y
  | VCopyAssign x y => if decide (x = y) then 0 else slen m y
  | VNewInput _ l | VAssignInput _ l | VInsertInput _ _ l => length l
  | VNewCount _ n | VNewFill _ n _ | VAssignFill _ n _ | VInsertFill _ _ n _ => n
  | VPushBack _ a | VEmplace _ _ a => earg_copies a
  | VResize x n | VResizeFill x n _ => n - slen m x
  | _ => 0
  end.
(** allocations: one where elements are put into a vector or its capacity changes, and for ranges whose
    length is not known before one for each time the length doubles *)
Definition allocations (o : vop) (m : state) : nat :=
  match o with
  | VNewRange _ _ | VAssignRange _ _ | VInsertRange _ _ _ | VNewCopy _ _ | VNewCount _ _ | VNewFill _ _ _
  | VAssignFill _ _ _ | VInsertFill _ _ _ _ | VPushBack _ _ | VEmplace _ _ _ | VResize _ _ | VResizeFill _ _ _
  | VReserve _ _ | VShrink _ => 1
  | VCopyAssign x y => if decide (x = y) then 0 else 1
  | VNewInput _ l | VAssignInput _ l => 1 + Nat.log2 (length l)
  | VInsertInput _ _ l => 2 + Nat.log2 (length l)
  | _ => 0
  end.
(** elements that are moved to another buffer: those there are, and for ranges whose length is not known
    before two for each element *)
Definition relocations (o : vop) (m : state) : nat :=
  match o with
  | VInsertRange x _ _ | VInsertFill x _ _ _ | VPushBack x _ | VEmplace x _ _ | VResize x _ | VResizeFill x _ _
  | VReserve x _ | VShrink x => slen m x
  | VNewInput _ l | VAssignInput _ l => 2 * length l
  | VInsertInput x _ l => 2 * length l + slen m x
  | _ => 0
  end.

(** calls that put elements into [x] beside those it has, and how many *)
Definition inserts (x : nat) (o : vop) : bool :=
  match o with
  | VPushBack x' _ | VEmplace x' _ _ | VInsertFill x' _ _ _ | VInsertRange x' _ _ => x' =? x
  | _ => false
  end.
Definition added (o : vop) : nat :=
  match o with
  | VPushBack _ _ | VEmplace _ _ _ => 1
  | VInsertFill _ _ n _ => n
  | VInsertRange _ _ (RVals l) => length l
  | VInsertRange _ _ (RElems _ _ n) => n
  | _ => 0
  end.
Definition added_all (os : list vop) : nat := foldr Nat.add 0 (added <$> os).
(** resize to one element more, [n] times, for a vector of [len] elements *)
Definition one_by_one (x len n : nat) : list vop := VResize x <$> seq (S len) n.
End spec.
