(** C106: which elements of a vector stay where they are.

    The rules are those of std::vector, [vector.modifiers] and [container.rev.reqmts] of the C++ standard.
    An element that stays has the same index before and after the call. *)
From stdpp Require Import prelude gmap.
From Verif Require Import Cpp VectorModel VectorSpec.
Local Open Scope nat_scope.

Section spec.
Context `{C : VecCfg}.
Notation state := (gmap nat (list V)).

(** the element remains in [x] if [P] or if the call modifies another vector [y] *)
Definition remains (y x : nat) (P : bool) : option nat := if decide (y = x) then if P then Some x else None else Some x.
(** what was in [y] is in [z] and the other way round *)
Definition exchanged (y z x : nat) : nat := if decide (x = y) then z else if decide (x = z) then y else x.
(** what was in [z] is in [y], whose own elements are gone *)
Definition handed_over (y z x : nat) : option nat :=
  if decide (y = z) then Some x else if decide (x = z) then Some y else if decide (x = y) then None else Some x.

(** the vector that element [i] of [x] is part of after the call; [None] if it may be anywhere then. [n] is
    the number of elements of [x] and [c] its capacity before the call *)
Definition heir (o : vop) (m : state) (n c x i : nat) : option nat :=
  match o with
  | VSwap y z => Some (exchanged y z x)
  | VNewMove y z | VMoveAssign y z => handed_over y z x
  | VCopyAssign y z => remains y x (bool_decide (y = z))
  | VDestroy y | VAssignRange y _ | VAssignFill y _ _ | VAssignInput y _ | VClear y | VShrink y => remains y x false
  | VPushBack y _ => remains y x (n + 1 <=? c)
  | VEmplace y p _ => remains y x ((n + 1 <=? c) && (i <? p))
  | VInsertFill y p k _ => remains y x ((n + k <=? c) && (i <? p))
  | VInsertRange y p r => remains y x ((n + rlen m r <=? c) && (i <? p))
  | VInsertInput y p l => remains y x ((n + length l <=? c) && (i <? p))
  | VPopBack y => remains y x (i <? n - 1)
  | VErase y p _ | VErase1 y p => remains y x (i <? p)
  | VReserve y k => remains y x (k <=? c)
  | VResize y k | VResizeFill y k _ => remains y x ((k <=? c) && (i <? k))
  | VNew _ | VNewRange _ _ | VNewCopy _ _ | VNewInput _ _ | VNewCount _ _ | VNewFill _ _ _
  | VSet _ _ _ | VAt _ _ | VIndex _ _ | VFront _ | VBack _ | VSize _ | VEmpty _ => Some x
  end.
(** the call asks for more than the [n] elements that [x] has *)
Definition grows (o : vop) (x n : nat) : Prop :=
  match o with VResize y k | VResizeFill y k _ => y = x ∧ n < k | _ => False end.
End spec.
