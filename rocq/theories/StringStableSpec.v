(** C107: which strings keep their characters where they are, and where buffers go. *)
From stdpp Require Import prelude gmap.
From Verif Require Import Cpp StringModel StringSpec.
Local Open Scope nat_scope.

Section spec.
Context `{C : StrCfg}.
Notation state := (gmap nat (list char)).

(** the string whose data() is afterwards what that of [x] was before the call, or [None] if there need not be
    one; [inl y]: the characters of [y] are in the object itself; [c] is the capacity of [x] before the call,
    [m] and [m'] are the texts before and after it *)
Definition stands (inl : nat → bool) (o : sop) (m m' : state) (c x : nat) : option nat :=
  if decide (x ∉ touches o) then Some x else
  match o with
  | SDestroy _ => None
  | SSwap y z =>
      if decide (y = z) then Some x
      else if inl y && inl z then Some x
      else if inl x then None
      else Some (if decide (x = y) then z else y)
  | SNewMove y z | SMoveAssign y z | SSubstrTailMove y z _ | SSubstrMove y z _ _ =>
      if decide (y = z) then Some x
      else if decide (x = z) then Some (if inl x then x else y)
      else if inl x && inl z then Some x else None
  | SShrink _ => if inl x || (sso_size <? slen m x) then Some x else None
  | SReserve _ n => if n <=? c then Some x else None
  | SCopyAssign y z => if decide (y = z) then Some x else if slen m' x <=? c then Some x else None
  | _ => if slen m' x <=? c then Some x else None
  end.
(** the exceptions: assignments and replacements that need room for old and new characters side by side, and
    assignments through a temporary string *)
Definition crowded (o : sop) (m : state) (c x : nat) : Prop :=
  match o with
  | SCopyAssign y z => y ≠ z ∧ x = y ∧ c < slen m x + slen m z
  | SAssignRange y r | SReplaceRange y _ _ r => x = y ∧ c < slen m x + rlen r
  | SAssignInput y _ => x = y
  | _ => False
  end.
End spec.
