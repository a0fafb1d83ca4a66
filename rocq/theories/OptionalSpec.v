(** What optional is supposed to be: a value or nothing. The state is a finite map from names
    of optionals to Coq options. No slot, flag or lifetime occurs here. *)
From stdpp Require Import prelude gmap.
From Verif Require Import Cpp OrderSpec OptionalModel.
Local Open Scope nat_scope.

Section spec.
Context `{C : OptCfg}.
Notation state := (gmap nat (option V)).

(** the value a reference denotes *)
Definition sref (m : state) (r : ref) : option V :=
  match r with RVal v => Some v | ROpt y => match m !! y with Some o => o | None => None end end.
Fixpoint srefs (m : state) (l : list ref) : option (list V) :=
  match l with
  | [] => Some []
  | r :: l' => match sref m r, srefs m l' with Some v, Some vs => Some (v :: vs) | _, _ => None end
  end.
(** the value an argument list initialises an object with, and the state after that *)
Definition sarg (m : state) (a : arg) : option (V * state) :=
  match a with
  | ACopy r => match sref m r with Some v => Some (v, m) | None => None end
  | AMove r =>
      match sref m r with
      | Some v => Some (v, match r with RVal _ => m | ROpt y => <[y:=Some (moved v)]> m end)
      | None => None
      end
  | AMake l => match srefs m l with Some vs => Some (make vs, m) | None => None end
  end.
(** can initialising from these arguments throw? *)
Definition throwing (a : arg) : bool := match a with AMove _ => false | _ => true end.

(** the effect of a call: [Bad] if it is outside its contract; [Done] with the result, the
    state afterwards and, if a constructor or assignment of the value type is invoked that
    may throw, the state left behind if that throws *)
Inductive outcome :=
  | Bad
  | Done (r : oobs) (m : state) (failing : option state)
  | Throws (e : exn).

Definition snew (m : state) (x : nat) (p : option (V * state)) (throws : bool) : outcome :=
  match m !! x, p with
  | None, Some (v, m1) => Done OUnit (<[x:=Some v]> m1) (if throws then Some m else None)
  | _, _ => Bad
  end.
(** *x = value: a failing assignment leaves the target half-done, a failing construction empty *)
Definition sassign (m : state) (x : nat) (v : V) : outcome :=
  match m !! x with
  | Some (Some old) => Done OUnit (<[x:=Some v]> m) (Some (<[x:=Some (torn old v)]> m))
  | Some None => Done OUnit (<[x:=Some v]> m) (Some m)
  | None => Bad
  end.

Definition sstep (o : oop) (m : state) : outcome :=
  match o with
  | ONew x => match m !! x with None => Done OUnit (<[x:=None]> m) None | Some _ => Bad end
  | ONewCopy x y =>
      match m !! x, m !! y with
      | None, Some o => Done OUnit (<[x:=o]> m) (match o with Some _ => Some m | None => None end)
      | _, _ => Bad
      end
  | ONewMove x y =>
      match m !! x, m !! y with
      | None, Some o => Done OUnit (<[x:=o]> (<[y:=moved <$> o]> m)) None
      | _, _ => Bad
      end
  | ONewValue x a => snew m x (sarg m a) (throwing a)
  | ONewRvalue x r => snew m x (sarg m (AMove r)) false
  | ODestroy x => match m !! x with Some _ => Done OUnit (delete x m) None | None => Bad end
  | OAssignNull x | OReset x => match m !! x with Some _ => Done OUnit (<[x:=None]> m) None | None => Bad end
  | OCopyAssign x y =>
      if decide (x = y) then match m !! x with Some _ => Done OUnit m None | None => Bad end
      else match m !! x, m !! y with
           | Some _, Some (Some v) => sassign m x v
           | Some _, Some None => Done OUnit (<[x:=None]> m) None
           | _, _ => Bad
           end
  | OMoveAssign x y =>
      if decide (x = y) then match m !! x with Some _ => Done OUnit m None | None => Bad end
      else match m !! x, m !! y with
           | Some _, Some o => Done OUnit (<[x:=o]> (<[y:=moved <$> o]> m)) None
           | _, _ => Bad
           end
  | OAssign x r => match sref m r with Some v => sassign m x v | None => Bad end
  | OAssignRvalue x r =>
      match m !! x, sref m r with
      | Some _, Some v =>
          match r with
          | RVal _ => Done OUnit (<[x:=Some v]> m) None
          | ROpt y => if decide (x = y) then Done OUnit (<[x:=Some (selfmove v)]> m) None
                      else Done OUnit (<[x:=Some v]> (<[y:=Some (moved v)]> m)) None
          end
      | _, _ => Bad
      end
  | OEmplace x a =>
      match m !! x, sarg m a with
      | Some _, Some (v, m1) => Done (OVal v) (<[x:=Some v]> m1) (if throwing a then Some m else None)
      | _, _ => Bad
      end
  | OSwap x y =>
      match m !! x, m !! y with Some a, Some b => Done OUnit (<[x:=b]> (<[y:=a]> m)) None | _, _ => Bad end
  | OWrite x v => match m !! x with Some (Some _) => Done OUnit (<[x:=Some v]> m) None | _ => Bad end
  | OHasValue x => match m !! x with Some o => Done (OBool (match o with Some _ => true | None => false end)) m None | None => Bad end
  | ODeref x => match m !! x with Some (Some v) => Done (OVal v) m None | _ => Bad end
  | OValue x =>
      match m !! x with
      | Some (Some v) => Done (OVal v) m None | Some None => Throws BadOptionalAccess | None => Bad
      end
  | OTake x =>
      match m !! x with
      | Some (Some v) => Done (OVal v) (<[x:=Some (moved v)]> m) None
      | Some None => Throws BadOptionalAccess | None => Bad
      end
  | OValueOr x d =>
      match m !! x with
      | Some (Some v) => Done (OVal v) m (Some m)
      | Some None => match sarg m d with Some (v, m1) => Done (OVal v) m1 (if throwing d then Some m else None) | None => Bad end
      | None => Bad
      end
  | OTakeOr x d =>
      match m !! x with
      | Some (Some v) => Done (OVal v) (<[x:=Some (moved v)]> m) None
      | Some None => match sarg m d with Some (v, m1) => Done (OVal v) m1 (if throwing d then Some m else None) | None => Bad end
      | None => Bad
      end
  end.

(** A history on plain values; [k] counts the operations that may throw, [copy_fails] says
    which of them do. [None]: a call was outside its contract. *)
Fixpoint srun (os : list oop) (m : state) (k : nat) : option (list oobs * state * nat) :=
  match os with
  | [] => Some ([], m, k)
  | o :: os' =>
      let go r m' k' := match srun os' m' k' with Some (rs, m'', k'') => Some (r :: rs, m'', k'') | None => None end in
      match sstep o m with
      | Bad => None
      | Throws e => go (OThrew e) m k
      | Done r m' None => go r m' k
      | Done r m' (Some mf) => if copy_fails k then go (OThrew ElementThrow) mf (S k) else go r m' (S k)
      end
  end.

(** what the optionals show: has_value() and operator* *)
Definition shows (w : world) (m : state) : Prop :=
  ∀ x, match m !! x with
       | Some (Some v) => opt_has_value x w = Ok true w ∧ opt_deref x w = Ok v w
       | Some None => opt_has_value x w = Ok false w
       | None => objs w !! x = None
       end.
Definition reachable (w : world) (m : state) : Prop :=
  ∃ os rs k, srun os ∅ 0 = Some (rs, m, k) ∧ orun os init_world = Finished rs w.

(** nullopt is below every value, values compare as themselves *)
Definition opt_order (lt : V → V → Prop) (a b : option V) : Prop :=
  match a, b with None, Some _ => True | Some u, Some v => lt u v | _, None => False end.
Definition opt_equal (eq : V → V → Prop) (a b : option V) : Prop :=
  match a, b with None, None => True | Some u, Some v => eq u v | _, _ => False end.
(** what an operand of a comparison stands for *)
Definition soperand (m : state) (a : operand) : option (option V) :=
  match a with
  | POpt x => m !! x
  | PNull => Some None
  | PVal r => match sref m r with Some v => Some (Some v) | None => None end
  end.
(** nullopt is below every value, values compare as themselves, whatever Type's operators say *)
Context `{Ops : !SixOps V}.
Definition opt_six (a b : option V) : answers :=
  match a, b with
  | Some u, Some v => six_ops u v
  | Some _, None => answers_for Gt
  | None, Some _ => answers_for Lt
  | None, None => answers_for Eq
  end.
Definition answer_list (r : answers) : list bool := [a_lt r; a_le r; a_gt r; a_ge r; a_eq r; a_ne r].
End spec.
