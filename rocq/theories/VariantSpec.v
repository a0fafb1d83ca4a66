(** What variant is supposed to be: a value of one of several types. The state is a finite map
    from names of variants to tagged values. No storage, index byte or lifetime occurs here. *)
From stdpp Require Import prelude gmap.
From Verif Require Import Cpp OrderSpec VariantModel.
Local Open Scope nat_scope.

(** [T] is the i-th type of the list, and not an earlier one *)
Definition at_position (T : ty) (l : list ty) (i : nat) : Prop :=
  l !! i = Some T ∧ ∀ j, j < i → l !! j ≠ Some T.

Section spec.
Context `{C : VarCfg}.
Notation state := (gmap nat (nat * V)).

(** the position of a type among the alternatives *)
Definition pos (T : ty) : option nat := fst <$> list_find (T =.) alts.

(** the value a reference to an object of the i-th alternative denotes *)
Definition sref (m : state) (i : nat) (r : ref) : option V :=
  match r with
  | RVal v => Some v
  | RAlt y => match m !! y with Some (j, v) => if decide (i = j) then Some v else None | None => None end
  end.
Fixpoint srefs (m : state) (l : list (nat * ref)) : option (list V) :=
  match l with
  | [] => Some []
  | (i, r) :: l' => match sref m i r, srefs m l' with Some v, Some vs => Some (v :: vs) | _, _ => None end
  end.
(** the value an argument list initialises an object of the i-th alternative with, and the
    state after that *)
Definition sarg (m : state) (i : nat) (a : arg) : option (V * state) :=
  match a with
  | ACopy r => match sref m i r with Some v => Some (v, m) | None => None end
  | AMove r =>
      match sref m i r with
      | Some v => Some (v, match r with RVal _ => m | RAlt y => <[y:=(i, moved i v)]> m end)
      | None => None
      end
  | AMake c l => match srefs m l with Some vs => Some (make i c vs, m) | None => None end
  end.
(** can T(args...) and T{args...} not throw, where T is the i-th alternative? *)
Definition paren_safe (i : nat) (a : arg) : bool :=
  match a with ACopy _ => decl_copy i | AMove _ => true | AMake c _ => decl_make i c end.
Definition brace_safe (i : nat) (a : arg) : bool :=
  match a with ACopy _ => nothrow_copy i | AMove _ => true | AMake c _ => nothrow_make i c end.
(** does an argument list refer to the value inside variant [x]? *)
Definition is_own (x : nat) (r : ref) : bool := match r with RVal _ => false | RAlt y => bool_decide (x = y) end.
Definition mentions (x : nat) (a : arg) : bool :=
  match a with ACopy r | AMove r => is_own x r | AMake _ l => existsb (λ p, is_own x p.2) l end.

(** the effect of a call: [Bad] if it is outside its contract; [Done] with the result, the
    state afterwards and, if a construction is invoked that may throw, the state left behind
    if that throws *)
Inductive outcome :=
  | Bad
  | Done (r : vobs) (m : state) (failing : option state)
  | Throws (e : exn).
(** all or nothing *)
Definition attempt (m : state) (safe : bool) (r : vobs) (m' : state) : outcome :=
  Done r m' (if safe then None else Some m).

Definition snew (m : state) (x i : nat) (a : arg) : outcome :=
  if decide (i < length alts) then
    match m !! x, sarg m i a with
    | None, Some (v, m1) => attempt m (brace_safe i a) BUnit (<[x:=(i, v)]> m1)
    | _, _ => Bad
    end
  else Bad.
(** emplace destroys the old value first if T(args...) cannot throw; then the arguments must not
    refer to the old value, and T{args...} must not throw either *)
Definition semplace (m : state) (x i : nat) (a : arg) : outcome :=
  if decide (i < length alts) then
    if paren_safe i a && (mentions x a || negb (brace_safe i a)) then Bad
    else match m !! x, sarg m i a with
         | Some _, Some (v, m1) => attempt m (brace_safe i a) (BVal v) (<[x:=(i, v)]> m1)
         | _, _ => Bad
         end
  else Bad.

Definition sstep (o : vop) (m : state) : outcome :=
  match o with
  | VNew x => snew m x 0 (AMake 0 [])
  | VNewCopy x y =>
      match m !! x, m !! y with
      | None, Some (i, v) => attempt m (nothrow_copy i) BUnit (<[x:=(i, v)]> m)
      | _, _ => Bad
      end
  | VNewMove x y =>
      match m !! x, m !! y with
      | None, Some (i, v) => Done BUnit (<[x:=(i, v)]> (<[y:=(i, moved i v)]> m)) None
      | _, _ => Bad
      end
  | VNewValue x T a => match pos T with Some i => snew m x i a | None => Bad end
  | VNewIndex x i a => snew m x i a
  | VDestroy x => match m !! x with Some _ => Done BUnit (delete x m) None | None => Bad end
  | VCopyAssign x y =>
      match m !! x, m !! y with
      | Some _, Some (i, v) =>
          if decide (x = y) then Done BUnit m None else attempt m (nothrow_copy i) BUnit (<[x:=(i, v)]> m)
      | _, _ => Bad
      end
  | VMoveAssign x y =>
      match m !! x, m !! y with
      | Some _, Some (i, v) =>
          if decide (x = y) then Done BUnit m None else Done BUnit (<[x:=(i, v)]> (<[y:=(i, moved i v)]> m)) None
      | _, _ => Bad
      end
  | VAssign x T a =>
      match pos T with
      | Some i =>
          match m !! x, sarg m i a with
          | Some _, Some (v, m1) => attempt m (brace_safe i a) BUnit (<[x:=(i, v)]> m1)
          | _, _ => Bad
          end
      | None => Bad
      end
  | VEmplace x T a => match pos T with Some i => semplace m x i a | None => Bad end
  | VEmplaceIndex x i a => semplace m x i a
  | VSwap x y =>
      match m !! x, m !! y with Some a, Some b => Done BUnit (<[x:=b]> (<[y:=a]> m)) None | _, _ => Bad end
  | VHolds x T =>
      match m !! x, pos T with Some (i, _), Some j => Done (BBool (bool_decide (i = j))) m None | _, _ => Bad end
  | VGetIf x T =>
      match m !! x, pos T with
      | Some (i, _), Some j => Done (BPtr (if decide (i = j) then Some j else None)) m None
      | _, _ => Bad
      end
  | VGet x T =>
      match m !! x, pos T with
      | Some (i, v), Some j => if decide (i = j) then Done (BVal v) m None else Throws BadVariantAccess
      | _, _ => Bad
      end
  | VTake x T =>
      match m !! x, pos T with
      | Some (i, v), Some j =>
          if decide (i = j) then Done (BVal v) (<[x:=(i, moved i v)]> m) None else Throws BadVariantAccess
      | _, _ => Bad
      end
  | VWrite x T v =>
      match m !! x, pos T with
      | Some (i, _), Some j => if decide (i = j) then Done BUnit (<[x:=(i, v)]> m) None else Throws BadVariantAccess
      | _, _ => Bad
      end
  | VVisit x f => match m !! x with Some (i, v) => Done BUnit (<[x:=(i, f i v)]> m) None | None => Bad end
  end.
(** the calls the visitor receives *)
Definition svisits (o : vop) (m : state) : list (nat * V) :=
  match o with VVisit x _ => match m !! x with Some p => [p] | None => [] end | _ => [] end.

(** A history on tagged values; [k] counts the constructions that may throw, [copy_fails] says
    which of them do; [l] collects the calls of visitors. [None]: a call was outside its
    contract. *)
Fixpoint srun (os : list vop) (m : state) (k : nat) (l : list (nat * V)) : option (list vobs * state * nat * list (nat * V)) :=
  match os with
  | [] => Some ([], m, k, l)
  | o :: os' =>
      let go r m' k' :=
        match srun os' m' k' (l ++ svisits o m) with
        | Some (rs, m'', k'', l'') => Some (r :: rs, m'', k'', l'') | None => None end in
      match sstep o m with
      | Bad => None
      | Throws e => go (BThrew e) m k
      | Done r m' None => go r m' k
      | Done r m' (Some mf) => if copy_fails k then go (BThrew ElementThrow) mf (S k) else go r m' (S k)
      end
  end.

(** what the variants show: the current alternative through holds(), its value through get();
    no other alternative *)
Definition shows (w : world) (m : state) : Prop :=
  (∀ x i v, m !! x = Some (i, v) →
     i < length alts ∧
     ∀ j T, alts !! j = Some T →
       var_holds (Some x) T w = Ok (bool_decide (i = j)) w ∧
       var_get (Some x) T w = if decide (i = j) then Ok v w else Exn BadVariantAccess w) ∧
  (∀ x, m !! x = None → objs w !! Some x = None) ∧
  objs w !! None = None.
Definition reachable (w : world) (m : state) : Prop :=
  ∃ os rs k l, srun os ∅ 0 [] = Some (rs, m, k, l) ∧ vrun os init_world = Finished rs w.

(** ordered by alternative first, by value among values of the same alternative *)
Definition tag_order (lt : nat → V → V → Prop) (a b : nat * V) : Prop :=
  a.1 < b.1 ∨ a.1 = b.1 ∧ lt a.1 a.2 b.2.
Definition tag_equal (eq : nat → V → V → Prop) (a b : nat * V) : Prop := a.1 = b.1 ∧ eq a.1 a.2 b.2.
Definition tag_six (ops : nat → V → V → answers) (a b : nat * V) : answers :=
  match Nat.compare a.1 b.1 with Eq => ops a.1 a.2 b.2 | c => answers_for c end.
Definition answer_list (r : answers) : list bool := [a_lt r; a_le r; a_gt r; a_ge r; a_eq r; a_ne r].
End spec.
