(** What tuple is supposed to be: as many values as there are component types. The state is a
    finite map from names of tuples to lists. Nothing here recurses over the component types. *)
From stdpp Require Import prelude gmap.
From Verif Require Import Cpp TupleModel.

Section spec.
Context `{C : TupCfg}.
Notation state := (gmap nat (list V)).

Definition sget (m : state) (s : sub) : option V := match m !! s.1 with Some l => l !! s.2 | None => None end.
Definition sset (m : state) (s : sub) (v : V) : option state :=
  match m !! s.1 with Some l => match l !! s.2 with Some _ => Some (<[s.1:=<[s.2:=v]> l]> m) | None => None end | None => None end.
Definition sref (m : state) (r : ref) : option V := match r with RVal v => Some v | RComp s => sget m s end.
(** the value an argument gives a component, and the state after that *)
Definition sarg (m : state) (a : arg) : option (V * state) :=
  match a with
  | ACopy r => match sref m r with Some v => Some (v, m) | None => None end
  | AMove (RVal v) => Some (v, m)
  | AMove (RComp s) =>
      match sget m s with
      | Some v => match sset m s (moved v) with Some m1 => Some (v, m1) | None => None end
      | None => None
      end
  end.
(** several arguments, one after the other *)
Fixpoint sargs (m : state) (args : list arg) : option (list V * state * list state) :=
  match args with
  | [] => Some ([], m, [])
  | a :: args' =>
      match sarg m a with
      | Some (v, m1) =>
          match sargs m1 args' with
          | Some (vs, m2, ds) => Some (v :: vs, m2, match a with ACopy _ => [m] | AMove _ => [] end ++ ds)
          | None => None
          end
      | None => None
      end
  end.

(** as in ArraySpec.v: [Bad] outside the contract, otherwise the result, the state afterwards
    and the states left behind by the operations that may throw, in order *)
Inductive outcome :=
  | Bad
  | Done (r : tobs) (m : state) (damage : list state).

(** all components are treated from the last to the first *)
Definition sstep (o : top) (m : state) : outcome :=
  match o with
  | TNew x args =>
      match m !! x, sargs m (reverse args) with
      | None, Some (vs, m1, ds) =>
          if decide (length args = length Types) then Done OUnit (<[x:=reverse vs]> m1) ds else Bad
      | _, _ => Bad
      end
  | TNewCopy x y =>
      match m !! x, m !! y with
      | None, Some l => Done OUnit (<[x:=l]> m) (replicate (length Types) m)
      | _, _ => Bad
      end
  | TNewMove x y =>
      match m !! x, m !! y with
      | None, Some l => Done OUnit (<[x:=l]> (<[y:=moved <$> l]> m)) []
      | _, _ => Bad
      end
  | TDel x => match m !! x with Some _ => Done OUnit (delete x m) [] | None => Bad end
  | TCopyAssign x y =>
      match m !! x, m !! y with
      | Some a, Some b =>
          Done OUnit (<[x:=b]> m) (reverse (imap (λ k p, <[x:=take k a ++ torn p.1 p.2 :: drop (S k) b]> m) (zip a b)))
      | _, _ => Bad
      end
  | TMoveAssign x y =>
      match m !! x, m !! y with
      | Some a, Some b =>
          if decide (x = y) then Done OUnit (<[x:=selfmove <$> a]> m) []
          else Done OUnit (<[x:=b]> (<[y:=moved <$> b]> m)) []
      | _, _ => Bad
      end
  | TSwap x y =>
      match m !! x, m !! y with
      | Some a, Some b => Done OUnit (<[x:=b]> (<[y:=a]> m)) []
      | _, _ => Bad
      end
  | TGet i x => match m !! x with Some _ => if decide (i < length Types) then Done (OSub (x, i)) m [] else Bad | None => Bad end
  | TRead s => match sget m s with Some v => Done (OVal v) m [] | None => Bad end
  | TWrite s v => match sset m s v with Some m1 => Done OUnit m1 [] | None => Bad end
  end.

(** which operation of a component type fails, if any: [n] such operations came before *)
Fixpoint settle (n : nat) (ds : list state) : option state * nat :=
  match ds with
  | [] => (None, n)
  | d :: ds' => if fails n then (Some d, S n) else settle (S n) ds'
  end.
(** a history of calls inside their contracts *)
Fixpoint srun (os : list top) (m : state) (n : nat) : option (list tobs * state * nat) :=
  match os with
  | [] => Some ([], m, n)
  | o :: os' =>
      let go r m' n' := match srun os' m' n' with Some (rs, m'', n'') => Some (r :: rs, m'', n'') | None => None end in
      match sstep o m with
      | Bad => None
      | Done r m' ds => match settle n ds with (None, n') => go r m' n' | (Some d, n') => go (OThrew ElementThrow) d n' end
      end
  end.

(** ** Order *)
Section order.
Context (t_lt t_eq : K → V → V → bool).
(** the k-th components, compared with the operators of their type *)
Definition less_at (k : nat) (x y : V) : Prop := ∃ t, Types !! k = Some t ∧ t_lt t x y = true.
Definition equal_at (k : nat) (x y : V) : Prop := ∃ t, Types !! k = Some t ∧ t_eq t x y = true.
(** the first component in which the tuples differ decides *)
Definition tup_less (a b : list V) : Prop :=
  ∃ k x y, a !! k = Some x ∧ b !! k = Some y ∧ less_at k x y ∧
    ∀ j x' y', j < k → a !! j = Some x' → b !! j = Some y' → ¬ less_at j x' y' ∧ ¬ less_at j y' x'.
Definition tup_equal (a b : list V) : Prop := ∀ k x y, a !! k = Some x → b !! k = Some y → equal_at k x y.
End order.
End spec.
