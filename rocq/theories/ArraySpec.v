(** What array is supposed to be: a sequence of Size values. The state is a finite map from
    names of arrays to lists. No pointer arithmetic or loop occurs here. *)
From stdpp Require Import prelude gmap.
From Coq Require Import ZArith.
From Verif Require Import Cpp IterModel ArrayModel.
Local Open Scope nat_scope.

Section spec.
Context `{C : ArrCfg}.
Notation state := (gmap nat (list V)).

(** the element a pointer refers to *)
Definition at_ptr (m : state) (p : pointer nat) : option (nat * nat * list V * V) :=
  match p with
  | Null => None
  | At x i =>
      if decide (0 ≤ i)%Z then
        match m !! x with
        | Some l => match l !! Z.to_nat i with Some v => Some (x, Z.to_nat i, l, v) | None => None end
        | None => None
        end
      else None
  end.
Definition sref (m : state) (r : ref) : option V :=
  match r with RVal v => Some v | RElem p => (λ t, t.2) <$> at_ptr m p end.
(** the element becomes [v] *)
Definition set_ptr (m : state) (p : pointer nat) (v : V) : option state :=
  match at_ptr m p with Some (x, i, l, _) => Some (<[x:=<[i:=v]> l]> m) | None => None end.
(** the value an argument initialises an element with, and the state after that *)
Definition sarg (m : state) (a : arg) : option (V * state) :=
  match a with
  | ACopy r => match sref m r with Some v => Some (v, m) | None => None end
  | AMove (RVal v) => Some (v, m)
  | AMove (RElem p) =>
      match sref m (RElem p) with
      | Some v => match set_ptr m p (moved v) with Some m1 => Some (v, m1) | None => None end
      | None => None
      end
  end.
(** values of the arguments, evaluated in order, the state after that, and the states in which
    a copy can fail *)
Fixpoint sargs (m : state) (args : list arg) : option (list V * state * list state) :=
  match args with
  | [] => Some ([], m, [])
  | a :: args' =>
      match sarg m a with
      | Some (v, m1) =>
          match sargs m1 args' with
          | Some (vs, m2, ds) => Some (v :: vs, m2, match a with ACopy _ => [m] | AMove _ => [] end ++ ds)
          | None => None
          end
      | None => None
      end
  end.

(** the effect of a call: [Bad] if it is outside its contract; [Done] with the result, the
    state afterwards and, for each operation of the element type that may throw, in order, the
    state left behind if it does *)
Inductive outcome :=
  | Bad
  | Done (r : aobs) (m : state) (damage : list state)
  | Throws (e : exn).

(** assignment of [b] to array [x] holding [a]: if an element cannot be assigned those before it
    have been, it is half-done and those after it are not touched *)
Definition sassign (m : state) (x : nat) (a b : list V) : outcome :=
  Done OUnit (<[x:=b]> m) (imap (λ k p, <[x:=take k b ++ torn p.1 p.2 :: drop (S k) a]> m) (zip a b)).
(** a reference to the i-th element of array [x] *)
Definition sat (m : state) (x : nat) (i : Z) : outcome :=
  match m !! x with
  | Some l => if decide (0 ≤ i < Z.of_nat Size)%Z then Done (OPtr (At x i)) m [] else Bad
  | None => Bad
  end.

Definition sstep (o : aop) (m : state) : outcome :=
  match o with
  | ANew x args =>
      match m !! x, sargs m args with
      | None, Some (vs, m1, ds) =>
          if decide (length args ≤ Size) then
            Done OUnit (<[x:=vs ++ replicate (Size - length args) dflt]> m1) (ds ++ replicate (Size - length args) m1)
          else Bad
      | _, _ => Bad
      end
  | ANewCopy x y =>
      match m !! x, m !! y with
      | None, Some l => Done OUnit (<[x:=l]> m) (replicate Size m)
      | _, _ => Bad
      end
  | ANewMove x y =>
      match m !! x, m !! y with
      | None, Some l => Done OUnit (<[x:=l]> (<[y:=moved <$> l]> m)) []
      | _, _ => Bad
      end
  | ADel x => match m !! x with Some _ => Done OUnit (delete x m) [] | None => Bad end
  | ACopyAssign x y => match m !! x, m !! y with Some a, Some b => sassign m x a b | _, _ => Bad end
  | AMoveAssign x y =>
      match m !! x, m !! y with
      | Some a, Some b =>
          if decide (x = y) then Done OUnit (<[x:=selfmove <$> a]> m) []
          else Done OUnit (<[x:=b]> (<[y:=moved <$> b]> m)) []
      | _, _ => Bad
      end
  | AFill x r =>
      match m !! x, sref m r with
      | Some a, Some v => sassign m x a (replicate Size v)
      | _, _ => Bad
      end
  | ASwap x y =>
      match m !! x, m !! y with
      | Some a, Some b => if decide (x = y ∧ Size ≠ 0) then Bad else Done OUnit (<[x:=b]> (<[y:=a]> m)) []
      | _, _ => Bad
      end
  | AData x => match m !! x with Some _ => Done (OPtr (if decide (Size = 0) then Null else At x 0)) m [] | None => Bad end
  | ASize | AMaxSize => Done (ONum (Z.of_nat Size)) m []
  | AEmpty => Done (OBool (bool_decide (Size = 0))) m []
  | AFront x => sat m x 0
  | ABack x => sat m x (Z.of_nat Size - 1)
  | AIndex x i => sat m x i
  | AAt x i =>
      match m !! x with
      | Some l => if decide (Z.of_nat Size ≤ i)%Z then Throws OutOfRange else sat m x i
      | None => Bad
      end
  | AGet i x => sat m x (Z.of_nat i)
  | ARead p => match sref m (RElem p) with Some v => Done (OVal v) m [] | None => Bad end
  | AWrite p v => match set_ptr m p v with Some m1 => Done OUnit m1 [] | None => Bad end
  end.

(** which operation of the element type fails, if any: [n] such operations came before *)
Fixpoint settle (n : nat) (ds : list state) : option state * nat :=
  match ds with
  | [] => (None, n)
  | d :: ds' => if fails n then (Some d, S n) else settle (S n) ds'
  end.
(** a history of calls inside their contracts *)
Fixpoint srun (os : list aop) (m : state) (n : nat) : option (list aobs * state * nat) :=
  match os with
  | [] => Some ([], m, n)
  | o :: os' =>
      let go r m' n' := match srun os' m' n' with Some (rs, m'', n'') => Some (r :: rs, m'', n'') | None => None end in
      match sstep o m with
      | Bad => None
      | Throws e => go (OThrew e) m n
      | Done r m' ds => match settle n ds with (None, n') => go r m' n' | (Some d, n') => go (OThrew ElementThrow) d n' end
      end
  end.
End spec.
