(** What array_ref is supposed to be: a contiguous part of an array. *)
From stdpp Require Import prelude gmap.
From Coq Require Import ZArith.
From Verif Require Import Cpp IterModel ViewModel ArrayRefModel.
Local Open Scope Z_scope.

(** a view: of nothing, or of [n] elements of array [b], the first [o] left out *)
Inductive part := PNone | PSub (b : nat) (o n : Z).
Global Instance part_eq_dec : EqDecision part.
Proof. solve_decision. Defined.
Definition start (v : part) : pointer nat := match v with PNone => Null | PSub b o _ => At b o end.
Definition count (v : part) : Z := match v with PNone => 0 | PSub _ _ n => n end.
(** the part of a view that leaves out its first [o] elements and has [n] elements *)
Definition sub (v : part) (o n : Z) : option part :=
  if decide (0 ≤ o ∧ 0 ≤ n ∧ o + n ≤ count v) then
    Some (match v with PNone => PNone | PSub b o' _ => PSub b (o' + o) n end)
  else None.
(** its [i]-th element *)
Definition place (v : part) (i : Z) : option (pointer nat) :=
  match v with
  | PNone => None
  | PSub b o n => if decide (0 ≤ i < n) then Some (At b (o + i)) else None
  end.

Section spec.
Context `{C : ViewCfg} {A : Type}.

Record state := State { s_arr : gmap nat (list A); s_view : gmap nat part }.
Definition set_view (s : state) (x : nat) (v : part) : state := State (s_arr s) (<[x:=v]> (s_view s)).

(** the elements of a view; [None] if its array does not exist any more *)
Definition elems (s : state) (v : part) : option (list A) :=
  match v with
  | PNone => Some []
  | PSub b o n =>
      match s_arr s !! b with
      | Some l => if decide (o + n ≤ Z.of_nat (length l)) then Some (take (Z.to_nat n) (drop (Z.to_nat o) l)) else None
      | None => None
      end
  end.
(** a view that may be used *)
Definition view_of (s : state) (x : nat) : option part :=
  match s_view s !! x with Some v => match elems s v with Some _ => Some v | None => None end | None => None end.
(** the elements from [p] to the [n]-th after it *)
Definition from_to (s : state) (p : pointer nat) (n : Z) : option part :=
  match p with
  | Null => if decide (n = 0) then Some PNone else None
  | At b o =>
      match s_arr s !! b with
      | Some l => if decide (0 ≤ o ∧ 0 ≤ n ∧ o + n ≤ Z.of_nat (length l)) then Some (PSub b o n) else None
      | None => None
      end
  end.

Inductive outcome := Bad | Done (r : aobs A) (s : state) | Throws (e : exn).
Definition make (s : state) (x : nat) (v : option part) : outcome :=
  match s_view s !! x, v with None, Some v => Done BUnit (set_view s x v) | _, _ => Bad end.
Definition look (s : state) (x : nat) (f : part → outcome) : outcome :=
  match view_of s x with Some v => f v | None => Bad end.
Definition ref_to (s : state) (p : option (pointer nat)) : outcome :=
  match p with Some p => Done (BPtr p) s | None => Bad end.

Definition sstep (o : aop A) (s : state) : outcome :=
  match o with
  | ANewArr b l =>
      match s_arr s !! b with
      | None => if decide (Z.of_nat (length l) ≤ diff_max) then Done BUnit (State (<[b:=l]> (s_arr s)) (s_view s)) else Bad
      | Some _ => Bad
      end
  | ADelArr b => match s_arr s !! b with Some _ => Done BUnit (State (delete b (s_arr s)) (s_view s)) | None => Bad end
  | ARead p =>
      match p with
      | At b i =>
          match s_arr s !! b with
          | Some l => if decide (0 ≤ i) then match l !! Z.to_nat i with Some v => Done (BVal v) s | None => Bad end else Bad
          | None => Bad
          end
      | Null => Bad
      end
  | AWrite p v =>
      match p with
      | At b i =>
          match s_arr s !! b with
          | Some l =>
              if decide (0 ≤ i < Z.of_nat (length l)) then Done BUnit (State (<[b:=<[Z.to_nat i:=v]> l]> (s_arr s)) (s_view s))
              else Bad
          | None => Bad
          end
      | Null => Bad
      end
  | ANew x => make s x (Some PNone)
  | ANewPtrs x p q =>
      match p, q with
      | Null, Null => make s x (Some PNone)
      | At b o, At b' o' => if decide (b = b') then make s x (from_to s p (o' - o)) else Bad
      | _, _ => Bad
      end
  | ANewCount x p n => make s x (from_to s p n)
  | ANewRange x r =>
      match r with
      | RArr b => match s_arr s !! b with Some l => make s x (Some (PSub b 0 (Z.of_nat (length l)))) | None => Bad end
      | REmpty => make s x (Some PNone)
      | RView y => make s x (view_of s y)
      end
  | ACopy x y => make s x (s_view s !! y)
  | AAssign x y =>
      match s_view s !! x, s_view s !! y with Some _, Some v => Done BUnit (set_view s x v) | _, _ => Bad end
  | ADel x => match s_view s !! x with Some _ => Done BUnit (State (s_arr s) (delete x (s_view s))) | None => Bad end
  | AData x | ABegin x | ARend x => look s x (λ v, Done (BPtr (start v)) s)
  | AEnd x | ARbegin x =>
      look s x (λ v, Done (BPtr (match v with PNone => Null | PSub b o n => At b (o + n) end)) s)
  | ASize x => look s x (λ v, Done (BNum (count v)) s)
  | AEmpty x => look s x (λ v, Done (BBool (bool_decide (count v = 0))) s)
  | AFront x => look s x (λ v, ref_to s (place v 0))
  | ABack x => look s x (λ v, ref_to s (place v (count v - 1)))
  | AIndex x i => look s x (λ v, ref_to s (place v i))
  | AAt x i =>
      look s x (λ v, if decide (0 ≤ i) then (if decide (i < count v) then ref_to s (place v i) else Throws OutOfRange) else Bad)
  | AFirst z x n => look s x (λ v, make s z (sub v 0 n))
  | ALast z x n => look s x (λ v, make s z (sub v (count v - n) n))
  | ASub z x o => look s x (λ v, make s z (sub v o (count v - o)))
  | ASubN z x o n => look s x (λ v, make s z (sub v o n))
  end.
Fixpoint srun (os : list (aop A)) (s : state) : option (list (aobs A) * state) :=
  match os with
  | [] => Some ([], s)
  | o :: os' =>
      let go r s' := match srun os' s' with Some (rs, s'') => Some (r :: rs, s'') | None => None end in
      match sstep o s with Bad => None | Throws e => go (BThrew e) s | Done r s' => go r s' end
  end.
Definition init_state : state := State ∅ ∅.

(** the world is the state: the same arrays, and each view spans what the state says *)
Definition shows (w : world A) (s : state) : Prop :=
  (∀ b, arrs w !! b = s_arr s !! b) ∧
  ∀ x, views w !! x = match s_view s !! x with
       | None => None
       | Some PNone => Some (Null, Null)
       | Some (PSub b o n) => Some (At b o, At b (o + n))
       end.
Definition reachable (w : world A) (s : state) : Prop :=
  ∃ os rs, srun os init_state = Some (rs, s) ∧ arun os init_world = Finished rs w.
End spec.
Global Arguments state : clear implicits.
Global Arguments outcome : clear implicits.
