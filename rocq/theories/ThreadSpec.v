(** Specification for ThreadModel.v: what calls do to objects when nobody else is there, and how objects
    are laid out in memory. *)
From stdpp Require Import prelude gmap.
From Verif Require Import ThreadModel.

(** raw memory of some cells; capacity and elements; capacity and characters; bytes; value *)
Inductive obj :=
  | ORaw (n : nat) | OVec (c : nat) (xs : list nat) | OStr (c : nat) (xs : list nat)
  | OBits (vs : list nat) | OOpt (x : option nat).
Notation objs := (gmap nat obj).

(** first difference decides *)
Fixpoint lexico (xs ys : list nat) : bool :=
  match xs, ys with
  | _, [] => false
  | [], _ => true
  | x :: xs', y :: ys' => (x <? y) || ((x =? y) && lexico xs' ys')
  end.
Definition bit (vs : list nat) (i : nat) : option bool := (λ v, Nat.testbit v (i mod 8)) <$> vs !! (i / 8).

(** a call of a thread that owns the objects [own] and may read [shared] as well: its preconditions,
    and what it may do *)
Section calls.
Context (shared own : objs).
Definition sees (a : nat) (x : obj) : Prop := own !! a = Some x ∨ shared !! a = Some x.
Definition allowed (c : call) : Prop :=
  match c with
  | VSize a | VCapacity a | VAt a _ => ∃ c xs, sees a (OVec c xs)
  | VIndex a i => ∃ c xs, sees a (OVec c xs) ∧ i < length xs
  | VEq a b | VLt a b => ∃ c xs d ys, sees a (OVec c xs) ∧ sees b (OVec d ys)
  | VCopy a b => own !! a = Some (ORaw 4) ∧ ∃ d ys, sees b (OVec d ys)
  | VCopyAssign a b => ∃ c xs d ys, own !! a = Some (OVec c xs) ∧ sees b (OVec d ys)
  | VMoveAssign a b | VSwap a b => ∃ c xs d ys, own !! a = Some (OVec c xs) ∧ own !! b = Some (OVec d ys)
  | VPush a _ | VResize a _ _ | VReserve a _ | VClear a | VDestroy a => ∃ c xs, own !! a = Some (OVec c xs)
  | VPop a => ∃ c xs, own !! a = Some (OVec c xs) ∧ xs ≠ []
  | VInsert a i _ => ∃ c xs, own !! a = Some (OVec c xs) ∧ i ≤ length xs
  | VErase a i n => ∃ c xs, own !! a = Some (OVec c xs) ∧ i + n ≤ length xs
  | VSet a i _ => ∃ c xs, own !! a = Some (OVec c xs) ∧ i < length xs
  | SSize a | SAt a _ => ∃ c xs, sees a (OStr c xs)
  | SEq a b => ∃ c xs d ys, sees a (OStr c xs) ∧ sees b (OStr d ys)
  | SCopy a b => own !! a = Some (ORaw 25) ∧ ∃ d ys, sees b (OStr d ys)
  | SMoveAssign a b | SSwap a b => ∃ c xs d ys, own !! a = Some (OStr c xs) ∧ own !! b = Some (OStr d ys)
  | SPush a _ | SReserve a _ | SClear a | SDestroy a => ∃ c xs, own !! a = Some (OStr c xs)
  | SPop a => ∃ c xs, own !! a = Some (OStr c xs) ∧ xs ≠ []
  | BTest a i => ∃ vs, sees a (OBits vs) ∧ i / 8 < length vs
  | BCount a n => ∃ vs, sees a (OBits vs) ∧ length vs = n
  | BEq a b n => ∃ vs ws, sees a (OBits vs) ∧ sees b (OBits ws) ∧ length vs = n ∧ length ws = n
  | BSet a i _ | BFlip a i => ∃ vs, own !! a = Some (OBits vs) ∧ i / 8 < length vs
  | BAnd a b n => ∃ vs ws, own !! a = Some (OBits vs) ∧ sees b (OBits ws) ∧ length vs = n ∧ length ws = n
  | OHas a | OValue a => ∃ x, sees a (OOpt x)
  | OAssign a _ | OReset a => ∃ x, own !! a = Some (OOpt x)
  | OCopyAssign a b => ∃ x y, own !! a = Some (OOpt x) ∧ sees b (OOpt y)
  end.
(** nothing changes *)
Definition returns (v : val) (o : outcome val) (own' : objs) : Prop := o = Ok v ∧ own' = own.
(** one object gets a new value *)
Definition becomes (a : nat) (x : obj) (o : outcome val) (own' : objs) : Prop := o = Ok VUnit ∧ own' = <[a := x]> own.
(** memory may be exhausted *)
Definition fails (o : outcome val) (own' : objs) : Prop := o = Exn BadAlloc ∧ own' = own.
Definition means (c : call) (o : outcome val) (own' : objs) : Prop :=
  match c with
  | VSize a => ∃ c xs, sees a (OVec c xs) ∧ returns (VNat (length xs)) o own'
  | VCapacity a => ∃ c xs, sees a (OVec c xs) ∧ returns (VNat c) o own'
  | VIndex a i => ∃ c xs x, sees a (OVec c xs) ∧ xs !! i = Some x ∧ returns (VNat x) o own'
  | VAt a i => ∃ c xs, sees a (OVec c xs) ∧
      match xs !! i with Some x => returns (VNat x) o own' | None => o = Exn OutOfRange ∧ own' = own end
  | VEq a b => ∃ c xs d ys, sees a (OVec c xs) ∧ sees b (OVec d ys) ∧ returns (VBool (bool_decide (xs = ys))) o own'
  | VLt a b => ∃ c xs d ys, sees a (OVec c xs) ∧ sees b (OVec d ys) ∧ returns (VBool (lexico xs ys)) o own'
  | VCopy a b => ∃ d ys, sees b (OVec d ys) ∧
      ((∃ c, length ys ≤ c ∧ becomes a (OVec c ys) o own') ∨ fails o own')
  | VCopyAssign a b => ∃ c xs d ys, own !! a = Some (OVec c xs) ∧ sees b (OVec d ys) ∧
      ((∃ c', length ys ≤ c' ∧ becomes a (OVec c' ys) o own') ∨ fails o own')
  | VMoveAssign a b => ∃ d ys, own !! b = Some (OVec d ys) ∧ o = Ok VUnit ∧
      own' = if decide (a = b) then own else <[a := OVec d ys]> (<[b := OVec 0 []]> own)
  | VSwap a b => ∃ c xs d ys, own !! a = Some (OVec c xs) ∧ own !! b = Some (OVec d ys) ∧
      o = Ok VUnit ∧ own' = <[a := OVec d ys]> (<[b := OVec c xs]> own)
  | VPush a x => ∃ c xs, own !! a = Some (OVec c xs) ∧
      if decide (length xs < c) then becomes a (OVec c (xs ++ [x])) o own'
      else (∃ c', length xs < c' ∧ becomes a (OVec c' (xs ++ [x])) o own') ∨ fails o own'
  | VPop a => ∃ c xs x, own !! a = Some (OVec c (xs ++ [x])) ∧ becomes a (OVec c xs) o own'
  | VInsert a i x => ∃ c xs ys, own !! a = Some (OVec c (xs ++ ys)) ∧ length xs = i ∧
      let done c' := o = Ok (VNat x) ∧ own' = <[a := OVec c' (xs ++ x :: ys)]> own in
      if decide (length (xs ++ ys) < c) then done c else (∃ c', length (xs ++ ys) < c' ∧ done c') ∨ fails o own'
  | VResize a n x => ∃ c xs, own !! a = Some (OVec c xs) ∧
      if decide (n ≤ length xs) then becomes a (OVec c (take n xs)) o own'
      else (∃ c', n ≤ c' ∧ becomes a (OVec c' (xs ++ replicate (n - length xs) x)) o own') ∨ fails o own'
  | VReserve a n => ∃ c xs, own !! a = Some (OVec c xs) ∧
      if decide (n ≤ c) then becomes a (OVec c xs) o own'
      else (∃ c', n ≤ c' ∧ becomes a (OVec c' xs) o own') ∨ fails o own'
  | VClear a => ∃ c xs, own !! a = Some (OVec c xs) ∧ becomes a (OVec c []) o own'
  | VErase a i n => ∃ c xs ys zs, own !! a = Some (OVec c (xs ++ ys ++ zs)) ∧ length xs = i ∧ length ys = n ∧
      becomes a (OVec c (xs ++ zs)) o own'
  | VSet a i x => ∃ c xs y zs, own !! a = Some (OVec c (xs ++ y :: zs)) ∧ length xs = i ∧
      becomes a (OVec c (xs ++ x :: zs)) o own'
  | VDestroy a => becomes a (ORaw 4) o own'
  | SSize a => ∃ c xs, sees a (OStr c xs) ∧ returns (VNat (length xs)) o own'
  | SAt a i => ∃ c xs, sees a (OStr c xs) ∧
      match xs !! i with Some x => returns (VNat x) o own' | None => o = Exn OutOfRange ∧ own' = own end
  | SEq a b => ∃ c xs d ys, sees a (OStr c xs) ∧ sees b (OStr d ys) ∧ returns (VBool (bool_decide (xs = ys))) o own'
  | SCopy a b => ∃ d ys, sees b (OStr d ys) ∧
      ((∃ c, length ys ≤ c ∧ becomes a (OStr c ys) o own') ∨ fails o own')
  | SPush a x => ∃ c xs, own !! a = Some (OStr c xs) ∧
      if decide (length xs < c) then becomes a (OStr c (xs ++ [x])) o own'
      else (∃ c', length xs < c' ∧ becomes a (OStr c' (xs ++ [x])) o own') ∨ fails o own'
  | SPop a => ∃ c xs x, own !! a = Some (OStr c (xs ++ [x])) ∧ becomes a (OStr c xs) o own'
  | SReserve a n => ∃ c xs, own !! a = Some (OStr c xs) ∧
      if decide (n ≤ c) then becomes a (OStr c xs) o own'
      else (∃ c', n ≤ c' ∧ becomes a (OStr c' xs) o own') ∨ fails o own'
  | SMoveAssign a b => ∃ d ys, own !! b = Some (OStr d ys) ∧ o = Ok VUnit ∧   (* short strings are copied *)
      own' = if decide (a = b) then own else
             if decide (d ≤ 22) then <[a := OStr d ys]> own else <[a := OStr d ys]> (<[b := OStr 22 []]> own)
  | SSwap a b => ∃ c xs d ys, own !! a = Some (OStr c xs) ∧ own !! b = Some (OStr d ys) ∧
      o = Ok VUnit ∧ own' = <[a := OStr d ys]> (<[b := OStr c xs]> own)
  | SClear a => ∃ c xs, own !! a = Some (OStr c xs) ∧ becomes a (OStr c []) o own'
  | SDestroy a => becomes a (ORaw 25) o own'
  | BTest a i => ∃ vs b, sees a (OBits vs) ∧ bit vs i = Some b ∧ returns (VBool b) o own'
  | BCount a n => ∃ vs, sees a (OBits vs) ∧
      returns (VNat (length (List.filter (λ i, bool_decide (bit vs i = Some true)) (seq 0 (8 * n))))) o own'
  | BEq a b n => ∃ vs ws, sees a (OBits vs) ∧ sees b (OBits ws) ∧ returns (VBool (bool_decide (vs = ws))) o own'
  | BSet a i v => ∃ vs vs', own !! a = Some (OBits vs) ∧ length vs' = length vs ∧
      (∀ j, bit vs' j = if decide (j = i) then Some v else bit vs j) ∧ becomes a (OBits vs') o own'
  | BFlip a i => ∃ vs vs', own !! a = Some (OBits vs) ∧ length vs' = length vs ∧
      (∀ j, bit vs' j = if decide (j = i) then negb <$> bit vs j else bit vs j) ∧ becomes a (OBits vs') o own'
  | BAnd a b n => ∃ vs ws vs', own !! a = Some (OBits vs) ∧ sees b (OBits ws) ∧ length vs' = n ∧
      (∀ j, bit vs' j = x ← bit vs j; y ← bit ws j; Some (x && y)) ∧ becomes a (OBits vs') o own'
  | OHas a => ∃ x, sees a (OOpt x) ∧ returns (VBool (bool_decide (is_Some x))) o own'
  | OValue a => ∃ x, sees a (OOpt x) ∧
      match x with Some v => returns (VNat v) o own' | None => o = Exn BadAccess ∧ own' = own end
  | OAssign a v => becomes a (OOpt (Some v)) o own'
  | OReset a => becomes a (OOpt None) o own'
  | OCopyAssign a b => ∃ y, sees b (OOpt y) ∧ becomes a (OOpt y) o own'
  end.
End calls.

(** all calls of a client meet their preconditions, whatever happens before *)
Fixpoint well_behaved (shared own : objs) (t : client) : Prop :=
  match t with
  | Finish => True
  | Call c k => allowed shared own c ∧ ∀ o own', means shared own c o own' → well_behaved shared own' (k o)
  end.
(** results of a client that is alone *)
Fixpoint alone (shared own : objs) (t : client) (os : list (outcome val)) (own' : objs) : Prop :=
  match t with
  | Finish => os = [] ∧ own' = own
  | Call c k => ∃ o os' own1, os = o :: os' ∧ means shared own c o own1 ∧ alone shared own1 (k o) os' own'
  end.

(** ** Objects in memory *)
Definition layout (a : nat) (x : obj) (m : mem) : Prop :=
  match x with
  | ORaw n => ∃ vs, length vs = n ∧ m = cells a vs
  | OVec c xs =>
      c = 0 ∧ xs = [] ∧ m = cells a [0; 0; 0; 0] ∨
      ∃ b rest, b ≠ 0 ∧ c = length (xs ++ rest) ∧ c ≠ 0 ∧
        m = cells a [1; b; c; length xs] ∪ block b (xs ++ rest) ∧ cells a [1; b; c; length xs] ##ₘ block b (xs ++ rest)
  | OStr c xs =>
      (∃ rest, c = 22 ∧ length (xs ++ 0 :: rest) = 23 ∧ m = cells a (0 :: length xs :: xs ++ 0 :: rest)) ∨
      ∃ b rest unused, b ≠ 0 ∧ 22 < c ∧ length (xs ++ 0 :: rest) = c + 1 ∧ length unused = 21 ∧
        m = cells a (1 :: b :: c :: length xs :: unused) ∪ block b (xs ++ 0 :: rest) ∧
        cells a (1 :: b :: c :: length xs :: unused) ##ₘ block b (xs ++ 0 :: rest)
  | OBits vs => m = cells a vs
  | OOpt (Some v) => m = cells a [v; 1]
  | OOpt None => ∃ v, m = cells a [v; 0]
  end.
(** several objects, without overlap *)
Inductive memory_of : objs → mem → Prop :=
  | memory_none : memory_of ∅ ∅
  | memory_more a x own m1 m2 : own !! a = None → layout a x m1 → memory_of own m2 → m1 ##ₘ m2 →
      memory_of (<[a := x]> own) (m1 ∪ m2).
