(** Specification of bitset: a plain sequence of Size booleans.
    Nothing here mentions bytes; only the vocabulary of calls ([bop], [bobs]) is
    shared with the model. *)
From stdpp Require Import prelude gmap.
From Coq Require Import ZArith Ascii.
From Verif Require Import Cpp BitsetModel.
Local Open Scope nat_scope.

Notation bits := (list bool).

(** bit i of l, false beyond its end *)
Definition sbit (l : bits) (i : nat) : bool := nth i l false.

Definition s_of_int (wbits Size : nat) (v : Z) : bits :=
  (λ i, Z.testbit v (Z.of_nat i) && (i <? wbits)) <$> seq 0 Size.
Definition s_shl (Size n : nat) (l : bits) : bits := take Size (replicate n false ++ l).
Definition s_shr (Size n : nat) (l : bits) : bits := take Size (drop n l ++ replicate n false).
Definition s_count (l : bits) : Z := Z.of_nat (length (filter (λ b, b = true) l)).

Notation sworld := (gmap nat (list bool)).

(** One call on booleans. [None]: the call is outside the contract (object does
    not exist, or operator[] beyond Size). *)
Definition sexec (wbits Size : nat) (o : bop) (m : sworld) : option (bobs * sworld) :=
  let upd x (f : bits → bits) := l ← m !! x; Some (BUnit, <[x:=f l]> m) in
  let upd_at x i (f : bits → bits) :=
    l ← m !! x; if i <? Size then Some (BUnit, <[x:=f l]> m) else Some (BThrew OutOfRange, m) in
  let upd2 x y (f : bool → bool → bool) :=
    r ← m !! y; l ← m !! x; Some (BUnit, <[x:=zip_with f l r]> m) in
  let ask x (f : bits → bobs) := l ← m !! x; Some (f l, m) in
  match o with
  | BNew x => Some (BUnit, <[x:=replicate Size false]> m)
  | BNewInt x v => Some (BUnit, <[x:=s_of_int wbits Size v]> m)
  | BCopy x y => l ← m !! y; Some (BUnit, <[x:=l]> m)
  | BSetAll x => upd x (fmap (λ _, true))
  | BSet x i v => upd_at x i (<[i:=v]>)
  | BResetAll x => upd x (fmap (λ _, false))
  | BReset x i => upd_at x i (<[i:=false]>)
  | BFlipAll x => upd x (fmap negb)
  | BFlip x i => upd_at x i (alter negb i)
  | BAnd x y => upd2 x y andb
  | BOr x y => upd2 x y orb
  | BXor x y => upd2 x y xorb
  | BNot x y => l ← m !! y; m !! x ≫= λ _, Some (BUnit, <[x:=negb <$> l]> m)
  | BShl x n => upd x (s_shl Size n)
  | BShr x n => upd x (s_shr Size n)
  | BSwap x y => l ← m !! x; r ← m !! y; Some (BUnit, <[y:=l]> (<[x:=r]> m))
  | BTest x i | BAt x i =>
      l ← m !! x; Some (if i <? Size then BBool (sbit l i) else BThrew OutOfRange, m)
  | BIndex x i => if i <? Size then ask x (λ l, BBool (sbit l i)) else None
  | BAllQ x => ask x (λ l, BBool (forallb id l))
  | BAnyQ x => ask x (λ l, BBool (existsb id l))
  | BNoneQ x => ask x (λ l, BBool (negb (existsb id l)))
  | BCount x => ask x (λ l, BInt (s_count l))
  | BEqual x y => l ← m !! x; r ← m !! y; Some (BBool (bool_decide (l = r)), m)
  end.

Fixpoint srun (wbits Size : nat) (os : list bop) (m : sworld) : option (list bobs * sworld) :=
  match os with
  | [] => Some ([], m)
  | o :: os' =>
      '(r, m') ← sexec wbits Size o m;
      '(rs, m'') ← srun wbits Size os' m';
      Some (r :: rs, m'')
  end.

(** A bitset some history of calls can produce. *)
Definition reachable (wbits Size : nat) (b : bitset) : Prop :=
  ∃ os obs w x, brun wbits Size os ∅ = Some (obs, w) ∧ w !! x = Some b.

(** The bits a caller sees: what const operator[] answers at each index below Size. *)
Definition shows (Size : nat) (b : bitset) (l : bits) : Prop :=
  length l = Size ∧ ∀ i, i < Size → bs_index Size i b = Ok (sbit l i) b.

(** Packing bits into bytes, least significant bit first, and the textbook FNV-1a. *)
Fixpoint byte_of (l : bits) : Z :=
  match l with [] => 0%Z | b :: l' => ((if b then 1 else 0) + 2 * byte_of l')%Z end.
Fixpoint pack (n : nat) (l : bits) : list Z :=
  match n with O => [] | S n' => byte_of (take 8 l) :: pack n' (drop 8 l) end.
Definition bytes_for (Size : nat) : nat := (Size + 7) `div` 8.
Fixpoint fnv1a (prime modulus hash : Z) (l : list Z) : Z :=
  match l with
  | [] => hash
  | x :: l' => fnv1a prime modulus ((Z.lxor hash x * prime) mod modulus)%Z l'
  end.

(** Text: '0'/'1' characters, most significant bit first. *)
Definition digit (b : bool) : ascii := if b then "1"%char else "0"%char.
Definition chars (ds : list bool) : list ascii := digit <$> ds.
Definition text (l : bits) : list ascii := chars (reverse l).
(** the bits denoted by a digit string, zero extended to Size *)
Definition denotes (Size : nat) (ds : list bool) : bits :=
  reverse ds ++ replicate (Size - length ds) false.
