(** What iterators are supposed to be: positions in a sequence. *)
From stdpp Require Import prelude.
From Coq Require Import ZArith.
From Verif Require Import Cpp IterModel.
Local Open Scope Z_scope.

Section spec.
Context {S B A : Type} `{EqDecision B} `{R : !Arrays S B A}.

(** the place [i] elements after [p]; an empty range may start at the null pointer *)
Definition pos (p : pointer B) (i : Z) : pointer B := match p with Null => Null | At b o => At b (o + i) end.
(** the elements from [p] on are those of [l] *)
Definition range_at (w : S) (p : pointer B) (l : list A) : Prop :=
  match p with
  | Null => l = []
  | At b o =>
      0 ≤ o ∧ (∃ len, extent b w = Some len ∧ o + Z.of_nat (length l) ≤ len) ∧
      ∀ i v, l !! i = Some v → load b (o + Z.of_nat i) w = Ok v w
  end.
(** a position of an iterator: before an element, or at the end *)
Definition inside (l : list A) (i : Z) : Prop := 0 ≤ i ≤ Z.of_nat (length l).
(** the element at a position *)
Definition elem (l : list A) (i : Z) : option A := if decide (0 ≤ i) then l !! Z.to_nat i else None.
(** all positions before an element, in order, with their elements *)
Definition visits (p : pointer B) (l : list A) : list (pointer B * A) := imap (λ i v, (pos p (Z.of_nat i), v)) l.
(** the elements of [l] are those from [begin] to [end_], the last one before [rbegin] and the
    first one after [rend] *)
Definition spans (w : S) (begin end_ rbegin rend : M S (pointer B)) (l : list A) : Prop := ∃ p,
  begin w = Ok p w ∧ end_ w = Ok (pos p (Z.of_nat (length l))) w ∧
  rbegin w = Ok (pos p (Z.of_nat (length l))) w ∧ rend w = Ok p w ∧ range_at w p l.
(** loops over a range see each element of [l] once, as a different object, in order; backwards
    the same objects in the opposite order *)
Definition traversed (w : S) (begin end_ rbegin rend : M S (pointer B)) (l : list A) : Prop :=
  ∃ vs : list (pointer B * A), snd <$> vs = l ∧ NoDup (fst <$> vs) ∧ (∀ p v, (p, v) ∈ vs → pread p w = Ok v w) ∧
    (∀ fuel, (length l ≤ fuel)%nat → range_for fuel begin end_ w = Ok (Some vs) w) ∧
    (∀ fuel, (length l ≤ fuel)%nat → range_for_reverse fuel rbegin rend w = Ok (Some (reverse vs)) w).
End spec.
