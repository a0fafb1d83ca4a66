(** Specification: what it means that two ABIs agree, and which types are the same everywhere *)
From stdpp Require Import prelude strings.
From Verif Require Import LayoutModel LayoutSpec AbiModel.
Local Open Scope N_scope.

(** size, alignment and the offsets of the members are the same, and so are those of all base
    classes, members and elements *)
Fixpoint same_layout (t : aty) : Prop :=
  sizeof (erase t) = ms_size (ms_lay t) ∧ alignof (erase t) = ms_align (ms_lay t) ∧
  offsets (lay (erase t)) = ms_offsets (ms_lay t) ∧
  match t with
  | AOpaque _ _ _ _ => True
  | AArr t _ => same_layout t
  | ACls _ _ b ms => match b with Some b => same_layout b | None => True end ∧ foldr and True (map same_layout ms)
  | AUni _ ms => foldr and True (map same_layout ms)
  end.

(** C++ types: alignments are powers of two, what is asked for is obeyed, sizes are multiples *)
Fixpoint proper (t : lib) : Prop :=
  match t with
  | Base s a _ r => pow2 a ∧ pow2 r ∧ r ≤ a ∧ 0 < s ∧ (a | s)
  | Opt e | Array e _ => proper e
  | Var es => es ≠ [] ∧ foldr and True (map proper es)
  | Tup es => foldr and True (map proper es)
  | _ => True
  end.
(** the type contains an object of a type whose alignment was asked for *)
Inductive overaligned : lib → Prop :=
  | overaligned_base s a d r : 1 < r → overaligned (Base s a d r)
  | overaligned_optional e : overaligned e → overaligned (Opt e)
  | overaligned_variant e es : e ∈ es → overaligned e → overaligned (Var es)
  | overaligned_array e n : n ≠ 0 → overaligned e → overaligned (Array e n)
  | overaligned_tuple e es : e ∈ es → overaligned e → overaligned (Tup es).
(** objects of the type have a tuple at their start *)
Inductive starts_with_tuple : lib → Prop :=
  | starts_tuple es : starts_with_tuple (Tup es)
  | starts_optional e : starts_with_tuple e → starts_with_tuple (Opt e)
  | starts_variant e es : e ∈ es → starts_with_tuple e → starts_with_tuple (Var es)
  | starts_array e n : n ≠ 0 → starts_with_tuple e → starts_with_tuple (Array e n).
(** nothing over-aligned is packed, and no tuple ends with something that starts with a tuple *)
Fixpoint portable (t : lib) : Prop :=
  match t with
  | Opt e => portable e ∧ ¬ overaligned e
  | Var es => foldr and True (map portable es) ∧ ∀ e, e ∈ es → ¬ overaligned e
  | Array e n => n ≠ 0 → portable e
  | Tup es =>
      foldr and True (map portable es) ∧ (∀ e, e ∈ es → ¬ overaligned e) ∧ ∀ e, last es = Some e → ¬ starts_with_tuple e
  | _ => True
  end.
