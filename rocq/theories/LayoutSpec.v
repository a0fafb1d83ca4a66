(** Specification of layouts: which types exist, what a good layout is *)
From stdpp Require Import prelude strings.
From Verif Require Import LayoutModel.
Local Open Scope N_scope.

Definition pow2 (a : N) : Prop := ∃ k, a = 2 ^ k.
Definition pack_ok (p : option N) : Prop := match p with Some p => pow2 p | None => True end.
(** C++ types: sizes are positive multiples of alignments, which are powers of two *)
Fixpoint wf (t : ty) : Prop :=
  match t with
  | Opaque s a _ => pow2 a ∧ 0 < s ∧ (a | s)
  | Arr t n => wf t ∧ 0 < n
  | Cls _ p b ms => pack_ok p ∧ match b with Some b => wf b | None => True end ∧ foldr and True (map wf ms)
  | Uni p ms => pack_ok p ∧ ms ≠ [] ∧ foldr and True (map wf ms)
  end.
Definition target_ok `{Target} : Prop := pow2 word ∧ pow2 max_align.

(** objects at the given offsets, with the given sizes, in a space of [total] bytes: one after
    the other, without overlap *)
Inductive in_order (total : N) : N → list (N * N) → Prop :=
  | in_order_nil from : from ≤ total → in_order total from []
  | in_order_cons from o s l : from ≤ o → in_order total (o + s) l → in_order total from ((o, s) :: l).
(** without gaps *)
Fixpoint packed_from (from : N) (sizes : list N) : list N :=
  match sizes with [] => [] | s :: ss => from :: packed_from (from + s) ss end.
Definition sum (l : list N) : N := foldr N.add 0 l.
(** the greatest element *)
Definition is_max (m : N) (l : list N) : Prop := m ∈ l ∧ Forall (λ x, x ≤ m) l.

(** a type that mentions no ptl::tuple *)
Fixpoint no_tuple (t : ty) : Prop :=
  match t with
  | Opaque _ _ _ => True
  | Arr t _ => no_tuple t
  | Cls n _ b ms => n ≠ tuple_end ∧ match b with Some b => no_tuple b | None => True end ∧ foldr and True (map no_tuple ms)
  | Uni _ ms => foldr and True (map no_tuple ms)
  end.
(** an object of type [t] may exist at address [a] *)
Definition may_live (t : ty) (a : N) : Prop := (alignof t | a).
