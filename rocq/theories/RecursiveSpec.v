(** C108: which structs a type owns, and which it has inside. *)
From stdpp Require Import prelude.
From Verif Require Import RecursiveModel.

(** the structs of which an object of type [t] may hold objects, inside or on the heap *)
Fixpoint owned (t : ty) : list nat :=
  match t with
  | Scalar | Text | Ptr _ | ARef _ | ORef _ | VRef _ _ | FRef _ => []
  | Struct s => [s]
  | Vec t | Arr t _ | Opt t => owned t
  | Var t ts => owned t ++ concat (map owned ts)
  | Tup ts => concat (map owned ts)
  end.
(** the structs of which it has objects inside, so that they must be known for its layout *)
Fixpoint inside (t : ty) : list nat :=
  match t with
  | Scalar | Text | Ptr _ | ARef _ | ORef _ | VRef _ _ | FRef _ | Vec _ | Arr _ 0 => []
  | Struct s => [s]
  | Arr t _ | Opt t => inside t
  | Var t ts => inside t ++ concat (map inside ts)
  | Tup ts => concat (map inside ts)
  end.

(** in a list of declarations: [s] is declared, or defined *)
Definition declares (ds : list decl) (s : nat) : Prop := Forward s ∈ ds ∨ ∃ ms, Define s ms ∈ ds.
Definition defines (ds : list decl) (s : nat) : Prop := ∃ ms, Define s ms ∈ ds.
(** every definition comes once, after the declarations of the structs it names *)
Definition named (ds : list decl) : Prop :=
  ∀ pre s ms post, ds = pre ++ Define s ms :: post →
    ¬ defines pre s ∧ ∀ t u, t ∈ ms → u ∈ names t → u = s ∨ declares pre u.
(** and after the definitions of those that are [held] by its members *)
Definition sorted (held : ty → list nat) (ds : list decl) : Prop :=
  ∀ pre s ms post, ds = pre ++ Define s ms :: post → ∀ t u, t ∈ ms → u ∈ held t → defines pre u.

(** structs with their members *)
Notation structs := (list (nat * list ty)).
(** [s] owns [u] *)
Definition owns (ss : structs) (s u : nat) : Prop := ∃ ms t, (s, ms) ∈ ss ∧ t ∈ ms ∧ u ∈ owned t.
(** the translation unit that declares them all and then defines them in this order *)
Definition unit_of (ss : structs) : list decl := ((λ p, Forward p.1) <$> ss) ++ ((λ p, Define p.1 p.2) <$> ss).
