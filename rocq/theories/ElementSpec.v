(** Specification of nested types: what contains what *)
From stdpp Require Import prelude.
From Verif Require Import ElementModel.
From Verif Require LayoutModel.
Local Open Scope N_scope.

Section spec.
Context `{Program}.

(** [holds_inline t s]: an object of type [t] has room for objects of type [s] in it *)
Inductive holds_inline : ty → ty → Prop :=
  | inline_self t : holds_inline t t
  | inline_optional e s : holds_inline e s → holds_inline (Opt e) s
  | inline_variant e es s : e ∈ es → holds_inline e s → holds_inline (Var es) s
  | inline_array e n s : holds_inline e s → holds_inline (Arr e n) s
  | inline_tuple c e es s : (c, e) ∈ es → holds_inline e s → holds_inline (Tup es) s.
(** [owns t s]: copying an object of type [t] may copy objects of type [s] *)
Inductive owns : ty → ty → Prop :=
  | owns_self t : owns t t
  | owns_vector e s : owns e s → owns (Vec e) s
  | owns_optional e s : owns e s → owns (Opt e) s
  | owns_variant e es s : e ∈ es → owns e s → owns (Var es) s
  | owns_array e n s : n ≠ 0 → owns e s → owns (Arr e n) s
  | owns_tuple c e es s : (c, e) ∈ es → owns e s → owns (Tup es) s.
(** [starts_as t s]: default construction of [t] default-constructs an [s] *)
Inductive starts_as : ty → ty → Prop :=
  | starts_self t : starts_as t t
  | starts_variant e es s : starts_as e s → starts_as (Var (e :: es)) s
  | starts_array e n s : n ≠ 0 → starts_as e s → starts_as (Arr e n) s.

(** a tuple with components, a tuple with a const component *)
Definition nonempty_tuple (t : ty) : Prop := ∃ p es, t = Tup (p :: es).
Definition const_tuple (t : ty) : Prop := ∃ e es, t = Tup es ∧ (true, e) ∈ es.
(** default construction does not compile although it is declared *)
Definition no_default (t : ty) : Prop := ∃ s, starts_as t s ∧ nonempty_tuple s.
(** nor does swapping *)
Definition no_swap (t : ty) : Prop := ∃ s, holds_inline t s ∧ const_tuple s.
(** nor copying: of vectors that move elements by swapping them *)
Definition no_copy (t : ty) : Prop := ∃ e, owns t (Vec e) ∧ no_swap e.
(** nor construction from a const rvalue *)
Definition no_const_move (t : ty) : Prop := (∃ e n, t = Arr e n) ∨ (∃ p, t = Tup [p]) ∨ no_copy t.
(** nor moving: of tuples that move their const components so *)
Definition const_movable (t : ty) : Prop := trait t ConstMoveC ≠ None.
Definition no_move (t : ty) : Prop :=
  ∃ es, t = Tup es ∧
    (((∀ e, (true, e) ∈ es → const_movable e) ∧ ∃ e, (true, e) ∈ es ∧ no_const_move e) ∨
     ((∃ e, (true, e) ∈ es ∧ ¬ const_movable e) ∧ ((∃ p, es = [p]) ∨ no_copy t))).
(** the operation does not compile although it is declared *)
Definition broken (t : ty) (o : op) : Prop :=
  match o with
  | DefaultC => no_default t
  | CopyC | CopyA => no_copy t
  | MoveC => no_move t
  | ConstMoveC => no_const_move t
  | SwapO => no_swap t
  | MoveA | DestroyO => False
  end.
(** no non-empty tuple is mentioned *)
Fixpoint tuple_free (t : ty) : Prop :=
  match t with
  | Vec e | Opt e | Arr e _ => tuple_free e
  | Var es => foldr and True (map tuple_free es)
  | Tup es => es = []
  | _ => True
  end.

(** ** Nesting *)
Context `{LayoutModel.Target}.
(** the first subobject is not a tuple<> *)
Definition no_leading_unit (t : ty) : Prop :=
  LayoutModel.tuple_storage [] ∉ layout t :: LayoutModel.first_types (layout t).
(** library types that meet the requirements on elements of a container *)
Definition storable_in_variant (t : ty) : Prop :=
  match t with
  | Base _ | VRef _ | Tup (_ :: _ :: _) => False
  | Tup [(c, e)] => no_leading_unit e ∧ (c = true → trait e ConstMoveC = Some true)
  | _ => True
  end.
Definition storable_in_optional (t : ty) : Prop :=
  match t with
  | Base _ | VRef _ | Tup (_ :: _ :: _) => False
  | Tup [(c, e)] => no_leading_unit e ∧ c = false
  | _ => True
  end.
Definition storable_in_vector (t : ty) : Prop :=
  match t with
  | FRef => False
  | Var es => ∃ e es', es = e :: es' ∧ trait e DefaultC ≠ None
  | _ => storable_in_optional t
  end.
Definition is_base (t : ty) : Prop := ∃ b, t = Base b.

(** ** The types that can be written *)
(** types of the program that may be alternatives of a variant; in an optional they are assigned
    as well, elsewhere also default constructed *)
Definition regular (b : base) : Prop :=
  LayoutModel.standard_layout (base_layout b) = true ∧ base_op b CopyC ≠ None ∧
  Forall (λ o, base_op b o = Some true) [MoveC; SwapO; DestroyO].
Definition assignable (b : base) : Prop := base_op b CopyA ≠ None ∧ base_op b MoveA = Some true.
Definition goes_in_variant (t : ty) : Prop := match t with Base b => regular b | _ => storable_in_variant t end.
Definition goes_in_optional (t : ty) : Prop := match t with Base b => regular b ∧ assignable b | _ => storable_in_optional t end.
Definition goes_in_vector (t : ty) : Prop :=
  match t with Base b => regular b ∧ assignable b ∧ base_op b DefaultC ≠ None | _ => storable_in_vector t end.
Inductive formed : ty → Prop :=
  | formed_base b : formed (Base b)
  | formed_vector e : formed e → goes_in_vector e →
      11 * LayoutModel.sizeof (layout e) < 2 ^ (8 * LayoutModel.word - 1) →        (* std::ptrdiff_t counts 11 elements *)
      formed (Vec e)
  | formed_string : formed Str
  | formed_optional e : formed e → goes_in_optional e → formed (Opt e)
  | formed_variant es largest strictest :
      (∀ e, e ∈ es → formed e ∧ goes_in_variant e) → NoDup es → (0 < length es < 255)%nat →
      (∀ e, e ∈ es → LayoutModel.sizeof (layout e) ≤ LayoutModel.sizeof (layout largest)) → largest ∈ es →
      (∀ e, e ∈ es → LayoutModel.alignof (layout e) ≤ LayoutModel.alignof (layout strictest)) → strictest ∈ es →
      (LayoutModel.alignof (layout strictest) | LayoutModel.sizeof (layout largest)) →
      formed (Var es)
  | formed_array e n : formed e → goes_in_vector e → formed (Arr e n)
  | formed_bitset n : formed (Bits n)
  | formed_tuple es : (∀ c e, (c, e) ∈ es → formed e ∧ goes_in_vector e) → formed (Tup es)
  | formed_array_ref : formed ARef
  | formed_string_ref : formed SRef
  | formed_optional_ref : formed ORef
  | formed_variant_ref n : formed (VRef (S n))
  | formed_function_ref : formed FRef.
End spec.
