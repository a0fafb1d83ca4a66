(** Model of which types may be elements of which containers and of which operations the resulting
    types have: the static_asserts of the class templates, the declarations that type traits see
    and the bodies that are instantiated when an operation is used.

    Types of the program are an oracle: a layout, and for each operation whether it exists and is
    noexcept. Operations of the program keep their noexcept.

    Simplified: no type of the program is made from a library type that contains it; const objects
    are neither assigned nor swapped; const occurs in component lists of tuples only (a const type
    elsewhere is a type of the program that lacks the operations); copying a value by
    Type{value} copies it (C77, C78 are about braces). *)
From stdpp Require Import prelude.
From Verif Require LayoutModel.
Local Open Scope N_scope.

(** what the traits ask for: construction from nothing, const T &, T &&, const T &&; assignment from
    const T &, T &&; std::swap or that of the type; destruction *)
Inductive op := DefaultC | CopyC | MoveC | ConstMoveC | CopyA | MoveA | SwapO | DestroyO.
Global Instance op_eq_dec : EqDecision op.
Proof. solve_decision. Defined.

Class Program := {
  base : Type;
  base_layout : base → LayoutModel.ty;
  base_op : base → op → option bool;   (* [None]: does not exist, [Some n]: n tells whether it is noexcept *)
}.

Section elements.
Context `{Program}.
Inductive ty :=
  | Base (b : base)
  | Vec (e : ty)
  | Str
  | Opt (e : ty)
  | Var (es : list ty)
  | Arr (e : ty) (n : N)
  | Bits (n : N)
  | Tup (es : list (bool * ty))        (* the flag: const *)
  | ARef | SRef | ORef | VRef (n : nat) | FRef.

(** the conjunction of is_…_v for several types, with noexcept *)
Definition both (x y : option bool) : option bool :=
  match x, y with Some a, Some b => Some (a && b) | _, _ => None end.
Definition all (l : list (option bool)) : option bool := foldr both (Some true) l.
(** a defaulted move operation that would be deleted is ignored by overload resolution *)
Definition or_else (x y : option bool) : option bool := match x with Some _ => x | None => y end.

(** The declarations: std::is_…constructible_v, is_…assignable_v, is_…swappable_v,
    is_…destructible_v of a type.
    vector.hpp:247-255, 377-378; string.hpp:297-306, 569-570; optional.hpp:31-39, 57-66, 94, 187-189;
    variant.hpp:203-208, 223-232, 248, 320-321; array.hpp:177-179 (takes const array && as well: it
    is implicitly convertible from Type), implicit members, 250-252; bitset.hpp:123-124, implicit
    members, 364-366; tuple.hpp:89-91 (takes const tuple && as well if there is one component),
    implicit members, 109-111; array_ref.hpp:170-171, 191-193, string_ref.hpp:119-120,
    optional_ref.hpp:73-74, implicit members; variant_ref.hpp:127-134: copies without noexcept;
    function_ref.hpp:117-120 *)
Fixpoint trait (t : ty) (o : op) {struct t} : option bool :=
  match t with
  | Base b => base_op b o
  | Vec _ | Str | Opt _ => match o with CopyC | ConstMoveC | CopyA => Some false | _ => Some true end
  | Var es =>
      match o with
      | DefaultC => match es with [] => None | e :: _ => match trait e DefaultC with Some _ => Some false | None => None end end
      | CopyC | ConstMoveC | CopyA => Some false
      | _ => Some true
      end
  | Arr e n =>
      match o with
      | DefaultC | ConstMoveC => Some false
      | SwapO => Some true
      | _ =>
          if decide (n = 0) then Some true
          else match o with
               | MoveC => or_else (trait e MoveC) (Some false)   (* then 177-179 is the better match *)
               | MoveA => or_else (trait e MoveA) (trait e CopyA)
               | _ => trait e o
               end
      end
  | Bits _ | ARef | SRef | ORef => Some true
  | Tup es =>
      let component (o : op) (p : bool * ty) : option bool :=
        match p with
        | (false, e) => trait e o
        | (true, e) => match o with MoveC => trait e ConstMoveC | CopyA | MoveA | SwapO => None | _ => trait e o end
        end in
      match o with
      | DefaultC => Some false
      | SwapO => Some true
      | ConstMoveC => match es with [_] => Some false | _ => all (map (component CopyC) es) end
      | MoveC => or_else (all (map (component MoveC) es)) (match es with [_] => Some false | _ => all (map (component CopyC) es) end)
      | MoveA => or_else (all (map (component MoveA) es)) (all (map (component CopyA) es))
      | _ => all (map (component o) es)
      end
  | VRef _ => match o with DefaultC => None | DestroyO => Some true | _ => Some false end
  | FRef => match o with DefaultC => None | _ => Some true end
  end.

(** What using the operation does: it does not compile; it may throw; it does not throw; an
    exception may reach a noexcept *)
Inductive result := Rejected | Terminates | Throws | Fine.
Definition worse (x y : result) : result :=
  match x, y with
  | Rejected, _ | _, Rejected => Rejected
  | Terminates, _ | _, Terminates => Terminates
  | Throws, _ | _, Throws => Throws
  | Fine, Fine => Fine
  end.
Definition worst (l : list result) : result := foldr worse Fine l.
Definition noexc (r : result) : result := match r with Throws => Terminates | _ => r end.
(** calling an operation that does not exist does not compile *)
Definition call (x : option bool) (r : result) : result := match x with Some _ => r | None => Rejected end.

(** The bodies. Copying a vector or string allocates. *)
Fixpoint body (t : ty) (o : op) {struct t} : result :=
  match t with
  | Base b => match base_op b o with Some true => Fine | Some false => Throws | None => Rejected end
  | Vec e =>
      let use (o : op) := call (trait e o) (body e o) in
      match o with
      | DefaultC | MoveC | SwapO => Fine                                      (* vector.hpp:247, 249, 376 *)
      | CopyC | ConstMoveC | CopyA =>                                         (* 248, 250-253, 190-202 with std::rotate *)
          worst [Throws; use CopyC; use MoveC; use MoveA; use SwapO; noexc (use DestroyO)]
      | MoveA | DestroyO => noexc (use DestroyO)                              (* 254-255, 56-74 *)
      end
  | Str => match o with CopyC | ConstMoveC | CopyA => Throws | _ => Fine end  (* string.hpp:297-306 *)
  | Opt e =>
      let use (o : op) := call (trait e o) (body e o) in
      match o with
      | DefaultC => Fine                                                      (* optional.hpp:32 *)
      | CopyC | ConstMoveC => use CopyC                                       (* 37 *)
      | MoveC => noexc (use MoveC)                                            (* 39 *)
      | CopyA => worst [use CopyA; use CopyC; noexc (use DestroyO)]           (* 58-64, 75-82 *)
      | MoveA => noexc (worst [use MoveA; use MoveC; use DestroyO])           (* 66-72, 84-91 *)
      | SwapO => noexc (worst [use MoveC; use DestroyO; use SwapO])           (* 169-186 *)
      | DestroyO => noexc (use DestroyO)                                      (* 94, 150-155 *)
      end
  | Var es =>
      let use (o : op) := worst (map (λ e, call (trait e o) (body e o)) es) in
      match o with
      | DefaultC => match es with [] => Rejected | e :: _ => call (trait e DefaultC) (body e DefaultC) end  (* variant.hpp:205 *)
      | CopyC | ConstMoveC => use CopyC                                       (* 207, 133-142 *)
      | MoveC => noexc (use MoveC)                                            (* 208 *)
      | CopyA => worst [use CopyC; noexc (use DestroyO); noexc (use MoveC)]   (* 223-231 *)
      | MoveA => noexc (worst [use DestroyO; use MoveC])                      (* 232-239 *)
      | SwapO => noexc (worst [use SwapO; use MoveC; use DestroyO])           (* 315-319, std::swap moves three times *)
      | DestroyO => noexc (use DestroyO)                                      (* 248 *)
      end
  | Arr e n =>
      let use (o : op) := call (trait e o) (body e o) in
      match o with
      | DefaultC => if decide (n = 0) then Fine else use DefaultC             (* array.hpp:179 *)
      | ConstMoveC => Rejected                                                (* 179: Type is not made from an array *)
      | SwapO => noexc (use SwapO)                                            (* 249 *)
      | MoveC => if decide (n = 0) then Fine else match trait e MoveC with Some _ => body e MoveC | None => Rejected end
      | MoveA => if decide (n = 0) then Fine else match trait e MoveA with Some _ => body e MoveA | None => use CopyA end
      | _ => if decide (n = 0) then Fine else use o
      end
  | Bits _ | ARef | SRef | ORef => Fine
  | Tup es =>
      let component (o : op) (p : bool * ty) : result :=
        match p with
        | (false, e) => call (trait e o) (body e o)
        | (true, e) =>
            match o with
            | MoveC => call (trait e ConstMoveC) (body e ConstMoveC)
            | CopyA | MoveA | SwapO => Rejected
            | _ => call (trait e o) (body e o)
            end
        end in
      let exists_move (o : op) : bool :=
        forallb (λ p : bool * ty, match p with
          | (false, e) => match trait e o with Some _ => true | None => false end
          | (true, e) => match o with MoveC => match trait e ConstMoveC with Some _ => true | None => false end | _ => false end
          end) es in
      match o with
      | DefaultC => match es with [] => Fine | _ :: _ => Rejected end         (* tuple.hpp:91, 30, 47: storage_t has no default constructor *)
      | ConstMoveC => match es with [_] => Rejected | _ => worst (map (component CopyC) es) end (* 91, 47 *)
      | SwapO => noexc (worst (map (component SwapO) es))                     (* 63-67, 108 *)
      | MoveC =>
          if exists_move MoveC then worst (map (component MoveC) es)
          else match es with [_] => Rejected | _ => worst (map (component CopyC) es) end
      | MoveA => worst (map (component (if exists_move MoveA then MoveA else CopyA)) es)
      | _ => worst (map (component o) es)
      end
  | VRef _ => match o with DefaultC => Rejected | _ => Fine end               (* variant_ref.hpp:128-134: assigns a pointer *)
  | FRef => match o with DefaultC => Rejected | _ => Fine end
  end.

(** ** The static_asserts *)
Context `{LayoutModel.Target}.
Fixpoint layout (t : ty) : LayoutModel.ty :=
  match t with
  | Base b => base_layout b
  | Vec _ => LayoutModel.vector_t
  | Str => LayoutModel.string_t
  | Opt e => LayoutModel.optional_t (layout e)
  | Var es => LayoutModel.variant_t (map layout es)
  | Arr e n => LayoutModel.array_t (layout e) n
  | Bits n => LayoutModel.bitset_t n
  | Tup es => LayoutModel.tuple_t (map (λ p : bool * ty, match p with (_, e) => layout e end) es)
  | ARef => LayoutModel.array_ref_t
  | SRef => LayoutModel.string_ref_t
  | ORef => LayoutModel.optional_ref_t
  | VRef n => LayoutModel.variant_ref_t n
  | FRef => LayoutModel.function_ref_t
  end.
Definition standard (t : ty) : bool := LayoutModel.standard_layout (layout t).
Definition has (t : ty) (o : op) : bool := match trait t o with Some _ => true | None => false end.
Definition nothrow (t : ty) (o : op) : bool := match trait t o with Some n => n | None => false end.

(** vector.hpp:20-27 and, for arrays (30 is about const), array.hpp:30-38 *)
Definition vector_element (t : ty) : bool :=
  standard t && has t DefaultC && has t CopyC && nothrow t MoveC && has t CopyA && nothrow t MoveA && nothrow t DestroyO && nothrow t SwapO.
Definition array_element (t : ty) : bool :=
  standard t && has t DefaultC && has t CopyC && nothrow t MoveC && has t CopyA && nothrow t MoveA && nothrow t DestroyO && nothrow t SwapO.
(** vector.hpp:29-33 the size *)
Definition max_capacity (t : ty) : N := (2 ^ (8 * LayoutModel.word - 1) - 1) / LayoutModel.sizeof (layout t).
(** optional.hpp:18-24 *)
Definition optional_element (t : ty) : bool :=
  standard t && has t CopyC && nothrow t MoveC && has t CopyA && nothrow t MoveA && nothrow t DestroyO && nothrow t SwapO.
(** variant.hpp:182-187 *)
Definition variant_element (t : ty) : bool :=
  standard t && has t CopyC && nothrow t MoveC && nothrow t DestroyO && nothrow t SwapO.
(** tuple.hpp:13-24 is_abi_compatible_v, of the type without const *)
Definition tuple_element (t : ty) : bool :=
  standard t && has t DefaultC && has t CopyC && nothrow t MoveC && has t CopyA && nothrow t MoveA && nothrow t DestroyO && nothrow t SwapO.

(** all static_asserts of the classes that [t] mentions hold; variant.hpp:180, 188, 191,
    tuple.hpp:83; a variant_ref has a Head (variant_ref.hpp:94-95) *)
Fixpoint accepted (t : ty) : Prop :=
  match t with
  | Base _ | Str | Bits _ | ARef | SRef | ORef | FRef => True
  | Vec e => accepted e ∧ vector_element e = true ∧ 10 < max_capacity e
  | Opt e => accepted e ∧ optional_element e = true
  | Var es =>
      foldr and True (map accepted es) ∧ forallb variant_element es = true ∧ es ≠ [] ∧ (length es ≤ 254)%nat ∧ NoDup es ∧
      LayoutModel.variant_compiles (map layout es) = true
  | Arr e _ => accepted e ∧ array_element e = true
  | Tup es => foldr and True (map (λ p : bool * ty, match p with (_, e) => accepted e end) es) ∧ forallb (λ p, tuple_element p.2) es = true
  | VRef n => (0 < n)%nat
  end.

(** ** Members of vector that are instantiated on use *)
Inductive vmember :=
  | Grow       (* vector(count), resize(count): vector.hpp:262, 316, 223-233 *)
  | Fill       (* resize(count, value) and the constructor: 263, 317 *)
  | Insert     (* insert, assign, emplace, push_back: 189-220, 298-301, 333-338, 349-361 *)
  | Erase      (* erase: 340-347 *)
  | Reserve    (* reserve, shrink_to_fit: 308-314, 319-326 *)
  | Clear.     (* clear, pop_back: 303-306, 328-331 *)
Definition member_uses (m : vmember) : list op :=
  match m with
  | Grow => [DefaultC; MoveC; MoveA; DestroyO]
  | Fill => [CopyC; MoveC; MoveA; DestroyO]
  | Insert => [CopyC; MoveC; MoveA; SwapO; DestroyO]
  | Erase => [MoveA; DestroyO]
  | Reserve => [MoveC; DestroyO]
  | Clear => [DestroyO]
  end.
Definition member_compiles (e : ty) (m : vmember) : bool :=
  forallb (λ o, match call (trait e o) (body e o) with Rejected => false | _ => true end) (member_uses m).
End elements.
