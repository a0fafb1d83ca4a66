(** Model of the calls with two iterators, or with a count and a value: overload resolution
    (vector.hpp:257-263, 333-338, 349-361; string.hpp:308-323, 421-442, 444-458, 467-493,
    495-529) and the calls by which the members use each other (vector.hpp:249, 252, 265, 268,
    string.hpp:318, 324, 440, 456, 490, 492, 521).

    Types are those of the program: what is an iterator of which category, what converts to
    what. Standard library: std::iterator_traits has no iterator_category for types that are no
    iterators; std::copy into a std::back_inserter converts the elements implicitly,
    std::uninitialized_copy constructs them explicitly, std::copy assigns them.

    Simplified: both arguments are values (no references, no braces); an implicit conversion has
    one of three ranks; pos, first and last of insert and replace are iterators of the container. *)
From stdpp Require Import prelude.
Local Open Scope nat_scope.

Inductive rank := Exact | Conversion | UserDefined.
Definition rank_lt (r s : rank) : bool :=
  match r, s with Exact, (Conversion | UserDefined) => true | Conversion, UserDefined => true | _, _ => false end.

Class RangeLang := {
  ty : Type;
  ty_eq : EqDecision ty;
  conv : ty → ty → option rank;          (* implicit conversion *)
  constructs : ty → ty → bool;           (* [constructs t u]: is t(u) an initialisation? *)
  tag : Type;                            (* classes *)
  tag_eq : EqDecision tag;
  base_of : tag → tag → bool;            (* std::is_base_of_v *)
  input_tag : tag;
  forward_tag : tag;
  category : ty → option tag;            (* std::iterator_traits<t>::iterator_category *)
  star : ty → ty;                        (* of iterators: the type of *it *)
  size_t : ty; int_t : ty; char_t : ty;
  ptr : ty → ty;                         (* pointers, and iterators over it *)
  cptr : ty → ty;                        (* pointers to const *)
  move_iter : ty → ty;                   (* std::move_iterator of pointers *)
}.
Global Existing Instances ty_eq tag_eq.

(** members of vector and string *)
Inductive member := VCtor | VAssign | VInsert | SCtor | SAppend | SAssign | SInsert | SReplace.
Inductive overload := OInput | OForward | OCount.
Global Instance overload_eq_dec : EqDecision overload.
Proof. solve_decision. Defined.
(** what a call does: nothing, since it does not compile; store the elements of the range; store
    copies of the value *)
Inductive outcome := NoCompile | Recursion | Range | Count.

Section model.
Context `{L : RangeLang}.
Context (E : ty).                        (* value_type of the vector *)

Definition is_vector (m : member) : bool := match m with VCtor | VAssign | VInsert => true | _ => false end.
Definition element (m : member) : ty := if is_vector m then E else char_t.
(** the declared overloads: vector.hpp:257-263, 333-338, 349-361; string.hpp:308-323, 421-442,
    444-458, 467-493, 495-529; all members have the same three. Conversion ranks of the two
    arguments, [None]: not viable *)
Definition ranks (m : member) (o : overload) (a b : ty) : option (rank * rank) :=
  match o with
  | OInput => if bool_decide (a = b ∧ category a = Some input_tag) then Some (Exact, Exact) else None
  | OForward =>
      match category a with
      | Some t => if bool_decide (a = b) && base_of forward_tag t then Some (Exact, Exact) else None
      | None => None
      end
  | OCount =>
      match conv a size_t, conv b (element m) with Some r, Some s => Some (r, s) | _, _ => None end
  end.
Definition template (o : overload) : bool := match o with OCount => false | _ => true end.
(** is the overload with these ranks better? *)
Definition better (o p : overload) (r s : rank * rank) : bool :=
  negb (rank_lt s.1 r.1 || rank_lt s.2 r.2) &&
  ((rank_lt r.1 s.1 || rank_lt r.2 s.2) || (negb (template o) && template p)).
Definition beats (m : member) (a b : ty) (o p : overload) : bool :=
  bool_decide (o = p) ||
  match ranks m o a b, ranks m p a b with
  | Some r, Some s => better o p r s
  | Some _, None => true
  | None, _ => false
  end.
Definition resolve (m : member) (a b : ty) : option overload :=
  match List.filter (λ o, match ranks m o a b with Some _ => true | None => false end &&
                          forallb (beats m a b o) [OInput; OForward; OCount]) [OInput; OForward; OCount] with
  | [o] => Some o
  | _ => None
  end.

(** the bodies. Elements are converted implicitly, or constructed *)
Definition converted (m : member) (a : ty) : outcome := match conv (star a) (element m) with Some _ => Range | None => NoCompile end.
Definition constructed (m : member) (a : ty) : outcome := if constructs (element m) (star a) then Range else NoCompile.
(** a body that consists of a call, or of two *)
Definition both (x y : outcome) : outcome :=
  match x, y with
  | NoCompile, _ | _, NoCompile => NoCompile
  | Recursion, _ | _, Recursion => Recursion
  | Range, Range => Range
  | _, _ => Count
  end.
Fixpoint call (fuel : nat) (m : member) (a b : ty) : outcome :=
  match fuel with
  | O => Recursion
  | S fuel' =>
      match resolve m a b with
      | None => NoCompile
      | Some OCount => Count
      | Some OInput =>
          match m with
          | VCtor => converted m a                                    (* vector.hpp:258 *)
          | VAssign => call fuel' VCtor a b                           (* vector.hpp:334 *)
          | VInsert =>                                                (* vector.hpp:350-353 *)
              both (call fuel' VCtor a b) (call fuel' VInsert (move_iter E) (move_iter E))
          | SCtor => converted m a                                    (* string.hpp:309 *)
          | SAppend | SAssign | SInsert | SReplace => call fuel' SCtor a b   (* string.hpp:422-425, 445, 468-471, 496-500 *)
          end
      | Some OForward =>
          match m with
          | VCtor => call fuel' VAssign a b                           (* vector.hpp:260 *)
          | VAssign | VInsert => constructed m a                      (* vector.hpp:336, 355 *)
          | SCtor | SAppend | SInsert | SReplace => converted m a     (* string.hpp:311-316, 427-439, 473-489, 502-520 *)
          | SAssign => both (converted m a) (call fuel' SCtor a b)    (* string.hpp:447-455 *)
          end
      end
  end.

(** ** Members that call these *)
(** vector.hpp:249 vector(const vector &), from data() *)
Definition vec_copy (fuel : nat) : outcome := call fuel VCtor (cptr E) (cptr E).
(** vector.hpp:251-254 operator=(const vector &), from const iterators *)
Definition vec_copy_assign (fuel : nat) : outcome := call fuel VAssign (cptr E) (cptr E).
(** vector.hpp:265, 267-270, 337, 356: initializer lists *)
Definition vec_list (fuel : nat) (m : member) : outcome := call fuel m (cptr E) (cptr E).
(** vector.hpp:357 insert(pos, const Type &): insert(pos, 1, value) *)
Definition vec_insert_value (fuel : nat) : outcome := call fuel VInsert int_t E.
(** string.hpp:317-318, 324, 440, 456, 490, 521: from views and lists *)
Definition str_list (fuel : nat) (m : member) : outcome := call fuel m (cptr char_t) (cptr char_t).
(** string.hpp:492 insert(pos, ch): insert(pos, 1, ch); 345 += ch: append(1, ch) *)
Definition str_char (fuel : nat) (m : member) : outcome := call fuel m int_t char_t.
End model.

(** ** Numbers where vectors are expected *)
(** vectors of numbers, of vectors of numbers, ... *)
Inductive vty := Num | Vec (t : vty).
Inductive value := VNum (z : Z) | VVec (l : list value).
Inductive result {A : Type} := Rejected | Throws | Gives (x : A).
Global Arguments result : clear implicits.
Definition value_init (t : vty) : value := match t with Num => VNum 0 | Vec _ => VVec [] end.
Section numbers.
Context (max_size : vty → Z).
(** conversion of an integer to size_type *)
Definition to_size (z : Z) : Z := (z mod 2 ^ 64)%Z.
(** vector.hpp:262 vector(size_type): resize, which allocates; it is not explicit *)
Definition from_count (t : vty) (z : Z) : result value :=
  if (to_size z <=? max_size t)%Z then Gives (VVec (replicate (Z.to_nat (to_size z)) (value_init t))) else Throws.
(** implicit conversion of an integer to an element or vector, as in parameters *)
Definition from_number (t : vty) (z : Z) : result value :=
  match t with Num => Gives (VNum z) | Vec t' => from_count t' z end.
(** vector<t>(z) *)
Definition vec_paren (t : vty) (z : Z) : result value := from_count t z.
(** vector<t>{z}: vector.hpp:265 if z converts to t, else 262; z is a constant that fits *)
Definition vec_brace (t : vty) (z : Z) : result value :=
  match from_number t z with
  | Gives v => Gives (VVec [v])
  | Throws => Throws
  | Rejected => from_count t z
  end.
(** v = z: vector.hpp:255 with a temporary vector; 251 is the worse match, 267 is not viable *)
Definition vec_assign_number (t : vty) (z : Z) : result value := from_number (Vec t) z.
(** v.push_back(z), vector.hpp:299 *)
Definition vec_push_number (t : vty) (l : list value) (z : Z) : result value :=
  match from_number t z with Gives v => Gives (VVec (l ++ [v])) | Throws => Throws | Rejected => Rejected end.
(** v == z, vector.hpp:389-390 *)
Definition vec_equal_number (same : value → value → bool) (t : vty) (l : list value) (z : Z) : result bool :=
  match from_number (Vec t) z with
  | Gives (VVec r) => Gives ((length l =? length r) && forallb (λ p, same p.1 p.2) (zip l r))
  | Gives _ | Rejected => Rejected
  | Throws => Throws
  end.
End numbers.
