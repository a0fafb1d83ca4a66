(** Model of expressions with iterators of different kinds: operators and conversions of the iterator
    classes of array.hpp:71-163, vector.hpp:92-187, string.hpp:140-235, array_ref.hpp:63-155 and
    string_ref.hpp:26-114, with overload resolution ([over.match.oper], [over.match.best], private
    functions take part in it and are rejected afterwards, [class.access]).

    Simplified: all iterators of a container point into one array, positions are numbers (pointers are
    modelled in IterModel.v); integers fit into std::ptrdiff_t; the operators of the container itself are
    left out (nothing makes containers of iterators). *)
From stdpp Require Import prelude.
From Coq Require Import ZArith.

Inductive cls := CArray | CVector | CString | CArrayRef | CStringRef.
Global Instance cls_eq : EqDecision cls.
Proof. solve_decision. Defined.
(** a specialisation: its element type, whether that is const, and what else tells it from others *)
Record container := Container { c_cls : cls; c_elem : nat; c_const : bool; c_id : nat }.
Global Instance container_eq : EqDecision container.
Proof. solve_decision. Defined.
(** contiguous_iterator<i_const> of a container; that of string_ref.hpp:26 points to const characters *)
Record ity := It { i_cont : container; i_const : bool }.
Global Instance ity_eq : EqDecision ity.
Proof. solve_decision. Defined.
(** iterator and const_iterator: array.hpp:172-173, vector.hpp:242-243, string.hpp:292-293,
    array_ref.hpp:165-166, string_ref.hpp:115 *)
Definition iterator (c : container) : ity := It c (match c_cls c with CStringRef => true | _ => false end).
Definition const_iterator (c : container) : ity := It c true.
(** pointer: array.hpp:77, string_ref.hpp:31 and alike *)
Definition points_to_const (t : ity) : bool := i_const t || c_const (i_cont t).

Inductive expr :=
  | EIter (t : ity) (p : Z)
  | ERev (t : ity) (p : Z)                          (* std::reverse_iterator<t> whose base() is at p *)
  | EPtr (elem : nat) (konst : bool) (p : Z)        (* a pointer to elements *)
  | EInt (ptrdiff : bool) (n : Z)                   (* an integer: std::ptrdiff_t or of another type *)
  | EZero                                           (* the literal 0 *)
  | ENull.                                          (* nullptr *)
Inductive val := VIter (t : ity) (p : Z) | VNull (t : ity) | VInt (n : Z) | VBool (b : bool).
Inductive param := PIter (t : ity) | PDiff.         (* by value or const &; difference_type *)

Inductive rank := Exact | Conversion | UserDefined.
Definition rank_lt (r s : rank) : bool :=
  match r, s with Exact, (Conversion | UserDefined) | Conversion, UserDefined => true | _, _ => false end.
(** who may use a function: everybody or the container (with its nested classes, [class.friend]) *)
Inductive access := Public | Private (c : container).
(** [None]: code outside of the containers *)
Definition allowed (ctx : option container) (a : access) : bool :=
  match a with Public => true | Private c => bool_decide (ctx = Some c) end.

(** conversion functions from [u] to [t] (those to the own class are never used): array.hpp:135,
    vector.hpp:156 and 184 (private), string.hpp:204 and 232 (private), array_ref.hpp:127 *)
Definition conv_fn (u t : ity) : option access :=
  if decide (i_cont u = i_cont t) then
    match c_cls (i_cont u), i_const u, i_const t with
    | (CArray | CVector | CString | CArrayRef), false, true => Some Public
    | (CVector | CString), true, false => Some (Private (i_cont u))
    | _, _, _ => None
    end
  else None.
(** implicit conversion sequences; contiguous_iterator(pointer) is private: array.hpp:160,
    vector.hpp:181, string.hpp:229, array_ref.hpp:152, string_ref.hpp:111 *)
Definition conv (e : expr) (p : param) : option (rank * access * val) :=
  match p, e with
  | PIter t, EIter u q =>
      if decide (u = t) then Some (Exact, Public, VIter t q)
      else (λ a, (UserDefined, a, VIter t q)) <$> conv_fn u t
  | PIter t, EPtr el k q =>
      if (el =? c_elem (i_cont t)) && (negb k || points_to_const t) then Some (UserDefined, Private (i_cont t), VIter t q) else None
  | PIter t, (EZero | ENull) => Some (UserDefined, Private (i_cont t), VNull t)
  | PDiff, EInt b n => Some (if b then Exact else Conversion, Public, VInt n)
  | PDiff, EZero => Some (Conversion, Public, VInt 0)
  | _, _ => None
  end.

Inductive op := OEq | ONe | OLt | OLe | OGt | OGe | OMinus | OPlus.
Global Instance op_eq : EqDecision op.
Proof. solve_decision. Defined.
(** what a friend does with its arguments *)
Inductive body := BEq | BNe | BLt | BLe | BGt | BGe | BDiff | BMinus | BPlus | BPlusLeft.
Record fn := Fn { f_left : param; f_right : param; f_body : body }.
(** the friends of an iterator class, array.hpp:111-155 and alike *)
Definition friends (t : ity) (o : op) : list fn :=
  match o with
  | OEq => [Fn (PIter t) (PIter t) BEq]
  | ONe => [Fn (PIter t) (PIter t) BNe]
  | OLt => [Fn (PIter t) (PIter t) BLt]
  | OLe => [Fn (PIter t) (PIter t) BLe]
  | OGt => [Fn (PIter t) (PIter t) BGt]
  | OGe => [Fn (PIter t) (PIter t) BGe]
  | OMinus => [Fn (PIter t) PDiff BMinus; Fn (PIter t) (PIter t) BDiff]
  | OPlus => [Fn (PIter t) PDiff BPlus; Fn PDiff (PIter t) BPlusLeft]
  end.
(** argument-dependent lookup *)
Definition found (o : op) (a b : expr) : list fn :=
  match a, b with
  | EIter t _, EIter u _ => if decide (t = u) then friends t o else friends t o ++ friends u o
  | EIter t _, _ | _, EIter t _ => friends t o
  | _, _ => []
  end.
Definition viable (a b : expr) (f : fn) : bool :=
  match conv a (f_left f), conv b (f_right f) with Some _, Some _ => true | _, _ => false end.
Definition conv_better (e : expr) (p q : param) : bool :=
  match conv e p, conv e q with Some (r, _, _), Some (s, _, _) => rank_lt r s | _, _ => false end.
Definition fn_better (a b : expr) (f g : fn) : bool :=
  negb (conv_better a (f_left g) (f_left f)) && negb (conv_better b (f_right g) (f_right f)) &&
  (conv_better a (f_left f) (f_left g) || conv_better b (f_right f) (f_right g)).
Inductive outcome := NoMatch | Ambiguous | Inaccessible | Recursion | Value (v : val).
(** the best viable function, then the access check *)
Definition resolve (ctx : option container) (fs : list fn) (a b : expr) (k : body → val → val → outcome) : outcome :=
  let vs := List.filter (viable a b) fs in
  match vs with
  | [] => NoMatch
  | _ =>
      match List.filter (λ f, length (List.filter (fn_better a b f) vs) =? length vs - 1) vs with
      | [f] =>
          match conv a (f_left f), conv b (f_right f) with
          | Some (_, x, v), Some (_, y, w) => if allowed ctx x && allowed ctx y then k (f_body f) v w else Inaccessible
          | _, _ => NoMatch
          end
      | _ => Ambiguous
      end
  end.

Definition bnot (o : outcome) : outcome := match o with Value (VBool b) => Value (VBool (negb b)) | _ => o end.
(** the bodies, array.hpp:111-155 and alike; [rec]: an operator applied to the parameters, in a member
    of the container *)
Definition run (rec : op → expr → expr → outcome) (f : body) (v w : val) : outcome :=
  match f, v, w with
  | BEq, VIter _ p, VIter _ q => Value (VBool (p =? q)%Z)
  | BLt, VIter _ p, VIter _ q => Value (VBool (p <? q)%Z)
  | BDiff, VIter _ p, VIter _ q => Value (VInt (p - q))
  | BPlus, VIter t p, VInt n => Value (VIter t (p + n))
  | BMinus, VIter t p, VInt n => Value (VIter t (p - n))
  | BPlusLeft, VInt n, VIter t p => rec OPlus (EIter t p) (EInt true n)
  | BNe, VIter t p, VIter u q => bnot (rec OEq (EIter t p) (EIter u q))
  | BGt, VIter t p, VIter u q => rec OLt (EIter u q) (EIter t p)
  | BLe, VIter t p, VIter u q => bnot (rec OGt (EIter t p) (EIter u q))
  | BGe, VIter t p, VIter u q => bnot (rec OLt (EIter t p) (EIter u q))
  | _, _, _ => NoMatch
  end.
(** [reverse.iter.ops] of the standard library: the operators of the base iterators *)
Definition reversed (o : op) : option op :=
  match o with
  | OEq => Some OEq | ONe => Some ONe | OLt => Some OGt | OGt => Some OLt | OLe => Some OGe | OGe => Some OLe
  | _ => None
  end.
(** the expression a o b, written in [ctx] *)
Fixpoint binary (fuel : nat) (ctx : option container) (o : op) (a b : expr) : outcome :=
  match fuel with
  | O => Recursion
  | S fuel' =>
      match a, b with
      | ERev t p, ERev u q =>
          match o with
          | OMinus => binary fuel' None OMinus (EIter u q) (EIter t p)
          | _ => match reversed o with Some o' => binary fuel' None o' (EIter t p) (EIter u q) | None => NoMatch end
          end
      | _, _ =>
          resolve ctx (found o a b) a b
            (run (binary fuel' (match a, b with EIter t _, _ | _, EIter t _ => Some (i_cont t) | _, _ => None end)))
      end
  end.
(** no operator nests deeper *)
Definition depth : nat := 4.
(** array.hpp:106-107 it[n] and alike: the position of *( *this + n) *)
Definition index (ctx : option container) (a n : expr) : outcome :=
  match a, conv n PDiff with
  | EIter t p, Some (_, _, VInt z) => binary depth (Some (i_cont t)) OPlus (EIter t p) (EInt true z)
  | _, _ => NoMatch
  end.
(** array.hpp:110, 122 it += n, it -= n and alike *)
Definition advance (minus : bool) (a n : expr) : outcome :=
  match a, conv n PDiff with
  | EIter t p, Some (_, _, VInt z) => Value (VIter t (if minus then p - z else p + z))
  | _, _ => NoMatch
  end.
(** t x = e; also x = e and passing e for a parameter; the implicit constructors and assignments are
    those of a pointer *)
Definition init (ctx : option container) (t : ity) (e : expr) : outcome :=
  match conv e (PIter t) with
  | Some (_, a, v) => if allowed ctx a then Value v else Inaccessible
  | None => NoMatch
  end.
(** std::reverse_iterator<t> x = e, where e is a std::reverse_iterator<u>: current(e.current) *)
Definition init_reverse (t : ity) (e : expr) : outcome :=
  match e with ERev u p => init None t (EIter u p) | _ => NoMatch end.

(** ** Functions of the containers that make iterators *)
(** begin(): return data(), here the first element at [p]; array.hpp:224, 226, vector.hpp:363-364,
    string.hpp:555-556, array_ref.hpp:224, 226, string_ref.hpp:177. data() of the views is the same for
    const objects *)
Definition begin_of (c : container) (const_this : bool) (p : Z) : outcome :=
  let ptr_const := match c_cls c with CStringRef => true | CArrayRef => c_const c | _ => const_this || c_const c end in
  init (Some c) (if const_this then const_iterator c else iterator c) (EPtr (c_elem c) ptr_const p).
(** cbegin(): return begin(); array.hpp:228, vector.hpp:365, string.hpp:557, array_ref.hpp:228,
    string_ref.hpp:179 *)
Definition cbegin_of (c : container) (p : Z) : outcome :=
  match begin_of c true p with
  | Value (VIter t q) => init (Some c) (const_iterator c) (EIter t q)
  | o => o
  end.
(** vector.hpp:341-347, string.hpp:461-465: erase returns its first argument as iterator *)
Definition erase_result (c : container) (p : Z) : outcome := init (Some c) (iterator c) (EIter (const_iterator c) p).
