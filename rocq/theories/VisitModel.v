(** Model of visit of variant (variant.hpp:99-121, 266-277) and variant_ref (variant_ref.hpp:75-84,
    133-145): which calls compile, which call operator is called and what is returned.

    The rules of the language and the types of the program are an oracle: which call operator
    overload resolution selects ([select]), its result type ([ret]), what it computes
    ([result]), and the implicit conversions of return statements ([convert], [None] if there is
    none or one of the types is void). Simplified: call operators are not ref-qualified, do not
    throw (see VariantModel.v for visitors that modify the value), and are public; a conversion
    to a reference does not dangle. *)
From stdpp Require Import prelude.
Local Open Scope nat_scope.

Inductive category := LValue | XValue.
(** an expression that designates the value of an alternative *)
Record expr := Expr { e_alt : nat; e_const : bool; e_cat : category }.

Class VisitLang := {
  op : Type;                                       (* call operators *)
  rty : Type;                                      (* result types, including void *)
  V : Type;
  select : list op → bool → expr → option op;      (* for a visitor that is const or not *)
  ret : op → expr → rty;
  result : op → expr → V → V;
  convert : rty → rty → option (V → V);            (* from, to *)
}.

Section visit.
Context `{L : VisitLang}.

(** an argument of visit: its class (which must not be final to serve as base class, as those of
    lambdas; pointers to functions are not classes), its value category and its call operators *)
Record visitor := Visitor {
  vs_class : nat; vs_base : bool; vs_lvalue : bool; vs_const : bool; vs_ops : list op }.

(** variant.hpp:107-111, variant_ref.hpp:81-82 the lambda for one alternative:
    -> Result { return visitor(...); } *)
Definition entry (f : visitor) (R : rty) (e : expr) : option (op * expr * (V → V)) :=
  match select (vs_ops f) (vs_const f) e with
  | Some o => match convert (ret o e) R with Some g => Some (o, e, g) | None => None end
  | None => None
  end.
(** variant.hpp:99-114 and variant_ref.hpp:75-84 visit with one visitor, where [args] are the
    expressions for the alternatives: Result and the table dispatch, or [None] if it does not
    compile *)
Definition visit_one (args : list expr) (f : visitor) : option (rty * list (op * expr * (V → V))) :=
  match args with
  | [] => None
  | e :: _ =>
      match select (vs_ops f) (vs_const f) e with
      | Some o => let R := ret o e in
                  match mapM (entry f R) args with Some t => Some (R, t) | None => None end
      | None => None
      end
  end.
(** variant.hpp:119, variant_ref.hpp:140 struct combined_visitor : Visitors... { using
    Visitors::operator()...; }. Visitors is a reference type for lvalues *)
Definition combinable (fs : list visitor) : bool :=
  forallb (λ f, negb (vs_lvalue f) && vs_base f && negb (bool_decide (length (vs_ops f) = 0))) fs
  && bool_decide (NoDup (vs_class <$> fs)).
Definition combined (fs : list visitor) : visitor := Visitor 0 true false false (concat (vs_ops <$> fs)).
(** variant.hpp:116-121 and variant_ref.hpp:136-145 visit *)
Definition visit (args : list expr) (fs : list visitor) : option (rty * list (op * expr * (V → V))) :=
  match fs with
  | [] => None
  | [f] => visit_one args f
  | _ => if combinable fs then visit_one args (combined fs) else None
  end.
(** variant.hpp:113, variant_ref.hpp:83 dispatch[type](storage, visitor): the operator called,
    with which expression and value, and what visit returns *)
Definition run (t : list (op * expr * (V → V))) (type : nat) (v : V) : option (op * expr * V * V) :=
  (λ x : op * expr * (V → V), (x.1.1, x.1.2, v, x.2 (result x.1.1 x.1.2 v))) <$> t !! type.

(** variant.hpp:266-277 the four overloads of visit: [const] and [move] say which one; Storage is
    const or not, *ptr is an lvalue or moved *)
Definition variant_args (n : nat) (const move : bool) : list expr :=
  (λ i, Expr i const (if move then XValue else LValue)) <$> seq 0 n.
Definition variant_visit (n : nat) (const move : bool) := visit (variant_args n const move).
(** variant_ref.hpp:133-145 visit; the i-th type is const or not *)
Definition variant_ref_args (cs : list bool) : list expr := imap (λ i c, Expr i c LValue) cs.
Definition variant_ref_visit (cs : list bool) := visit (variant_ref_args cs).
End visit.
Arguments visitor : clear implicits.
Arguments visitor _ : assert.
