(** The test cases "variant visit" (/repo/test/variant.cpp:63-191) and "variant_ref visit"
    (/repo/test/variant_ref.cpp:36-55), run in the model: which of the lambdas is called. They are a check of the
    model against what the authors expect of the code; the properties are in VisitProps.v. *)
From stdpp Require Import prelude.
From Coq Require Import ZArith.
From Verif Require Import VisitModel.
Local Open Scope nat_scope.

(** the parameter of a lambda: of type int (alternative 0) or double (1), by value or by one of the four kinds of
    reference; or const auto & with -> double *)
Inductive param := ByValue (a : nat) | ByRef (a : nat) (const : bool) (cat : category) | Generic.
(** how well an argument suits a parameter: [None] not at all, otherwise the lower the better. Identity
    before binding to const, before a conversion between int and double. A non-const lvalue reference binds
    neither to rvalues nor to const; an rvalue reference binds to no lvalue of its type *)
Definition rank (e : expr) (p : param) : option nat :=
  match p with
  | Generic => Some 2
  | ByValue a => Some (if a =? e_alt e then 0 else 9)
  | ByRef a c k =>
      if a =? e_alt e then
        match k, e_cat e with
        | LValue, LValue => if c then Some (if e_const e then 0 else 1) else if e_const e then None else Some 0
        | LValue, XValue => if c then Some (if e_const e then 3 else 4) else None
        | XValue, LValue => None
        | XValue, XValue => if c then Some (if e_const e then 0 else 1) else if e_const e then None else Some 0
        end
      else match k, c with LValue, false => None | _, _ => Some 9 end
  end.
(** the best one, if it is better than all others *)
Fixpoint best (e : expr) (l : list param) : option (param * nat * bool) :=
  match l with
  | [] => None
  | p :: l' =>
      match rank e p, best e l' with
      | None, r => r
      | Some n, None => Some (p, n, true)
      | Some n, Some (q, m, u) => if n <? m then Some (p, n, true) else if n =? m then Some (q, m, false) else Some (q, m, u)
      end
  end.
Definition resolve (e : expr) (l : list param) : option param :=
  match best e l with Some (p, _, true) => Some p | _ => None end.

Inductive rt := Void | Dbl.
#[local] Instance rt_dec : EqDecision rt.
Proof. solve_decision. Defined.
(** values are doubles in tenths; lambdas return nothing (0), except the generic one *)
#[local] Instance lang : VisitLang := {
  op := param; rty := rt; V := Z;
  select l _ e := resolve e l;
  ret o _ := match o with Generic => Dbl | _ => Void end;
  result o e v := match o with Generic => v | _ => 0%Z end;
  convert a b := if decide (a = b) then Some id else None }.
Definition lambda (n : nat) (p : param) : visitor lang := Visitor n true false true [p : @op lang].
(** test/variant.cpp:65-74: the eight lambdas *)
Definition eight : list (visitor lang) :=
  imap lambda [ByRef 0 false LValue; ByRef 1 false LValue; ByRef 0 true LValue; ByRef 1 true LValue;
               ByRef 0 false XValue; ByRef 1 false XValue; ByRef 0 true XValue; ByRef 1 true XValue].
(** the lambda called on a variant that holds alternative [i] *)
Definition called (const move : bool) (i : nat) : option (@op lang) :=
  t ← variant_visit 2 const move eight; r ← run t.2 i (0%Z : @V lang); Some (r.1.1.1).
Example variant_visit_int :
  called false false 0 = Some (ByRef 0 false LValue) ∧ called true false 0 = Some (ByRef 0 true LValue)
  ∧ called false true 0 = Some (ByRef 0 false XValue) ∧ called true true 0 = Some (ByRef 0 true XValue).
Proof. by vm_compute. Qed.
Example variant_visit_double :
  called false false 1 = Some (ByRef 1 false LValue) ∧ called true false 1 = Some (ByRef 1 true LValue)
  ∧ called false true 1 = Some (ByRef 1 false XValue) ∧ called true true 1 = Some (ByRef 1 true XValue).
Proof. by vm_compute. Qed.
(** test/variant.cpp:150, 190: what visit returns, with the result type *)
Definition value_of (i : nat) (v : Z) : option (rt * Z) :=
  t ← variant_visit 2 false false [lambda 0 Generic]; r ← run t.2 i (v : @V lang); Some (t.1, r.2).
Example variant_visit_value : value_of 1 15 = Some (Dbl, 15%Z) ∧ value_of 0 10 = Some (Dbl, 10%Z).
Proof. by vm_compute. Qed.

(** test/variant_ref.cpp:36-55: variant_ref<const int, const double>, lambdas that take values *)
Definition called_ref (i : nat) : option (@op lang) :=
  t ← variant_ref_visit [true; true] (imap lambda [ByValue 0; ByValue 1]); r ← run t.2 i (0%Z : @V lang); Some (r.1.1.1).
Example variant_ref_visit : called_ref 0 = Some (ByValue 0) ∧ called_ref 1 = Some (ByValue 1).
Proof. by vm_compute. Qed.
