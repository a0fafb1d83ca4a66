(** C76: assignment to an optional selects the right overload. *)
From stdpp Require Import prelude.
From Verif Require Import OptionalAssign.
Local Open Scope nat_scope.

Global Instance arg_eq_dec : EqDecision arg.
Proof. solve_decision. Defined.

(** ranks of conversions that exist *)
Definition arg_ok (a : arg) : Prop := match a with Other (Some r) => r ≤ 3 | _ => True end.
(** what an assignment means: the optional is what the right-hand side is *)
Definition meaning {V} (a : arg) (opt : option V) (val : V) : option V :=
  match a with
  | Braces | Null => None
  | Opt _ _ => opt
  | Val _ _ | Other _ => Some val
  end.
Definition assignable (a : arg) : Prop := match a with Other None => False | _ => True end.

Lemma resolve_other T r : r ≤ 3 → resolve T (Other (Some r)) = Chosen AValueMove.
Proof. intros H. destruct r as [|[|[|[|r]]]]; try reflexivity. lia. Qed.

(** for every argument but {}, assignment compiles and does what it means, and values are moved
    exactly if they are modifiable temporaries *)
Theorem C76_assignment_partial {V} T a (opt : option V) val zero :
  arg_ok a → assignable a → a ≠ Braces →
  ∃ o, resolve T a = Chosen o ∧ assign o a opt val zero = meaning a opt val ∧
    (is_move o = true ↔ match a with Opt c l | Val c l => c = false ∧ l = false | Other _ => True | _ => False end).
Proof.
  intros Hok Has Hb. destruct a as [| |c l|c l|[r|]]; try done.
  - exists ANull. split; [by destruct T as [[] [] [] []]|]. done.
  - exists (if c || l then ACopy else AMove). destruct c, l; (split; [by destruct T as [[] [] [] []]|]); cbn; naive_solver.
  - exists (if c || l then AValue else AValueMove). destruct c, l; (split; [by destruct T as [[] [] [] []]|]); cbn; naive_solver.
  - exists AValueMove. split; [by apply resolve_other|]. done.
Qed.
(** and an assignment has no overload exactly if the right-hand side does not convert to the type *)
Theorem C76_rejected T a : arg_ok a → resolve T a = NoMatch ↔ ¬ assignable a.
Proof.
  intros Hok. split.
  - intros H Ha. destruct (decide (a = Braces)) as [->|Hb]; [by destruct T as [[] [] [] []]|].
    destruct (C76_assignment_partial T a (@None unit) () () Hok Ha Hb) as (o & Ho & _). congruence.
  - intros H. destruct a as [| | | |[]]; cbn in H; try (exfalso; by apply H). by destruct T as [[] [] [] []].
Qed.
(** assignment of {}: empties the optional only if {} does not initialise the type *)
Theorem C76_braces_behaviour T :
  resolve T Braces =
    if negb (empty_braces T) then Chosen AMove else if scalar T then Chosen AValueMove else Ambiguous.
Proof. by destruct T as [[] [] [] []]. Qed.
Theorem C76_braces_partial {V} T (opt : option V) val zero :
  empty_braces T = false → ∃ o, resolve T Braces = Chosen o ∧ assign o Braces opt val zero = meaning Braces opt val.
Proof. intros H. exists AMove. split; [|done]. rewrite C76_braces_behaviour, H. done. Qed.
(** opt = {} gives an optional<int> the value 0 *)
Theorem C76_braces_refuted {V} T (opt : option V) val zero :
  scalar T = true → empty_braces T = true →
  ∃ o, resolve T Braces = Chosen o ∧ assign o Braces opt val zero = Some zero ∧ meaning Braces opt val = None.
Proof. intros H1 H2. exists AValueMove. split; [|done]. rewrite C76_braces_behaviour, H1, H2. done. Qed.
(** and does not compile for classes with a default constructor *)
Theorem C76_braces_class_refuted T : scalar T = false → empty_braces T = true → resolve T Braces = Ambiguous.
Proof. intros H1 H2. by rewrite C76_braces_behaviour, H1, H2. Qed.

(** ** Examples: int, a class with a default constructor, a class without *)
Definition int_t := Type_ true true false false.
Definition class_t := Type_ false true true true.
Definition nodefault_t := Type_ false false true false.
Example C76_case :
  resolve int_t (Val false true) = Chosen AValue ∧ resolve int_t (Other (Some 2)) = Chosen AValueMove ∧
  resolve class_t (Other (Some 3)) = Chosen AValueMove ∧ resolve class_t (Opt false true) = Chosen ACopy ∧
  resolve nodefault_t (Opt false false) = Chosen AMove ∧ resolve nodefault_t Null = Chosen ANull ∧
  arg_ok (Other (Some 3)) ∧ assignable (Other (Some 3)).
Proof. repeat split; by vm_compute || (cbn; lia). Qed.
Example C76_braces_case :
  resolve int_t Braces = Chosen AValueMove ∧ assign AValueMove Braces (Some 5) 7 0 = Some 0 ∧
  resolve class_t Braces = Ambiguous ∧ resolve nodefault_t Braces = Chosen AMove.
Proof. by vm_compute. Qed.

Print Assumptions C76_assignment_partial.
Print Assumptions C76_rejected.
Print Assumptions C76_braces_behaviour.
Print Assumptions C76_braces_partial.
Print Assumptions C76_braces_refuted.
Print Assumptions C76_braces_class_refuted.
