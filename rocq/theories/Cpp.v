(** Outcomes of C++ code.

    Every modelled member function of PTL is a total Gallina function of type
    [M S A]: given a state it returns normally, throws, runs into undefined
    behaviour (or a resource leak, which is treated as equally fatal), or calls
    std::terminate because an exception tried to leave a noexcept function. *)
From stdpp Require Import prelude.

(** The exception classes thrown by /repo/inc/ptl/*.hpp, plus [ElementThrow] for
    whatever a user-supplied copy constructor throws. *)
Inductive exn :=
  | OutOfRange            (* std::out_of_range *)
  | LengthError           (* std::length_error *)
  | BadAlloc              (* std::bad_alloc and std::bad_array_new_length *)
  | BadOptionalAccess     (* std::bad_optional_access *)
  | BadVariantAccess      (* std::bad_variant_access *)
  | ElementThrow.         (* thrown by a constructor/assignment of a user type *)

Global Instance exn_eq_dec : EqDecision exn.
Proof. solve_decision. Defined.

(** Why an execution is meaningless. *)
Inductive fault :=
  | OutOfBounds           (* access outside an array *)
  | NullDeref             (* access through a null pointer *)
  | DeadObject            (* read/assign/destroy of an object that is not alive *)
  | LiveOverwritten       (* construction on top of a live object *)
  | LiveFreed             (* memory released while objects in it are alive *)
  | UseAfterFree          (* access to or release of memory not allocated *)
  | InactiveMember        (* read of a union member that is not active *)
  | Uninitialised         (* read of an indeterminate value *)
  | WrongType             (* object accessed as another type *)
  | WrongModule           (* memory released by another module than the one that allocated it *)
  | NoObject              (* the object designated does not exist *)
  | Precondition.         (* documented precondition violated by the caller *)

Inductive res (S A : Type) : Type :=
  | Ok (a : A) (s : S)
  | Exn (e : exn) (s : S)
  | Stuck (f : fault)
  | Terminated.
Global Arguments Ok {S A} a s.
Global Arguments Exn {S A} e s.
Global Arguments Stuck {S A} f.
Global Arguments Terminated {S A}.

Definition M (S A : Type) : Type := S → res S A.

Definition ret {S A} (a : A) : M S A := λ s, Ok a s.
Definition bind {S A B} (m : M S A) (k : A → M S B) : M S B := λ s,
  match m s with
  | Ok a s' => k a s'
  | Exn e s' => Exn e s'
  | Stuck f => Stuck f
  | Terminated => Terminated
  end.
Definition throw {S A} (e : exn) : M S A := λ s, Exn e s.
Definition stuck {S A} (f : fault) : M S A := λ _, Stuck f.
Definition get {S} : M S S := λ s, Ok s s.
Definition put {S} (s' : S) : M S unit := λ _, Ok tt s'.
Definition modify {S} (f : S → S) : M S unit := λ s, Ok tt (f s).

(** [on_exn m c]: run the cleanup [c] if [m] throws, then rethrow: stack unwinding. *)
Definition on_exn {S A} (m : M S A) (c : M S unit) : M S A := λ s,
  match m s with
  | Exn e s' =>
      match c s' with
      | Ok _ s'' => Exn e s''
      | Exn _ _ => Terminated
      | Stuck f => Stuck f
      | Terminated => Terminated
      end
  | r => r
  end.

(** A function declared noexcept: an escaping exception calls std::terminate. *)
Definition noexcept {S A} (m : M S A) : M S A := λ s,
  match m s with Exn _ _ => Terminated | r => r end.

Declare Scope cpp_scope.
Delimit Scope cpp_scope with cpp.
Notation "x <- m ;; k" := (bind m (λ x, k)) (at level 100, m at next level, right associativity) : cpp_scope.
Notation "m ;;; k" := (bind m (λ _, k)) (at level 100, right associativity) : cpp_scope.
Global Open Scope cpp_scope.

(** [run_to m s Q E]: started in [s], [m] neither hits a fault nor terminates the
    program; if it returns [a] in state [s'] then [Q a s'], if it throws [e] in
    state [s'] then [E e s']. *)
Definition run_to {S A} (m : M S A) (s : S) (Q : A → S → Prop) (E : exn → S → Prop) : Prop :=
  match m s with
  | Ok a s' => Q a s'
  | Exn e s' => E e s'
  | Stuck _ => False
  | Terminated => False
  end.

Definition never {S} : exn → S → Prop := λ _ _, False.

Lemma run_to_ret {S A} (a : A) (s : S) (Q : A → S → Prop) (E : exn → S → Prop) : Q a s → run_to (ret a) s Q E.
Proof. done. Qed.

Lemma run_to_bind {S A B} (m : M S A) (k : A → M S B) s Q E :
  run_to m s (λ a s', run_to (k a) s' Q E) E → run_to (bind m k) s Q E.
Proof. unfold run_to, bind. by destruct (m s). Qed.

Lemma run_to_mono {S A} (m : M S A) s (Q Q' : A → S → Prop) (E E' : exn → S → Prop) :
  run_to m s Q E → (∀ a s', Q a s' → Q' a s') → (∀ e s', E e s' → E' e s') → run_to m s Q' E'.
Proof. unfold run_to. destruct (m s); naive_solver. Qed.

Lemma run_to_on_exn {S A} (m : M S A) (c : M S unit) s Q E :
  run_to m s Q (λ e s', run_to c s' (λ _ s'', E e s'') never) → run_to (on_exn m c) s Q E.
Proof.
  unfold run_to, on_exn, never. destruct (m s) as [? ?|? s'|?|]; try done. by destruct (c s').
Qed.

Lemma run_to_noexcept {S A} (m : M S A) s Q E :
  run_to m s Q never → run_to (noexcept m) s Q E.
Proof. unfold run_to, noexcept, never. by destruct (m s). Qed.
