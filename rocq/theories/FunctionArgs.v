(** Model of how function_ref passes arguments: from the call expression to the parameters of
    operator() (function_ref.hpp:69-73), of the instantiation of functor that dispatch points to
    (65-67), of invoke_r and std::invoke (45-50), to the parameters of the callable.

    An argument is an object of the caller, or a prvalue for a parameter by value; a temporary
    that a reference parameter binds to is one of the caller's objects. Parameters by value are
    objects of their own, on a stack: they are destroyed in reverse order when the function
    returns or throws.

    Simplified: arguments have the types of the signature's parameters, those of the callable may
    differ in being references; parameters are initialised from left to right; the callable
    sees the objects of the caller that it is given, the values of others, and may change all
    objects of the caller; it returns a value (for references see
    FunctionRefModel.v). A noexcept signature takes only callables that are noexcept, including the
    initialisation of their parameters: if that throws nevertheless, the program ends there
    already; here it ends in operator(). *)
From stdpp Require Import prelude gmap.
From Verif Require Import Cpp.
Local Open Scope nat_scope.

(** T, T &, const T &, T && *)
Inductive param := PVal | PRef | PCRef | PRRef.

Class ArgsCfg := {
  V : Type;
  moved : V → V;                 (* what a move leaves behind; V → V also for types that are only copied *)
  copy_throws : V → bool;
  move_throws : V → bool;
}.

Section model.
Context `{C : ArgsCfg}.

(** an object of the caller, or a parameter by value, counted from the bottom of the stack *)
Inductive loc := Caller (a : nat) | Param (k : nat).
Record st := St {
  objs : gmap nat V;
  stack : list V;
  copied : list loc;             (* what was copied *)
}.
(** lvalues, xvalues (of const objects) and prvalues *)
Inductive expr := Lv (l : loc) (const : bool) | Xv (l : loc) (const : bool) | Pr (v : V).

Definition lookup_loc (l : loc) (s : st) : option V :=
  match l with Caller a => objs s !! a | Param k => stack s !! k end.
Definition read (l : loc) : M st V := λ s,
  match lookup_loc l s with Some v => Ok v s | None => Stuck DeadObject end.
Definition write (l : loc) (v : V) : M st unit := λ s,
  match l with
  | Caller a => Ok tt (St (<[a := v]> (objs s)) (stack s) (copied s))
  | Param k => Ok tt (St (objs s) (<[k := v]> (stack s)) (copied s))
  end.
(** a new parameter *)
Definition push (v : V) : M st loc := λ s, Ok (Param (length (stack s))) (St (objs s) (stack s ++ [v]) (copied s)).
(** destruction of the last one *)
Definition pop : M st unit := λ s,
  match stack s with
  | [] => Stuck DeadObject
  | _ => Ok tt (St (objs s) (take (length (stack s) - 1) (stack s)) (copied s))
  end.
Definition copy_from (l : loc) : M st loc :=
  v <- read l ;;
  if copy_throws v then throw ElementThrow
  else modify (λ s, St (objs s) (stack s) (copied s ++ [l])) ;;; push v.
Definition move_from (l : loc) : M st loc :=
  v <- read l ;;
  if move_throws v then throw ElementThrow
  else write l (moved v) ;;; push v.

(** initialisation of a parameter; what does not compile is [WrongType] *)
Definition init (p : param) (e : expr) : M st loc :=
  match p, e with
  | PVal, Lv l _ | PVal, Xv l true => copy_from l
  | PVal, Xv l false => move_from l
  | PVal, Pr v => push v
  | PRef, Lv l false => ret l
  | PCRef, Lv l _ | PCRef, Xv l _ => ret l
  | PRRef, Xv l false => ret l
  | _, _ => stuck WrongType
  end.
Definition by_value (p : param) : bool := match p with PVal => true | _ => false end.
(** a function: initialise the parameters, run the body, destroy the parameters *)
Fixpoint func {R} (ps : list param) (es : list expr) (body : list loc → M st R) : M st R :=
  match ps, es with
  | [], [] => body []
  | p :: ps', e :: es' =>
      l <- init p e ;;
      r <- on_exn (func ps' es' (λ ls, body (l :: ls))) (if by_value p then pop else ret tt) ;;
      (if by_value p then pop else ret tt) ;;;
      ret r
  | _, _ => stuck WrongType
  end.
(** std::forward<Args>(args) *)
Definition forward (p : param) (l : loc) : expr :=
  match p with
  | PVal | PRRef => Xv l false
  | PRef => Lv l false
  | PCRef => Lv l true
  end.
Definition forward_all (ps : list param) (ls : list loc) : list expr := zip_with forward ps ls.

(** what the callable gets of a parameter *)
Definition seen : Type := nat + V.
Context (qs : list param).                                    (* the parameters of the callable *)
Context (callable : list seen → gmap nat V → option V * gmap nat V).   (* [None]: it throws *)
Definition see (s : st) (l : loc) : option seen :=
  match l with Caller a => Some (inl a) | Param k => inr <$> stack s !! k end.
(** the body of the callable *)
Definition run_callable (ls : list loc) : M st V := λ s,
  match mapM (see s) ls with
  | None => Stuck DeadObject
  | Some ss =>
      match callable ss (objs s) with
      | (None, m) => Exn ElementThrow (St m (stack s) (copied s))
      | (Some v, m) => Ok v (St m (stack s) (copied s))
      end
  end.

Context (nothrow : bool).                                     (* is the signature noexcept? *)
Context (ps : list param).                                    (* Args *)
Definition maybe_noexcept {R} (m : M st R) : M st R := if nothrow then noexcept m else m.
(** function_ref.hpp:45-50 invoke_r: forwarding references bind to what they get, and so do those
    of std::invoke; its noexcept-specification is that of the callable *)
Definition invoke_r (es : list expr) : M st V := func qs es run_callable.
(** function_ref.hpp:65-67 functor; what is noexcept is the body, parameters are initialised by the caller *)
Definition functor (es : list expr) : M st V :=
  func ps es (λ ls, maybe_noexcept (invoke_r (forward_all ps ls))).
(** function_ref.hpp:69-73 operator() *)
Definition call_op (es : list expr) : M st V :=
  func ps es (λ ls, maybe_noexcept (functor (forward_all ps ls))).
End model.
