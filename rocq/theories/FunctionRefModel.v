(** Model of /repo/inc/ptl/function_ref.hpp.

    The program has free functions and functor objects. A functor object has a class, a state
    and may be declared const; its class may have a const and a non-const operator(). What
    the callables do is given by the environment. A function_ref has the active member of its
    union of pointers and a pointer to an instantiation of invoker::functor.

    Simplified: arguments are one value of a universe [A], states and results are values of a
    universe [V]; a callable may return a reference to an object instead of a value; copying
    and moving arguments and results does not throw; free functions have no state of their own
    (every call is recorded in [log]); all signatures have the same argument types. *)
From stdpp Require Import prelude gmap.
From Verif Require Import Cpp.
Local Open Scope nat_scope.

Section types.
Context (V : Type).
(** a callable returns a value, or a reference to (the state of) object [b] *)
Inductive answer := AVal (v : V) | ARef (b : nat).
End types.
Global Arguments AVal {V} v.
Global Arguments ARef {V} b.

Class FRefCfg := {
  V : Type;
  A : Type;
  (** [None]: it throws *)
  fun_body : nat → A → option (answer V);
  const_body : nat → V → A → option (answer V);
  mut_body : nat → V → A → option (answer V) * V;  (* also the state afterwards *)
  has_const : nat → bool;
  has_mut : nat → bool;
  (** declared noexcept *)
  nothrow_fun : nat → bool;
  nothrow_const : nat → bool;
  nothrow_mut : nat → bool;
}.

Section model.
Context `{C : FRefCfg}.

(** a callable declared noexcept does not throw *)
Record cfg_ok : Prop := CfgOk {
  ok_fun : ∀ n x, nothrow_fun n = true → is_Some (fun_body n x);
  ok_const : ∀ c s x, nothrow_const c = true → is_Some (const_body c s x);
  ok_mut : ∀ c s x, nothrow_mut c = true → is_Some (mut_body c s x).1;
}.

(** Result(Args...) with its qualifiers; [g_ref]: Result is a const reference *)
Record sig := Sig { g_const : bool; g_noexcept : bool; g_ref : bool }.
Global Instance sig_eq_dec : EqDecision sig.
Proof. solve_decision. Defined.

Inductive target := TFun (n : nat) | TObj (a : nat).
(** function_ref.hpp:16-42 storage_t: which member of the union is active, and what it points to *)
Inductive storage := SPtr (t : target) | SCPtr (a : nat).
(** function_ref.hpp:65-67 the instantiations functor<T>: T is a function type, or class [c],
    const-qualified or not *)
Inductive functor := DFun | DObj (c : nat) (k : bool).
(** function_ref.hpp:107-108 *)
Record fref := FRef { f_sig : sig; f_storage : storage; f_dispatch : functor }.
Record object := Object { ob_class : nat; ob_const : bool; ob_state : V }.
(** calls received by callables: which one, by its const operator() or not, with what *)
Record world := World { objs : gmap nat object; refs : gmap nat fref; log : list (target * bool * A) }.

Definition get_ref (x : nat) : M world fref := λ w, match refs w !! x with Some r => Ok r w | None => Stuck NoObject end.
Definition put_ref (x : nat) (r : fref) : M world unit := λ w, Ok tt (World (objs w) (<[x:=r]> (refs w)) (log w)).
Definition get_obj (a : nat) : M world object := λ w, match objs w !! a with Some o => Ok o w | None => Stuck DeadObject end.
Definition put_obj (a : nat) (o : object) : M world unit := λ w, Ok tt (World (<[a:=o]> (objs w)) (refs w) (log w)).
Definition record (t : target) (k : bool) (x : A) : M world unit := λ w, Ok tt (World (objs w) (refs w) (log w ++ [(t, k, x)])).
Definition or_throw (o : option (answer V)) : M world (answer V) := match o with Some r => ret r | None => throw ElementThrow end.

(** ** Calls of callables *)
Definition call_fun (n : nat) (x : A) : M world (answer V) := record (TFun n) false x ;;; or_throw (fun_body n x).
(** operator() of the object at [a], accessed as class [c], const if [k]: overload resolution
    prefers the non-const operator() for a non-const object *)
Definition call_obj (c : nat) (k : bool) (a : nat) (x : A) : M world (answer V) :=
  o <- get_obj a ;;
  if negb (ob_class o =? c) then stuck WrongType
  else if ob_const o && negb k then stuck WrongType
  else if k || negb (has_mut c) then record (TObj a) true x ;;; or_throw (const_body c (ob_state o) x)
  else
    record (TObj a) false x ;;;
    let '(r, s) := mut_body c (ob_state o) x in
    put_obj a (Object (ob_class o) (ob_const o) s) ;;; or_throw r.

(** function_ref.hpp:35-41 get<T>() followed by the call, for T a function type *)
Definition st_call_fun (s : storage) (x : A) : M world (answer V) :=
  match s with SPtr (TFun n) => call_fun n x | SPtr (TObj _) => stuck WrongType | SCPtr _ => stuck InactiveMember end.
(** and for T a class *)
Definition st_call_obj (s : storage) (c : nat) (k : bool) (x : A) : M world (answer V) :=
  match s, k with
  | SCPtr a, true => call_obj c true a x
  | SPtr (TObj a), false => call_obj c false a x
  | SPtr (TFun _), false => stuck WrongType
  | _, _ => stuck InactiveMember
  end.
(** function_ref.hpp:45-50 invoke_r: the return type is auto, so a reference is decayed: its
    referent is copied *)
Definition invoke_r (m : M world (answer V)) : M world V :=
  r <- m ;; match r with AVal v => ret v | ARef b => o <- get_obj b ;; ret (ob_state o) end.
(** what the caller gets: a value, or a reference to an object that is gone *)
Inductive result := RVal (v : V) | RRef (b : nat) | RDangling.
(** function_ref.hpp:65-67 functor<T>: Result is initialised from what invoke_r returned; if
    Result is a reference it refers to that temporary, which dies on return *)
Definition run_functor (g : sig) (d : functor) (s : storage) (x : A) : M world result :=
  (if g_noexcept g then noexcept else id) (
    v <- invoke_r (match d with DFun => st_call_fun s x | DObj c k => st_call_obj s c k x end) ;;
    ret (if g_ref g then RDangling else RVal v)).

(** ** Members *)
(** function_ref.hpp:55-58 is_invocable_using for a function *)
Definition invocable_fun (g : sig) (n : nat) : bool := negb (g_noexcept g) || nothrow_fun n.
(** and for an lvalue of class [c], const if [k] *)
Definition invocable_obj (g : sig) (c : nat) (k : bool) : bool :=
  if k || negb (has_mut c) then has_const c && (negb (g_noexcept g) || nothrow_const c)
  else negb (g_noexcept g) || nothrow_mut c.
(** function_ref.hpp:110-111 function_ref(F * func) *)
Definition fr_bind_fun (x : nat) (g : sig) (n : nat) : M world unit :=
  if invocable_fun g n then noexcept (put_ref x (FRef g (SPtr (TFun n)) DFun)) else stuck Precondition.
(** function_ref.hpp:113-115 function_ref(F &&) where the expression denotes the object at [a]
    and is const if the object is or the caller says so; const_<T> is only used to check *)
Definition fr_bind_obj (x : nat) (g : sig) (kexpr : bool) (a : nat) : M world unit :=
  o <- get_obj a ;;
  let k := kexpr || ob_const o in
  if invocable_obj g (ob_class o) (g_const g || k) then
    noexcept (put_ref x (FRef g (if k then SCPtr a else SPtr (TObj a)) (DObj (ob_class o) k)))
  else stuck Precondition.
(** function_ref.hpp:117-120 copy construction and assignment *)
Definition fr_copy (x y : nat) : M world unit := noexcept (r <- get_ref y ;; put_ref x r).
Definition fr_assign (x y : nat) : M world unit := noexcept (
  t <- get_ref x ;; r <- get_ref y ;;
  if decide (f_sig t = f_sig r) then put_ref x r else stuck Precondition).
(** function_ref.hpp:110-111, 119-120: assignment from a function pointer *)
Definition fr_assign_fun (x : nat) (n : nat) : M world unit :=
  t <- get_ref x ;; fr_bind_fun x (f_sig t) n.
Definition fr_destroy (x : nat) : M world unit :=
  get_ref x ;;; λ w, Ok tt (World (objs w) (delete x (refs w)) (log w)).
(** function_ref.hpp:69-73 operator() *)
Definition fr_call (x : nat) (v : A) : M world result :=
  r <- get_ref x ;;
  (if g_noexcept (f_sig r) then noexcept else id) (run_functor (f_sig r) (f_dispatch r) (f_storage r) v).

(** ** Calls and histories *)
Inductive frop :=
  | FNewObj (a c : nat) (k : bool) (v : V) | FSetObj (a : nat) (v : V) | FReadObj (a : nat) | FDelObj (a : nat)
  | FBindFun (x : nat) (g : sig) (n : nat) | FBindObj (x : nat) (g : sig) (k : bool) (a : nat)
  | FCopy (x y : nat) | FAssign (x y : nat) | FAssignFun (x n : nat) | FDel (x : nat) | FCall (x : nat) (v : A).
Inductive frobs := BUnit | BVal (v : V) | BResult (r : result) | BThrew (e : exn).

Definition frexec (o : frop) : M world frobs :=
  match o with
  | FNewObj a c k v => λ w, match objs w !! a with
      Some _ => Stuck LiveOverwritten | None => (put_obj a (Object c k v) ;;; ret BUnit) w end
  | FSetObj a v => o <- get_obj a ;; if ob_const o then stuck WrongType else put_obj a (Object (ob_class o) false v) ;;; ret BUnit
  | FReadObj a => o <- get_obj a ;; ret (BVal (ob_state o))
  | FDelObj a => get_obj a ;;; λ w, Ok BUnit (World (delete a (objs w)) (refs w) (log w))
  | FBindFun x g n => fr_bind_fun x g n ;;; ret BUnit
  | FBindObj x g k a => fr_bind_obj x g k a ;;; ret BUnit
  | FCopy x y => fr_copy x y ;;; ret BUnit
  | FAssign x y => fr_assign x y ;;; ret BUnit
  | FAssignFun x n => fr_assign_fun x n ;;; ret BUnit
  | FDel x => fr_destroy x ;;; ret BUnit
  | FCall x v => r <- fr_call x v ;; ret (BResult r)
  end.
Inductive hist := Finished (rs : list frobs) (w : world) | Faulted (f : fault) | Aborted.
Fixpoint frrun (os : list frop) (w : world) : hist :=
  match os with
  | [] => Finished [] w
  | o :: os' =>
      let go r w' := match frrun os' w' with Finished rs w'' => Finished (r :: rs) w'' | h => h end in
      match frexec o w with
      | Ok r w' => go r w'
      | Exn e w' => go (BThrew e) w'
      | Stuck f => Faulted f
      | Terminated => Aborted
      end
  end.
Definition init_world : world := World ∅ ∅ [].
End model.
