(** Model of /repo/inc/ptl/optional.hpp.

    An optional object is a slot for the value, raw ([None]) or holding a live value
    ([Some v]), and the member [initialized]. Every member function is a program over all
    optional objects, so that value arguments may refer to the value inside an optional.

    Simplified: [initialized] is a bool; Type's operations are value-like (a copy equals its
    source, a move leaves [moved v], self-move-assignment leaves [selfmove v]); a throwing copy
    assignment leaves [torn old new] in its target; Type{args...} is the function [make] of the
    argument values. Copy construction, copy assignment and construction from arguments fail
    at the environment's pleasure ([copy_fails k] for the k-th one). swap(Type &, Type &)
    exchanges the values. *)
From stdpp Require Import prelude gmap.
From Verif Require Import Cpp OrderSpec.
Local Open Scope nat_scope.

Class OptCfg := {
  V : Type;
  moved : V → V;
  selfmove : V → V;
  torn : V → V → V;
  make : list V → V;
  copy_fails : nat → bool;
}.

Section model.
Context `{C : OptCfg}.

(** optional.hpp:26-29 *)
Record opt := Opt { o_val : option V; o_initialized : bool }.
Record world := World { objs : gmap nat opt; ncopy : nat }.

(** ** Objects and their value slots *)
Definition get_opt (x : nat) : M world opt := λ w,
  match objs w !! x with Some o => Ok o w | None => Stuck NoObject end.
Definition put_opt (x : nat) (o : opt) : M world unit := λ w, Ok tt (World (<[x:=o]> (objs w)) (ncopy w)).
(** the storage of [x] goes away; a value still alive in it would be leaked *)
Definition drop_opt (x : nat) : M world unit :=
  o <- get_opt x ;;
  match o_val o with
  | Some _ => stuck LiveFreed
  | None => λ w, Ok tt (World (delete x (objs w)) (ncopy w))
  end.
Definition set_initialized (x : nat) (b : bool) : M world unit :=
  o <- get_opt x ;; put_opt x (Opt (o_val o) b).
(** read val *)
Definition rd (x : nat) : M world V :=
  o <- get_opt x ;; match o_val o with Some v => ret v | None => stuck DeadObject end.
(** new(std::addressof(val)) Type{...} with the new value [v] *)
Definition construct (x : nat) (v : V) : M world unit :=
  o <- get_opt x ;;
  match o_val o with Some _ => stuck LiveOverwritten | None => put_opt x (Opt (Some v) (o_initialized o)) end.
(** std::destroy_at(std::addressof(val)) *)
Definition destroy_at (x : nat) : M world unit :=
  o <- get_opt x ;;
  match o_val o with Some _ => put_opt x (Opt None (o_initialized o)) | None => stuck DeadObject end.
(** val becomes [v] by assignment *)
Definition store (x : nat) (v : V) : M world unit :=
  o <- get_opt x ;;
  match o_val o with Some _ => put_opt x (Opt (Some v) (o_initialized o)) | None => stuck DeadObject end.
(** an operation of Type that may throw; if it does, [c] describes the damage *)
Definition may_throw (c : M world unit) : M world unit := λ w,
  let w' := World (objs w) (S (ncopy w)) in
  if copy_fails (ncopy w) then (c ;;; throw ElementThrow) w' else Ok tt w'.

(** ** Arguments: a value of the caller, or a reference to the value inside optional [y] *)
Inductive ref := RVal (v : V) | ROpt (y : nat).
Definition rd_ref (r : ref) : M world V := match r with RVal v => ret v | ROpt y => rd y end.
Fixpoint rd_refs (l : list ref) : M world (list V) :=
  match l with [] => ret [] | r :: l' => v <- rd_ref r ;; vs <- rd_refs l' ;; ret (v :: vs) end.
(** const Type &, Type &&, Args &&... *)
Inductive arg := ACopy (r : ref) | AMove (r : ref) | AMake (l : list ref).

(** the value of Type{std::forward<Args>(args)...}; moving from a value leaves [moved] *)
Definition new_value (a : arg) : M world V :=
  match a with
  | ACopy r => v <- rd_ref r ;; may_throw (ret tt) ;;; ret v
  | AMove (RVal v) => ret v
  | AMove (ROpt y) => v <- rd y ;; store y (moved v) ;;; ret v
  | AMake l => vs <- rd_refs l ;; may_throw (ret tt) ;;; ret (make vs)
  end.
(** val = value for an lvalue *)
Definition copy_assign_val (x : nat) (r : ref) : M world unit :=
  u <- rd_ref r ;; v <- rd x ;; may_throw (store x (torn v u)) ;;; store x u.
(** val = std::move(value) *)
Definition move_assign_val (x : nat) (r : ref) : M world unit :=
  match r with
  | RVal v => store x v
  | ROpt y => v <- rd y ;; if decide (x = y) then store x (selfmove v) else store x v ;;; store y (moved v)
  end.

(** ** Members *)

(** optional.hpp:110-115 operator bool, has_value *)
Definition opt_has_value (x : nat) : M world bool := noexcept (o <- get_opt x ;; ret (o_initialized o)).

(** optional.hpp:150-155 reset *)
Definition opt_reset (x : nat) : M world unit := noexcept (
  b <- opt_has_value x ;;
  if b then destroy_at x ;;; set_initialized x false else ret tt).

(** a constructor: the members are initialised, the body runs; if it throws, the storage goes
    away without a destructor call *)
Definition construct_opt (x : nat) (b : bool) (body : M world unit) : M world unit :=
  put_opt x (Opt None b) ;;; on_exn body (drop_opt x).
(** optional.hpp:32, 34 *)
Definition opt_new (x : nat) : M world unit := noexcept (construct_opt x false (ret tt)).
(** optional.hpp:37 optional(const optional &) *)
Definition opt_new_copy (x y : nat) : M world unit :=
  b <- opt_has_value y ;;
  construct_opt x b (
    c <- opt_has_value y ;; if c then v <- new_value (ACopy (ROpt y)) ;; construct x v else ret tt).
(** optional.hpp:39 optional(optional &&) *)
Definition opt_new_move (x y : nat) : M world unit := noexcept (
  b <- opt_has_value y ;;
  construct_opt x b (
    c <- opt_has_value y ;; if c then v <- new_value (AMove (ROpt y)) ;; construct x v else ret tt)).
(** optional.hpp:42, 49 optional(const Type &), optional(std::in_place_t, Args &&...) *)
Definition opt_new_value (x : nat) (a : arg) : M world unit :=
  construct_opt x true (v <- new_value a ;; construct x v).
(** optional.hpp:44 optional(Type &&) *)
Definition opt_new_rvalue (x : nat) (r : ref) : M world unit :=
  noexcept (construct_opt x true (v <- new_value (AMove r) ;; construct x v)).

(** optional.hpp:75-82 operator=(const Type &) *)
Definition opt_assign (x : nat) (r : ref) : M world unit :=
  b <- opt_has_value x ;;
  if b then copy_assign_val x r
  else v <- new_value (ACopy r) ;; construct x v ;;; set_initialized x true.
(** optional.hpp:84-91 operator=(Type &&) *)
Definition opt_assign_rvalue (x : nat) (r : ref) : M world unit := noexcept (
  b <- opt_has_value x ;;
  if b then move_assign_val x r
  else v <- new_value (AMove r) ;; construct x v ;;; set_initialized x true).
(** optional.hpp:52-55 operator=(std::nullopt_t) *)
Definition opt_assign_null (x : nat) : M world unit := noexcept (opt_reset x).
(** optional.hpp:58-64 operator=(const optional &) *)
Definition opt_copy_assign (x y : nat) : M world unit :=
  if decide (x = y) then get_opt x ;;; ret tt
  else b <- opt_has_value y ;; if b then opt_assign x (ROpt y) else opt_reset x.
(** optional.hpp:66-72 operator=(optional &&) *)
Definition opt_move_assign (x y : nat) : M world unit := noexcept (
  if decide (x = y) then get_opt x ;;; ret tt
  else b <- opt_has_value y ;; if b then opt_assign_rvalue x (ROpt y) else opt_reset x).

(** optional.hpp:94 ~optional *)
Definition opt_destroy (x : nat) : M world unit := noexcept (opt_reset x ;;; drop_opt x).

(** optional.hpp:97-108 operator-> and operator*, followed by a read or a write *)
Definition opt_deref (x : nat) : M world V := rd x.
Definition opt_write (x : nat) (v : V) : M world unit := store x v.
(** optional.hpp:118-126 value() & *)
Definition opt_value (x : nat) : M world V :=
  b <- opt_has_value x ;; if b then opt_deref x else throw BadOptionalAccess.
(** optional.hpp:133-136 value() &&, from which the caller initialises an object *)
Definition opt_take (x : nat) : M world V :=
  b <- opt_has_value x ;; if b then new_value (AMove (ROpt x)) else throw BadOptionalAccess.
(** optional.hpp:140 value_or const & *)
Definition opt_value_or (x : nat) (d : arg) : M world V :=
  b <- opt_has_value x ;; if b then new_value (ACopy (ROpt x)) else new_value d.
(** optional.hpp:143 value_or && *)
Definition opt_take_or (x : nat) (d : arg) : M world V :=
  b <- opt_has_value x ;; if b then new_value (AMove (ROpt x)) else new_value d.

(** optional.hpp:159-166 emplace; the temporary of line 160 is [v] *)
Definition opt_emplace (x : nat) (a : arg) : M world V :=
  b <- opt_has_value x ;;
  (if b then v <- new_value a ;; store x v
   else v <- new_value a ;; construct x v ;;; set_initialized x true) ;;;
  opt_deref x.

(** optional.hpp:169-186 swap *)
Definition opt_swap (x y : nat) : M world unit := noexcept (
  if decide (x = y) then get_opt x ;;; ret tt
  else
    a <- opt_has_value x ;; b <- opt_has_value y ;;
    match a, b with
    | false, false => ret tt
    | true, false =>
        v <- new_value (AMove (ROpt x)) ;; construct y v ;;; set_initialized y true ;;;
        destroy_at x ;;; set_initialized x false
    | false, true =>
        v <- new_value (AMove (ROpt y)) ;; construct x v ;;; set_initialized x true ;;;
        destroy_at y ;;; set_initialized y false
    | true, true => u <- rd x ;; v <- rd y ;; store x v ;;; store y u
    end).

(** ** Calls and histories *)
Inductive oop :=
  | ONew (x : nat) | ONewCopy (x y : nat) | ONewMove (x y : nat)
  | ONewValue (x : nat) (a : arg) | ONewRvalue (x : nat) (r : ref) | ODestroy (x : nat)
  | OAssignNull (x : nat) | OCopyAssign (x y : nat) | OMoveAssign (x y : nat)
  | OAssign (x : nat) (r : ref) | OAssignRvalue (x : nat) (r : ref)
  | OEmplace (x : nat) (a : arg) | OReset (x : nat) | OSwap (x y : nat)
  | OWrite (x : nat) (v : V) | OHasValue (x : nat) | ODeref (x : nat) | OValue (x : nat) | OTake (x : nat)
  | OValueOr (x : nat) (d : arg) | OTakeOr (x : nat) (d : arg).
Inductive oobs := OUnit | OVal (v : V) | OBool (b : bool) | OThrew (e : exn).

Definition obs_unit (m : M world unit) : M world oobs := m ;;; ret OUnit.
Definition obs_val (m : M world V) : M world oobs := v <- m ;; ret (OVal v).
Definition obs_bool (m : M world bool) : M world oobs := b <- m ;; ret (OBool b).
Definition oexec (o : oop) : M world oobs :=
  match o with
  | ONew x => obs_unit (opt_new x)
  | ONewCopy x y => obs_unit (opt_new_copy x y)
  | ONewMove x y => obs_unit (opt_new_move x y)
  | ONewValue x a => obs_unit (opt_new_value x a)
  | ONewRvalue x r => obs_unit (opt_new_rvalue x r)
  | ODestroy x => obs_unit (opt_destroy x)
  | OAssignNull x => obs_unit (opt_assign_null x)
  | OCopyAssign x y => obs_unit (opt_copy_assign x y)
  | OMoveAssign x y => obs_unit (opt_move_assign x y)
  | OAssign x r => obs_unit (opt_assign x r)
  | OAssignRvalue x r => obs_unit (opt_assign_rvalue x r)
  | OEmplace x a => obs_val (opt_emplace x a)
  | OReset x => obs_unit (opt_reset x)
  | OSwap x y => obs_unit (opt_swap x y)
  | OWrite x v => obs_unit (opt_write x v)
  | OHasValue x => obs_bool (opt_has_value x)
  | ODeref x => obs_val (opt_deref x)
  | OValue x => obs_val (opt_value x)
  | OTake x => obs_val (opt_take x)
  | OValueOr x d => obs_val (opt_value_or x d)
  | OTakeOr x d => obs_val (opt_take_or x d)
  end.
(** A history: exceptions are caught by the caller, who then goes on. *)
Inductive hist := Finished (rs : list oobs) (w : world) | Faulted (f : fault) | Aborted.
Fixpoint orun (os : list oop) (w : world) : hist :=
  match os with
  | [] => Finished [] w
  | o :: os' =>
      let go r w' := match orun os' w' with Finished rs w'' => Finished (r :: rs) w'' | h => h end in
      match oexec o w with
      | Ok r w' => go r w'
      | Exn e w' => go (OThrew e) w'
      | Stuck f => Faulted f
      | Terminated => Aborted
      end
  end.
Definition init_world : world := World ∅ 0.

(** ** Comparisons, optional.hpp:191-313; Type's operators are [six_ops] *)
Context `{Ops : !SixOps V}.
(** static_cast<bool>(opt) *)
Notation full := opt_has_value (only parsing).
(** compare two values *)
Definition cmp_vals (f : answers → bool) (a b : ref) : M world bool :=
  u <- rd_ref a ;; v <- rd_ref b ;; ret (f (six_ops u v)).
(** 193-197 *)
Definition oo_eq (x y : nat) : M world bool := noexcept (
  l <- full x ;; r <- full y ;;
  if negb (Bool.eqb l r) then ret false else
  if Bool.eqb l false then ret true else cmp_vals a_eq (ROpt x) (ROpt y)).
(** 200-204 *)
Definition oo_ne (x y : nat) : M world bool := noexcept (
  l <- full x ;; r <- full y ;;
  if negb (Bool.eqb l r) then ret true else
  if Bool.eqb l false then ret false else cmp_vals a_ne (ROpt x) (ROpt y)).
(** 208-212 *)
Definition oo_lt (x y : nat) : M world bool := noexcept (
  r <- full y ;; if Bool.eqb r false then ret false else
  l <- full x ;; if Bool.eqb l false then ret true else cmp_vals a_lt (ROpt x) (ROpt y)).
(** 215-219 *)
Definition oo_le (x y : nat) : M world bool := noexcept (
  l <- full x ;; if Bool.eqb l false then ret true else
  r <- full y ;; if Bool.eqb r false then ret false else cmp_vals a_le (ROpt x) (ROpt y)).
(** 222-226 *)
Definition oo_gt (x y : nat) : M world bool := noexcept (
  l <- full x ;; if Bool.eqb l false then ret false else
  r <- full y ;; if Bool.eqb r false then ret true else cmp_vals a_gt (ROpt x) (ROpt y)).
(** 229-233 *)
Definition oo_ge (x y : nat) : M world bool := noexcept (
  r <- full y ;; if Bool.eqb r false then ret true else
  l <- full x ;; if Bool.eqb l false then ret false else cmp_vals a_ge (ROpt x) (ROpt y)).
(** 237-253: an optional and nullopt *)
Definition on_eq (x : nat) : M world bool := noexcept (b <- full x ;; ret (negb b)).
Definition on_ne (x : nat) : M world bool := noexcept (full x).
Definition on_lt (x : nat) : M world bool := noexcept (get_opt x ;;; ret false).
Definition on_le (x : nat) : M world bool := noexcept (b <- full x ;; ret (negb b)).
Definition on_gt (x : nat) : M world bool := noexcept (full x).
Definition on_ge (x : nat) : M world bool := noexcept (get_opt x ;;; ret true).
(** 258-273: nullopt and an optional *)
Definition no_eq (x : nat) : M world bool := noexcept (b <- full x ;; ret (negb b)).
Definition no_ne (x : nat) : M world bool := noexcept (full x).
Definition no_lt (x : nat) : M world bool := noexcept (full x).
Definition no_le (x : nat) : M world bool := noexcept (get_opt x ;;; ret true).
Definition no_gt (x : nat) : M world bool := noexcept (get_opt x ;;; ret false).
Definition no_ge (x : nat) : M world bool := noexcept (b <- full x ;; ret (negb b)).
(** opt ? compare : otherwise *)
Definition if_full (x : nat) (m : M world bool) (otherwise : bool) : M world bool :=
  noexcept (b <- full x ;; if b then m else ret otherwise).
(** 277-293: an optional and a value *)
Definition ov_eq (x : nat) (r : ref) : M world bool := if_full x (cmp_vals a_eq (ROpt x) r) false.
Definition ov_ne (x : nat) (r : ref) : M world bool := if_full x (cmp_vals a_ne (ROpt x) r) true.
Definition ov_lt (x : nat) (r : ref) : M world bool := if_full x (cmp_vals a_lt (ROpt x) r) true.
Definition ov_le (x : nat) (r : ref) : M world bool := if_full x (cmp_vals a_le (ROpt x) r) true.
Definition ov_gt (x : nat) (r : ref) : M world bool := if_full x (cmp_vals a_gt (ROpt x) r) false.
Definition ov_ge (x : nat) (r : ref) : M world bool := if_full x (cmp_vals a_ge (ROpt x) r) false.
(** 298-313: a value and an optional *)
Definition vo_eq (r : ref) (x : nat) : M world bool := if_full x (cmp_vals a_eq r (ROpt x)) false.
Definition vo_ne (r : ref) (x : nat) : M world bool := if_full x (cmp_vals a_ne r (ROpt x)) true.
Definition vo_lt (r : ref) (x : nat) : M world bool := if_full x (cmp_vals a_lt r (ROpt x)) false.
Definition vo_le (r : ref) (x : nat) : M world bool := if_full x (cmp_vals a_le r (ROpt x)) false.
Definition vo_gt (r : ref) (x : nat) : M world bool := if_full x (cmp_vals a_gt r (ROpt x)) true.
Definition vo_ge (r : ref) (x : nat) : M world bool := if_full x (cmp_vals a_ge r (ROpt x)) true.

(** the operands of a comparison, and which operator the compiler selects for them *)
Inductive operand := POpt (x : nat) | PNull | PVal (r : ref).
Definition six_of (a b : operand) : option (list (M world bool)) :=
  match a, b with
  | POpt x, POpt y => Some [oo_lt x y; oo_le x y; oo_gt x y; oo_ge x y; oo_eq x y; oo_ne x y]
  | POpt x, PNull => Some [on_lt x; on_le x; on_gt x; on_ge x; on_eq x; on_ne x]
  | PNull, POpt x => Some [no_lt x; no_le x; no_gt x; no_ge x; no_eq x; no_ne x]
  | POpt x, PVal r => Some [ov_lt x r; ov_le x r; ov_gt x r; ov_ge x r; ov_eq x r; ov_ne x r]
  | PVal r, POpt x => Some [vo_lt r x; vo_le r x; vo_gt r x; vo_ge r x; vo_eq r x; vo_ne r x]
  | _, _ => None
  end.
End model.
