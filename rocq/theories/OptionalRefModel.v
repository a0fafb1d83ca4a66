(** Model of /repo/inc/ptl/optional_ref.hpp.

    The world has plain objects, optionals (any type with the interface of std::optional) and
    pointer variables; an optional_ref is a pointer to an object, which may lie inside an
    optional.

    Simplified: all objects have type Type, values are drawn from a universe [V]; the pointer
    conversion of line 57 is the identity (no base classes); which constructor the compiler
    selects is part of the call; copying a value may throw ([copy_fails k] for the k-th copy). *)
From stdpp Require Import prelude gmap.
From Verif Require Import Cpp.
Local Open Scope nat_scope.

Class ORefCfg := {
  V : Type;
  copy_fails : nat → bool;
}.

Section model.
Context `{C : ORefCfg}.

(** the address of plain object [a], or of the value inside optional [y] *)
Inductive loc := LObj (a : nat) | LOpt (y : nat).
Global Instance loc_eq_dec : EqDecision loc.
Proof. solve_decision. Defined.
(** a pointer: [None] is nullptr; optional_ref.hpp:17 *)
Notation ptr := (option loc).
Record world := World {
  objs : gmap nat V; opts : gmap nat (option V); ptrs : gmap nat ptr; refs : gmap nat ptr; ncopy : nat }.
Definition set_objs (m : gmap nat V) (w : world) : world := World m (opts w) (ptrs w) (refs w) (ncopy w).
Definition set_opts (m : gmap nat (option V)) (w : world) : world := World (objs w) m (ptrs w) (refs w) (ncopy w).
Definition set_ptrs (m : gmap nat ptr) (w : world) : world := World (objs w) (opts w) m (refs w) (ncopy w).
Definition set_refs (m : gmap nat ptr) (w : world) : world := World (objs w) (opts w) (ptrs w) m (ncopy w).

(** the object at a location *)
Definition at_loc (l : loc) (w : world) : option V :=
  match l with LObj a => objs w !! a | LOpt y => match opts w !! y with Some o => o | None => None end end.
(** *p: the object must exist *)
Definition deref (p : ptr) : M world loc := λ w,
  match p with
  | None => Stuck NullDeref
  | Some l => match at_loc l w with Some _ => Ok l w | None => Stuck DeadObject end
  end.
Definition read (l : loc) : M world V := λ w, match at_loc l w with Some v => Ok v w | None => Stuck DeadObject end.
Definition write (l : loc) (v : V) : M world unit := λ w,
  match at_loc l w with
  | None => Stuck DeadObject
  | Some _ =>
      Ok tt (match l with
             | LObj a => set_objs (<[a:=v]> (objs w)) w
             | LOpt y => set_opts (<[y:=Some v]> (opts w)) w
             end)
  end.
(** copy construction of a Type *)
Definition copy_value (v : V) : M world V := λ w,
  let w' := World (objs w) (opts w) (ptrs w) (refs w) (S (ncopy w)) in
  if copy_fails (ncopy w) then Exn ElementThrow w' else Ok v w'.

Definition get_ref (x : nat) : M world ptr := λ w, match refs w !! x with Some p => Ok p w | None => Stuck NoObject end.
Definition put_ref (x : nat) (p : ptr) : M world unit := λ w, Ok tt (set_refs (<[x:=p]> (refs w)) w).

(** ** The types accepted by optional_ref(Optional &): static_cast<bool>(op) and *op *)
Inductive source := SOpt (y : nat) | SPtr (p : nat) | SRef (z : nat).
(** optional_ref.hpp:90-95 operator bool, has_value *)
Definition or_has_value (x : nat) : M world bool := noexcept (
  p <- get_ref x ;; ret (match p with Some _ => true | None => false end)).
(** optional_ref.hpp:87-88 operator* *)
Definition or_deref (x : nat) : M world loc := noexcept (p <- get_ref x ;; deref p).
(** optional_ref.hpp:85-86 operator-> *)
Definition or_arrow (x : nat) : M world ptr := noexcept (get_ref x).
Definition to_bool (s : source) : M world bool :=
  match s with
  | SOpt y => λ w, match opts w !! y with
      Some o => Ok (match o with Some _ => true | None => false end) w | None => Stuck NoObject end
  | SPtr p => λ w, match ptrs w !! p with
      Some q => Ok (match q with Some _ => true | None => false end) w | None => Stuck NoObject end
  | SRef z => or_has_value z
  end.
Definition star (s : source) : M world loc :=
  match s with
  | SOpt y => deref (Some (LOpt y))
  | SPtr p => λ w, match ptrs w !! p with Some q => deref q w | None => Stuck NoObject end
  | SRef z => or_deref z
  end.

(** ** Members *)
(** optional_ref.hpp:73-76 optional_ref(), optional_ref(std::nullopt_t) *)
Definition or_new (x : nat) : M world unit := noexcept (put_ref x None).
(** optional_ref.hpp:78-79 optional_ref(Type &) *)
Definition or_from_object (x : nat) (l : loc) : M world unit := noexcept (l' <- deref (Some l) ;; put_ref x (Some l')).
(** optional_ref.hpp:81-83 optional_ref(Optional &) *)
Definition or_from (x : nat) (s : source) : M world unit := noexcept (
  b <- to_bool s ;;
  p <- (if b then l <- star s ;; ret (Some l) else ret None) ;;
  put_ref x p).
(** implicit copy constructor, copy assignment and destructor *)
Definition or_copy (x z : nat) : M world unit := p <- get_ref z ;; put_ref x p.
Definition or_assign (x z : nat) : M world unit := get_ref x ;;; p <- get_ref z ;; put_ref x p.
Definition or_destroy (x : nat) : M world unit := get_ref x ;;; λ w, Ok tt (set_refs (delete x (refs w)) w).
(** optional_ref.hpp:97-101 value *)
Definition or_value (x : nat) : M world loc :=
  b <- or_has_value x ;; if b then or_deref x else throw BadOptionalAccess.
(** optional_ref.hpp:103-105 value_or; the default is converted to [d] *)
Definition or_value_or (x : nat) (d : V) : M world V :=
  b <- or_has_value x ;;
  if b then l <- or_deref x ;; v <- read l ;; copy_value v else copy_value d.

(** ** Calls and histories; the program also handles objects, optionals and pointers *)
Inductive orop :=
  | RNewObj (a : nat) (v : V) | RDelObj (a : nat) | ROptSet (y : nat) (o : option V) | ROptDel (y : nat)
  | RPtrSet (p : nat) (q : ptr) | RRead (l : loc) | RWrite (l : loc) (v : V)
  | RNew (x : nat) | RFromObj (x : nat) (l : loc) | RFrom (x : nat) (s : source)
  | RCopy (x z : nat) | RAssign (x z : nat) | RDel (x : nat)
  | RHas (x : nat) | RArrow (x : nat) | RStar (x : nat) | RStarRead (x : nat) | RStarWrite (x : nat) (v : V)
  | RValue (x : nat) | RValueOr (x : nat) (d : V).
Inductive orobs := BUnit | BBool (b : bool) | BVal (v : V) | BPtr (p : ptr) | BRef (l : loc) | BThrew (e : exn).

Definition orexec (o : orop) : M world orobs :=
  match o with
  | RNewObj a v => λ w, match objs w !! a with
      None => Ok BUnit (set_objs (<[a:=v]> (objs w)) w) | Some _ => Stuck LiveOverwritten end
  | RDelObj a => λ w, match objs w !! a with
      Some _ => Ok BUnit (set_objs (delete a (objs w)) w) | None => Stuck DeadObject end
  | ROptSet y o => λ w, Ok BUnit (set_opts (<[y:=o]> (opts w)) w)
  | ROptDel y => λ w, match opts w !! y with
      Some _ => Ok BUnit (set_opts (delete y (opts w)) w) | None => Stuck NoObject end
  | RPtrSet p q => λ w, Ok BUnit (set_ptrs (<[p:=q]> (ptrs w)) w)
  | RRead l => v <- read l ;; ret (BVal v)
  | RWrite l v => write l v ;;; ret BUnit
  | RNew x => or_new x ;;; ret BUnit
  | RFromObj x l => or_from_object x l ;;; ret BUnit
  | RFrom x s => or_from x s ;;; ret BUnit
  | RCopy x z => or_copy x z ;;; ret BUnit
  | RAssign x z => or_assign x z ;;; ret BUnit
  | RDel x => or_destroy x ;;; ret BUnit
  | RHas x => b <- or_has_value x ;; ret (BBool b)
  | RArrow x => p <- or_arrow x ;; ret (BPtr p)
  | RStar x => l <- or_deref x ;; ret (BRef l)
  | RStarRead x => l <- or_deref x ;; v <- read l ;; ret (BVal v)
  | RStarWrite x v => l <- or_deref x ;; write l v ;;; ret BUnit
  | RValue x => l <- or_value x ;; ret (BRef l)
  | RValueOr x d => v <- or_value_or x d ;; ret (BVal v)
  end.
Inductive hist := Finished (rs : list orobs) (w : world) | Faulted (f : fault) | Aborted.
Fixpoint orrun (os : list orop) (w : world) : hist :=
  match os with
  | [] => Finished [] w
  | o :: os' =>
      let go r w' := match orrun os' w' with Finished rs w'' => Finished (r :: rs) w'' | h => h end in
      match orexec o w with
      | Ok r w' => go r w'
      | Exn e w' => go (BThrew e) w'
      | Stuck f => Faulted f
      | Terminated => Aborted
      end
  end.
Definition init_world : world := World ∅ ∅ ∅ ∅ 0.
End model.
Notation ptr := (option loc) (only parsing).
