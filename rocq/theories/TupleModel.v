(** Model of /repo/inc/ptl/tuple.hpp, for one list of component types.

    A storage_t<Head, Tail...> object (tuple.hpp:43-75) is the list of its member [value] and of
    its base class subobject storage_t<Tail...>; the [d]-th base class subobject of tuple [x] is
    the pair (x, d). Every member function is a program over all tuple objects, so arguments may
    refer to components of the tuple being modified. Template recursion over the component types
    is recursion over the list [Types].

    Simplified: the values of all component types form one type V; their operations are
    value-like as in ArrayModel.v: a copy equals its source, a move leaves [moved v], a throwing
    copy assignment leaves [torn old new], the k-th copy throws if [fails k], moves and swaps do
    not throw (12-23). Calls that do not compile are faults. The alignment of components is the
    subject of LayoutModel.v, overload resolution between the constructors of TupleCtor.v. *)
From stdpp Require Import prelude gmap.
From Verif Require Import Cpp.

Class TupCfg := {
  K : Type;                  (* names of types *)
  Types : list K;            (* the component types *)
  V : Type;
  moved : V → V;
  selfmove : V → V;
  torn : V → V → V;
  fails : nat → bool;
}.

Section model.
Context `{C : TupCfg}.

Record world := World { tups : gmap nat (list V); nops : nat }.
Definition set_tups (m : gmap nat (list V)) (w : world) : world := World m (nops w).
(** a base class subobject of a tuple, and the reference to its member [value] *)
Definition sub : Type := nat * nat.
Definition base (s : sub) : sub := (s.1, S s.2).
Definition rd (s : sub) : M world V := λ w,
  match tups w !! s.1 with
  | None => Stuck NoObject
  | Some l => match l !! s.2 with Some v => Ok v w | None => Stuck OutOfBounds end
  end.
Definition wr (s : sub) (v : V) : M world unit := λ w,
  match tups w !! s.1 with
  | None => Stuck NoObject
  | Some l => if s.2 <? length l then Ok tt (set_tups (<[s.1:=<[s.2:=v]> l]> (tups w)) w) else Stuck OutOfBounds
  end.
Definition alive (x : nat) : M world unit := λ w, match tups w !! x with Some _ => Ok tt w | None => Stuck NoObject end.
Definition put_tup (x : nat) (l : list V) : M world unit := λ w, Ok tt (set_tups (<[x:=l]> (tups w)) w).
(** an operation of a component type that may throw; if it does, [c] describes the damage *)
Definition may_throw (c : M world unit) : M world unit := λ w,
  let w' := World (tups w) (S (nops w)) in
  if fails (nops w) then (c ;;; throw ElementThrow) w' else Ok tt w'.

(** ** Arguments: a value of the caller, or a reference to a component *)
Inductive ref := RVal (v : V) | RComp (s : sub).
Definition rd_ref (r : ref) : M world V := match r with RVal v => ret v | RComp s => rd s end.
Inductive arg := ACopy (r : ref) | AMove (r : ref).
(** value{std::forward<Arg>(arg)} *)
Definition new_value (a : arg) : M world V :=
  match a with
  | ACopy r => v <- rd_ref r ;; may_throw (ret tt) ;;; ret v
  | AMove (RVal v) => ret v
  | AMove (RComp s) => v <- rd s ;; wr s (moved v) ;;; ret v
  end.
Definition copy_assign (s : sub) (r : ref) : M world unit :=
  u <- rd_ref r ;; v <- rd s ;; may_throw (wr s (torn v u)) ;;; wr s u.
Definition move_assign (s t : sub) : M world unit :=
  v <- rd t ;; if decide (s = t) then wr s (selfmove v) else rd s ;;; wr s v ;;; wr t (moved v).

(** ** storage_t *)
(** tuple.hpp:46-47 storage_t(Arg &&, Args &&...): the base class is initialised first; if
    [value] then throws, the base class subobject is destroyed. For storage_t<> aggregate
    initialisation (29-41) *)
Fixpoint st_new (types : list K) (args : list arg) : M world (list V) :=
  match types, args with
  | [], [] => ret []
  | _ :: types', a :: args' => b <- st_new types' args' ;; v <- new_value a ;; ret (v :: b)
  | _, _ => stuck Precondition
  end.
(** tuple.hpp:49-60 get<Index> *)
Fixpoint st_get (types : list K) (index : nat) (this : sub) : M world sub := noexcept (
  match types, index with
  | _ :: _, O => ret this
  | _ :: types', S index' => st_get types' index' (base this)
  | [], _ => stuck Precondition
  end).
(** tuple.hpp:62-67 swap; 31-33 for storage_t<> *)
Fixpoint st_swap (types : list K) (this other : sub) : M world unit := noexcept (
  match types with
  | [] => ret tt
  | _ :: types' => a <- rd this ;; b <- rd other ;; wr this b ;;; wr other a ;;; st_swap types' (base this) (base other)
  end).
(** implicit copy and move construction and assignment of storage_t: base class, then [value] *)
Fixpoint st_copy (types : list K) (other : sub) : M world (list V) :=
  match types with
  | [] => ret []
  | _ :: types' => b <- st_copy types' (base other) ;; v <- new_value (ACopy (RComp other)) ;; ret (v :: b)
  end.
Fixpoint st_move (types : list K) (other : sub) : M world (list V) :=
  match types with
  | [] => ret []
  | _ :: types' => b <- st_move types' (base other) ;; v <- new_value (AMove (RComp other)) ;; ret (v :: b)
  end.
Fixpoint st_copy_assign (types : list K) (this other : sub) : M world unit :=
  match types with
  | [] => ret tt
  | _ :: types' => st_copy_assign types' (base this) (base other) ;;; copy_assign this (RComp other)
  end.
Fixpoint st_move_assign (types : list K) (this other : sub) : M world unit :=
  match types with
  | [] => ret tt
  | _ :: types' => st_move_assign types' (base this) (base other) ;;; move_assign this other
  end.

(** ** tuple; its member [storage] (87) is its only one *)
Definition storage (x : nat) : sub := (x, 0).
(** tuple.hpp:89-91 tuple(Args &&...) *)
Definition tup_new (x : nat) (args : list arg) : M world unit :=
  if (length args =? length Types) || (length args =? 0) then l <- st_new Types args ;; put_tup x l
  else stuck Precondition.
(** implicit copy and move constructor, destructor and assignment *)
Definition tup_new_copy (x y : nat) : M world unit := alive y ;;; l <- st_copy Types (storage y) ;; put_tup x l.
Definition tup_new_move (x y : nat) : M world unit := noexcept (alive y ;;; l <- st_move Types (storage y) ;; put_tup x l).
Definition tup_destroy (x : nat) : M world unit := alive x ;;; λ w, Ok tt (set_tups (delete x (tups w)) w).
Definition tup_copy_assign (x y : nat) : M world unit := alive x ;;; alive y ;;; st_copy_assign Types (storage x) (storage y).
Definition tup_move_assign (x y : nat) : M world unit := noexcept (alive x ;;; alive y ;;; st_move_assign Types (storage x) (storage y)).
(** tuple.hpp:94-105 get<Index>, four overloads *)
Definition tup_get (index x : nat) : M world sub := noexcept (alive x ;;; st_get Types index (storage x)).
(** tuple.hpp:107-111 swap *)
Definition tup_swap (x y : nat) : M world unit := noexcept (alive x ;;; alive y ;;; st_swap Types (storage x) (storage y)).

(** ** Comparison; operators of the component types *)
Section compare.
Context (t_lt t_eq : K → V → V → bool).
(** tuple.hpp:69-70 equal; 35-37 for storage_t<> *)
Fixpoint st_equal (types : list K) (this other : sub) : M world bool := noexcept (
  match types with
  | [] => ret true
  | t :: types' =>
      a <- rd this ;; b <- rd other ;;
      if t_eq t a b then st_equal types' (base this) (base other) else ret false
  end).
(** tuple.hpp:71-72 less; 38-40 for storage_t<> *)
Fixpoint st_less (types : list K) (this other : sub) : M world bool := noexcept (
  match types with
  | [] => ret false
  | t :: types' =>
      a <- rd this ;; b <- rd other ;;
      if t_lt t a b then ret true
      else c <- rd other ;; d <- rd this ;;
        if negb (t_lt t c d) then st_less types' (base this) (base other) else ret false
  end).
(** tuple.hpp:113-115 operator== *)
Definition tup_eq (x y : nat) : M world bool := noexcept (alive x ;;; alive y ;;; st_equal Types (storage x) (storage y)).
(** tuple.hpp:116-118 operator!= *)
Definition tup_ne (x y : nat) : M world bool := noexcept (r <- tup_eq x y ;; ret (negb r)).
(** tuple.hpp:120-122 operator< *)
Definition tup_lt (x y : nat) : M world bool := noexcept (alive x ;;; alive y ;;; st_less Types (storage x) (storage y)).
(** tuple.hpp:123-125 operator> *)
Definition tup_gt (x y : nat) : M world bool := noexcept (tup_lt y x).
(** tuple.hpp:126-128 operator<= *)
Definition tup_le (x y : nat) : M world bool := noexcept (r <- tup_gt x y ;; ret (negb r)).
(** tuple.hpp:129-131 operator>= *)
Definition tup_ge (x y : nat) : M world bool := noexcept (r <- tup_lt x y ;; ret (negb r)).
End compare.

(** ** Calls and histories *)
Inductive top :=
  | TNew (x : nat) (args : list arg) | TNewCopy (x y : nat) | TNewMove (x y : nat) | TDel (x : nat)
  | TCopyAssign (x y : nat) | TMoveAssign (x y : nat) | TSwap (x y : nat)
  | TGet (index x : nat) | TRead (s : sub) | TWrite (s : sub) (v : V).
Inductive tobs := OUnit | OVal (v : V) | OSub (s : sub) | OThrew (e : exn).
Definition texec (o : top) : M world tobs :=
  match o with
  | TNew x args => tup_new x args ;;; ret OUnit
  | TNewCopy x y => tup_new_copy x y ;;; ret OUnit
  | TNewMove x y => tup_new_move x y ;;; ret OUnit
  | TDel x => tup_destroy x ;;; ret OUnit
  | TCopyAssign x y => tup_copy_assign x y ;;; ret OUnit
  | TMoveAssign x y => tup_move_assign x y ;;; ret OUnit
  | TSwap x y => tup_swap x y ;;; ret OUnit
  | TGet i x => s <- tup_get i x ;; ret (OSub s)
  | TRead s => v <- rd s ;; ret (OVal v)
  | TWrite s v => wr s v ;;; ret OUnit
  end.
Inductive hist := Finished (rs : list tobs) (w : world) | Faulted (f : fault) | Aborted.
Fixpoint trun (os : list top) (w : world) : hist :=
  match os with
  | [] => Finished [] w
  | o :: os' =>
      let go r w' := match trun os' w' with Finished rs w'' => Finished (r :: rs) w'' | h => h end in
      match texec o w with
      | Ok r w' => go r w'
      | Exn e w' => go (OThrew e) w'
      | Stuck f => Faulted f
      | Terminated => Aborted
      end
  end.
Definition init_world : world := World ∅ 0.
End model.
