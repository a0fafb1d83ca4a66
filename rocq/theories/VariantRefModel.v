(** Model of /repo/inc/ptl/variant_ref.hpp.

    Objects of the program have an address, a type and a value; a variant_ref is the active
    member of its union of pointers, with the address stored in it, and the member [type].

    Simplified: values of all types are drawn from one universe [V]; the nested unions of
    storage_t (lines 15-40) are one pointer tagged with the member written last, and reading
    another member is a fault (that a member function writes a member of an inactive [next] is
    taken to make it active); the result type of visit, which is that of calling the visitor
    with the first alternative, is not modelled; volatile does not exist. *)
From stdpp Require Import prelude gmap.
From Coq Require Import ZArith.
From Verif Require Import Cpp.
From Verif Require VariantModel.
Local Open Scope nat_scope.

Notation ty := VariantModel.ty.
Notation Ty := VariantModel.Ty.
Notation t_const := VariantModel.t_const.
Notation t_id := VariantModel.t_id.
(** const T *)
Definition add_const (T : ty) : ty := Ty true (t_id T).

(** ** Compile-time functions on the list of alternatives *)
(** variant_ref.hpp:42-48 determine_index; std::ptrdiff_t is wide enough (line 96) *)
Fixpoint ref_determine_index (T : ty) (l : list ty) (index : Z) : Z :=
  match l with
  | [] => -1
  | h :: t =>
      if decide (T = h) then index
      else match t with [] => -1 | _ => ref_determine_index T t (index + 1) end
  end%Z.
(** variant_ref.hpp:50-56 validate_unique *)
Fixpoint ref_validate_unique (l : list ty) : bool :=
  match l with
  | [] => true
  | h :: t =>
      match t with
      | [] => true
      | _ => if negb (ref_determine_index h t 0 =? -1)%Z then false else ref_validate_unique t
      end
  end.

Class VRefCfg := {
  V : Type;
  alts : list ty;
}.

Section model.
Context `{C : VRefCfg}.

(** the static_asserts of variant_ref.hpp:96-97 (uniqueness, a bound on the number) are not
    needed for anything proved about histories: the first match is used throughout *)
Definition index_of (T : ty) : Z := ref_determine_index T alts 0.
(** variant_ref.hpp:107-110 can_store *)
Definition can_store (T : ty) : bool := negb (index_of T =? -1)%Z.

(** an object of the program; [ob_ty] says whether it was declared const *)
Record object := Object { ob_ty : ty; ob_val : V }.
(** variant_ref.hpp:104-105 *)
Record vref := VRef { r_storage : option (nat * nat); r_type : nat }.
(** the visitor calls so far: type of the parameter, address and value of the object *)
Record world := World { objs : gmap nat object; refs : gmap nat vref; visits : list (ty * nat * V) }.

Definition get_ref (x : nat) : M world vref := λ w,
  match refs w !! x with Some r => Ok r w | None => Stuck NoObject end.
Definition put_ref (x : nat) (r : vref) : M world unit :=
  λ w, Ok tt (World (objs w) (<[x:=r]> (refs w)) (visits w)).
Definition set_type (x : nat) (t : nat) : M world unit := r <- get_ref x ;; put_ref x (VRef (r_storage r) t).

(** ** storage_t, variant_ref.hpp:15-40 *)
(** get<I>() *)
Definition st_get (x : nat) (i : nat) : M world nat :=
  r <- get_ref x ;;
  match r_storage r with
  | Some (j, a) => if decide (i = j) then ret a else stuck InactiveMember
  | None => stuck Uninitialised
  end.
(** set<I>(val) where val is the object at [a] *)
Definition st_set (x : nat) (i a : nat) : M world unit :=
  r <- get_ref x ;; put_ref x (VRef (Some (i, a)) (r_type r)).
(** *ptr where [ptr] has type "pointer to T": there must be an object of that type, and a
    mutable access must not reach a const object *)
Definition deref (T : ty) (a : nat) : M world V := λ w,
  match objs w !! a with
  | None => Stuck DeadObject
  | Some o =>
      if negb (t_id (ob_ty o) =? t_id T) then Stuck WrongType
      else if t_const (ob_ty o) && negb (t_const T) then Stuck WrongType
      else Ok (ob_val o) w
  end.
(** dispatch[type] of a table with one entry for each alternative *)
Definition dispatch {A} (f : nat → ty → M world A) (t : nat) : M world A :=
  match imap f alts !! t with Some m => m | None => stuck OutOfBounds end.

(** ** Members *)
(** variant_ref.hpp:58-64 assign, from variant_ref [y] to [x] *)
Definition assign (t : nat) (x y : nat) : M world unit := noexcept (
  dispatch (λ i T, a <- st_get y i ;; deref T a ;;; st_set x i a) t).
(** variant_ref.hpp:112-125: the alternative the template constructor binds to, for an
    lvalue ([lv]) or rvalue expression of type [T]; [None] if it does not take part in
    overload resolution *)
Definition bind_index (lv : bool) (T : ty) : option Z :=
  if (lv && can_store T) || can_store (add_const T) then
    if lv && negb (index_of T =? -1)%Z then Some (index_of T) else Some (index_of (add_const T))
  else None.
(** variant_ref.hpp:112-125 variant_ref(T &&); a call that does not compile is not a call. The
    expression denotes the object at [a]; it is const if the object is or the caller says so *)
Definition vr_bind (x : nat) (lv c : bool) (a : nat) : M world unit := λ w,
  match objs w !! a with
  | None => Stuck DeadObject
  | Some o =>
      match bind_index lv (Ty (c || t_const (ob_ty o)) (t_id (ob_ty o))) with
      | None => Stuck Precondition
      | Some id =>
          noexcept (put_ref x (VRef None 0) ;;; set_type x (Z.to_nat id) ;;; st_set x (Z.to_nat id) a) w
      end
  end.
(** variant_ref.hpp:127-128 variant_ref(const variant_ref &) *)
Definition vr_copy (x y : nat) : M world unit :=
  put_ref x (VRef None 0) ;;; r <- get_ref y ;; set_type x (r_type r) ;;; assign (r_type r) x y.
(** variant_ref.hpp:129-133 operator=(const variant_ref &) *)
Definition vr_assign (x y : nat) : M world unit :=
  r <- get_ref y ;; set_type x (r_type r) ;;; assign (r_type r) x y.
(** variant_ref.hpp:134 ~variant_ref *)
Definition vr_destroy (x : nat) : M world unit := noexcept (
  get_ref x ;;; λ w, Ok tt (World (objs w) (delete x (refs w)) (visits w))).
(** variant_ref.hpp:147-149 holds *)
Definition vr_holds (x : nat) (T : ty) : M world bool := noexcept (
  r <- get_ref x ;; ret (Z.of_nat (r_type r) =? index_of T)%Z).
(** variant_ref.hpp:66-75 get *)
Definition st_get_as (x : nat) (T : ty) : M world nat := noexcept (
  r <- get_ref x ;;
  dispatch (λ i U, a <- st_get x i ;; if decide (T = U) then ret a else λ _, Terminated) (r_type r)).
(** variant_ref.hpp:151-156 get_if; [None] is nullptr *)
Definition vr_get_if (x : nat) (T : ty) : M world (option nat) := noexcept (
  b <- vr_holds x T ;; if negb b then ret None else a <- st_get_as x T ;; ret (Some a)).
(** variant_ref.hpp:158-163 get; a reference is the address of the object *)
Definition vr_get (x : nat) (T : ty) : M world nat :=
  p <- vr_get_if x T ;;
  match p with Some a => deref T a ;;; ret a | None => throw BadVariantAccess end.
(** variant_ref.hpp:77-85, 136-145 visit; the visitor receives the object as a [T &] and
    writes [f T v] to it if it may *)
Definition call_visitor (f : ty → V → V) (T : ty) (a : nat) : M world unit :=
  v <- deref T a ;;
  λ w, Ok tt (World
    (if t_const T then objs w else alter (λ o, Object (ob_ty o) (f T v)) a (objs w))
    (refs w) (visits w ++ [(T, a, v)])).
Definition vr_visit (x : nat) (f : ty → V → V) : M world unit :=
  r <- get_ref x ;; dispatch (λ i T, a <- st_get x i ;; call_visitor f T a) (r_type r).

(** ** Calls and histories; the program also creates, writes and destroys objects *)
Inductive vrop :=
  | RNewObj (a : nat) (T : ty) (v : V) | RSetObj (a : nat) (v : V) | RReadObj (a : nat) | RDelObj (a : nat)
  | RBind (x : nat) (lv c : bool) (a : nat) | RCopy (x y : nat) | RAssign (x y : nat) | RDel (x : nat)
  | RHolds (x : nat) (T : ty) | RGetIf (x : nat) (T : ty) | RGet (x : nat) (T : ty) | RVisit (x : nat) (f : ty → V → V).
Inductive vrobs := BUnit | BVal (v : V) | BBool (b : bool) | BPtr (p : option nat) | BRef (a : nat) | BThrew (e : exn).

Definition set_objs (f : gmap nat object → gmap nat object) : M world vrobs :=
  λ w, Ok BUnit (World (f (objs w)) (refs w) (visits w)).
Definition vrexec (o : vrop) : M world vrobs :=
  match o with
  | RNewObj a T v => λ w, match objs w !! a with
      Some _ => Stuck LiveOverwritten | None => set_objs (<[a:=Object T v]>) w end
  | RSetObj a v => λ w, match objs w !! a with
      | Some o => if t_const (ob_ty o) then Stuck WrongType else set_objs (<[a:=Object (ob_ty o) v]>) w
      | None => Stuck DeadObject end
  | RReadObj a => λ w, match objs w !! a with Some o => Ok (BVal (ob_val o)) w | None => Stuck DeadObject end
  | RDelObj a => λ w, match objs w !! a with Some _ => set_objs (delete a) w | None => Stuck DeadObject end
  | RBind x lv c a => vr_bind x lv c a ;;; ret BUnit
  | RCopy x y => vr_copy x y ;;; ret BUnit
  | RAssign x y => vr_assign x y ;;; ret BUnit
  | RDel x => vr_destroy x ;;; ret BUnit
  | RHolds x T => b <- vr_holds x T ;; ret (BBool b)
  | RGetIf x T => p <- vr_get_if x T ;; ret (BPtr p)
  | RGet x T => a <- vr_get x T ;; ret (BRef a)
  | RVisit x f => vr_visit x f ;;; ret BUnit
  end.
(** A history: exceptions are caught by the caller, who then goes on. *)
Inductive hist := Finished (rs : list vrobs) (w : world) | Faulted (f : fault) | Aborted.
Fixpoint vrrun (os : list vrop) (w : world) : hist :=
  match os with
  | [] => Finished [] w
  | o :: os' =>
      let go r w' := match vrrun os' w' with Finished rs w'' => Finished (r :: rs) w'' | h => h end in
      match vrexec o w with
      | Ok r w' => go r w'
      | Exn e w' => go (BThrew e) w'
      | Stuck f => Faulted f
      | Terminated => Aborted
      end
  end.
Definition init_world : world := World ∅ ∅ [].
End model.
