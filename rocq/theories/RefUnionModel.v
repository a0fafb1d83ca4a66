(** Model of the nested unions of /repo/inc/ptl/variant_ref.hpp:15-40, and of variant_ref on top of them.

    VariantRefModel.v takes the storage of a variant_ref to be one pointer tagged with the member written last. Here it
    is what the code says: a storage_t has a union of a pointer and of [next], of which at most one is alive, and [next]
    is a storage_t again. The constructor of a storage_t makes no member of its union active. An assignment to [ptr]
    within set makes that alive ([class.union]), and ends the life of [next]. No assignment names [next], so nothing in
    the code begins the life of a [next]; to call a member function of it is undefined ([basic.life]), which is the
    [strict] rule. Compilers that do not check treat a [next] that is written to as if it were alive, which is the
    other rule; to read from a [next] that nothing was written to is wrong by both.

    The rest is VariantRefModel.v, function by function, and has its other simplifications. *)
From stdpp Require Import prelude gmap.
From Coq Require Import ZArith.
From Verif Require Import Cpp VariantRefModel.
Local Open Scope nat_scope.

(** a storage_t that is alive: the active member of its union. variant_ref.hpp:18-23 *)
Inductive links := LNone | LPtr (a : nat) | LNext (u : links).

Section model.
Context `{C : VRefCfg} (strict : bool).

(** variant_ref.hpp:27-32 get<I>() *)
Fixpoint l_get (i : nat) (u : links) : fault + nat :=
  match i, u with
  | _, LNone => inl Uninitialised
  | O, LPtr a => inr a
  | O, LNext _ => inl InactiveMember
  | S i', LNext u' => l_get i' u'
  | S _, LPtr _ => inl InactiveMember
  end.
(** next, in a call of next.template set<I - 1>(val) *)
Definition l_next (u : links) : fault + links :=
  match u with
  | LNext u' => inr u'
  | LNone => if strict then inl DeadObject else inr LNone
  | LPtr _ => if strict then inl InactiveMember else inr LNone
  end.
(** variant_ref.hpp:34-39 set<I>(val) *)
Fixpoint l_set (i a : nat) (u : links) : fault + links :=
  match i with
  | O => inr (LPtr a)
  | S i' => match l_next u with inr u' => match l_set i' a u' with inr r => inr (LNext r) | e => e end | inl f => inl f end
  end.

(** variant_ref.hpp:104-105 *)
Record uref := URef { u_storage : links; u_type : nat }.
Record uworld := UWorld { u_objs : gmap nat object; u_refs : gmap nat uref; u_visits : list (ty * nat * V) }.

Definition u_get_ref (x : nat) : M uworld uref := λ w,
  match u_refs w !! x with Some r => Ok r w | None => Stuck NoObject end.
Definition u_put_ref (x : nat) (r : uref) : M uworld unit :=
  λ w, Ok tt (UWorld (u_objs w) (<[x:=r]> (u_refs w)) (u_visits w)).
Definition u_get_type (x : nat) : M uworld nat := r <- u_get_ref x ;; ret (u_type r).
Definition u_set_type (x t : nat) : M uworld unit := r <- u_get_ref x ;; u_put_ref x (URef (u_storage r) t).
(** get and set on the storage of variant_ref [x] *)
Definition lift {A} (r : fault + A) : M uworld A := match r with inr a => ret a | inl f => stuck f end.
Definition u_st_get (x i : nat) : M uworld nat := r <- u_get_ref x ;; lift (l_get i (u_storage r)).
Definition u_st_set (x i a : nat) : M uworld unit :=
  r <- u_get_ref x ;; u <- lift (l_set i a (u_storage r)) ;; u_put_ref x (URef u (u_type r)).
(** *ptr, as in VariantRefModel.v *)
Definition u_deref (T : ty) (a : nat) : M uworld V := λ w,
  match u_objs w !! a with
  | None => Stuck DeadObject
  | Some o =>
      if negb (VariantModel.t_id (ob_ty o) =? VariantModel.t_id T) then Stuck WrongType
      else if VariantModel.t_const (ob_ty o) && negb (VariantModel.t_const T) then Stuck WrongType
      else Ok (ob_val o) w
  end.
(** dispatch[type] of a table with one entry for each alternative *)
Definition u_dispatch {A} (f : nat → ty → M uworld A) (t : nat) : M uworld A :=
  match imap f alts !! t with Some m => m | None => stuck OutOfBounds end.

(** variant_ref.hpp:58-64 assign, from variant_ref [y] to [x] *)
Definition u_assign (t : nat) (x y : nat) : M uworld unit := noexcept (
  u_dispatch (λ i T, a <- u_st_get y i ;; u_deref T a ;;; u_st_set x i a) t).
(** variant_ref.hpp:112-125 variant_ref(T &&) *)
Definition u_bind (x : nat) (lv c : bool) (a : nat) : M uworld unit := λ w,
  match u_objs w !! a with
  | None => Stuck DeadObject
  | Some o =>
      match bind_index lv (Ty (c || t_const (ob_ty o)) (t_id (ob_ty o))) with
      | None => Stuck Precondition
      | Some id =>
          noexcept (u_put_ref x (URef LNone 0) ;;; u_set_type x (Z.to_nat id) ;;; u_st_set x (Z.to_nat id) a) w
      end
  end.
(** variant_ref.hpp:127-128 variant_ref(const variant_ref &) *)
Definition u_copy (x y : nat) : M uworld unit :=
  u_put_ref x (URef LNone 0) ;;; t <- u_get_type y ;; u_set_type x t ;;; u_assign t x y.
(** variant_ref.hpp:129-133 operator=(const variant_ref &) *)
Definition u_copy_assign (x y : nat) : M uworld unit := t <- u_get_type y ;; u_set_type x t ;;; u_assign t x y.
(** variant_ref.hpp:134 ~variant_ref *)
Definition u_destroy (x : nat) : M uworld unit := noexcept (
  u_get_type x ;;; λ w, Ok tt (UWorld (u_objs w) (delete x (u_refs w)) (u_visits w))).
(** variant_ref.hpp:147-149 holds *)
Definition u_holds (x : nat) (T : ty) : M uworld bool := noexcept (
  t <- u_get_type x ;; ret (Z.of_nat t =? index_of T)%Z).
(** variant_ref.hpp:66-75 get *)
Definition u_get_as (x : nat) (T : ty) : M uworld nat := noexcept (
  t <- u_get_type x ;; u_dispatch (λ i U, a <- u_st_get x i ;; if decide (T = U) then ret a else λ _, Terminated) t).
(** variant_ref.hpp:151-156 get_if *)
Definition u_get_if (x : nat) (T : ty) : M uworld (option nat) := noexcept (
  b <- u_holds x T ;; if negb b then ret None else a <- u_get_as x T ;; ret (Some a)).
(** variant_ref.hpp:158-163 get *)
Definition u_get (x : nat) (T : ty) : M uworld nat :=
  p <- u_get_if x T ;;
  match p with Some a => u_deref T a ;;; ret a | None => throw BadVariantAccess end.
(** variant_ref.hpp:77-85, 136-145 visit *)
Definition u_call_visitor (f : ty → V → V) (T : ty) (a : nat) : M uworld unit :=
  v <- u_deref T a ;;
  λ w, Ok tt (UWorld
    (if t_const T then u_objs w else alter (λ o, Object (ob_ty o) (f T v)) a (u_objs w))
    (u_refs w) (u_visits w ++ [(T, a, v)])).
Definition u_visit (x : nat) (f : ty → V → V) : M uworld unit :=
  t <- u_get_type x ;; u_dispatch (λ i T, a <- u_st_get x i ;; u_call_visitor f T a) t.

(** ** Calls and histories, those of VariantRefModel.v *)
Definition u_set_objs (f : gmap nat object → gmap nat object) : M uworld vrobs :=
  λ w, Ok BUnit (UWorld (f (u_objs w)) (u_refs w) (u_visits w)).
Definition u_exec (o : vrop) : M uworld vrobs :=
  match o with
  | RNewObj a T v => λ w, match u_objs w !! a with
      Some _ => Stuck LiveOverwritten | None => u_set_objs (<[a:=Object T v]>) w end
  | RSetObj a v => λ w, match u_objs w !! a with
      | Some o => if t_const (ob_ty o) then Stuck WrongType else u_set_objs (<[a:=Object (ob_ty o) v]>) w
      | None => Stuck DeadObject end
  | RReadObj a => λ w, match u_objs w !! a with Some o => Ok (BVal (ob_val o)) w | None => Stuck DeadObject end
  | RDelObj a => λ w, match u_objs w !! a with Some _ => u_set_objs (delete a) w | None => Stuck DeadObject end
  | RBind x lv c a => u_bind x lv c a ;;; ret BUnit
  | RCopy x y => u_copy x y ;;; ret BUnit
  | RAssign x y => u_copy_assign x y ;;; ret BUnit
  | RDel x => u_destroy x ;;; ret BUnit
  | RHolds x T => b <- u_holds x T ;; ret (BBool b)
  | RGetIf x T => p <- u_get_if x T ;; ret (BPtr p)
  | RGet x T => a <- u_get x T ;; ret (BRef a)
  | RVisit x f => u_visit x f ;;; ret BUnit
  end.
Inductive uhist := UFinished (rs : list vrobs) (w : uworld) | UFaulted (f : fault) | UAborted.
Fixpoint u_run (os : list vrop) (w : uworld) : uhist :=
  match os with
  | [] => UFinished [] w
  | o :: os' =>
      let go r w' := match u_run os' w' with UFinished rs w'' => UFinished (r :: rs) w'' | h => h end in
      match u_exec o w with
      | Ok r w' => go r w'
      | Exn e w' => go (BThrew e) w'
      | Stuck f => UFaulted f
      | Terminated => UAborted
      end
  end.
Definition u_init : uworld := UWorld ∅ ∅ [].
End model.
