(** Model of the nested unions of /repo/inc/ptl/variant.hpp:14-56, and of variant on top of them.

    VariantModel.v takes the storage of a variant to be one slot. Here it is what the code says: a storage_t has
    a union of [val] and [next], of which at most one is alive, and [next] is a storage_t again. The rules of the
    language about objects that are not alive are those of [basic.life] and [class.union]: the constructor of a
    storage_t (lines 26-28) makes no member of its union active; placement new of an object in [val] makes that
    alive, and ends the life of [next]; nothing in the code ever begins the life of a [next]. To call a member
    function of an object that is not alive is undefined ([strict]); compilers that do not check treat [next] as
    if it had been there all the time, which is the other rule.

    The rest is VariantModel.v, function by function, and has its simplifications. What set<I>(args...) constructs
    is computed after the calls of set for each [next]. Indices past the end do not compile. *)
From stdpp Require Import prelude gmap.
From Verif Require Import Cpp VariantModel.
Local Open Scope nat_scope.

(** a storage_t that is alive: the active member of its union. variant.hpp:18-23 *)
Inductive chain {V : Type} := CNone | CVal (v : V) | CNext (u : chain).
Global Arguments chain : clear implicits.

Section model.
Context `{C : VarCfg} (strict : bool).

(** next, in an expression that calls one of its member functions *)
Definition enter (u : chain V) : fault + chain V :=
  match u with
  | CNext u' => inr u'
  | CNone => if strict then inl DeadObject else inr CNone
  | CVal _ => inl InactiveMember
  end.
(** is no value alive in it? *)
Fixpoint empty (u : chain V) : bool :=
  match u with CNone => true | CVal _ => false | CNext u' => empty u' end.
(** variant.hpp:30-41 *get<I>(): next.template get<I - 1>(), or the address of val *)
Fixpoint c_get (i : nat) (u : chain V) : fault + V :=
  match i with
  | O => match u with CVal v => inr v | CNone => inl DeadObject | CNext _ => inl InactiveMember end
  | S i' => match enter u with inr u' => c_get i' u' | inl f => inl f end
  end.
(** an assignment to it *)
Fixpoint c_store (i : nat) (v : V) (u : chain V) : fault + chain V :=
  match i with
  | O => match u with CVal _ => inr (CVal v) | CNone => inl DeadObject | CNext _ => inl InactiveMember end
  | S i' => match enter u with inr u' => match c_store i' v u' with inr r => inr (CNext r) | e => e end | inl f => inl f end
  end.
(** variant.hpp:43-48 set<I>(...): the calls of set for each next *)
Fixpoint c_reach (i : nat) (u : chain V) : fault + unit :=
  match i with
  | O => inr tt
  | S i' => match enter u with inr u' => c_reach i' u' | inl f => inl f end
  end.
(** and the construction of val, which reuses the storage of next *)
Fixpoint c_set (i : nat) (v : V) (u : chain V) : fault + chain V :=
  match i with
  | O => if empty u then inr (CVal v) else inl LiveOverwritten
  | S i' => match enter u with inr u' => match c_set i' v u' with inr r => inr (CNext r) | e => e end | inl f => inl f end
  end.
(** variant.hpp:50-55 destroy<I>() *)
Fixpoint c_destroy (i : nat) (u : chain V) : fault + chain V :=
  match i with
  | O => match u with CVal _ => inr CNone | CNone => inl DeadObject | CNext _ => inl InactiveMember end
  | S i' => match enter u with inr u' => match c_destroy i' u' with inr r => inr (CNext r) | e => e end | inl f => inl f end
  end.

(** variant.hpp:195-196 *)
Record u_var := UVar { u_storage : chain V; u_type : nat }.
(** objects of the caller ([Some x]) and the local variable tmp of the code ([None]); the calls
    visitors received *)
Notation name := (option nat).
Record u_world := UWorld { u_objs : gmap name u_var; u_ncopy : nat; u_visits : list (nat * V) }.

Definition u_get_var (p : name) : M u_world u_var := λ w,
  match u_objs w !! p with Some o => Ok o w | None => Stuck NoObject end.
Definition u_put_var (p : name) (o : u_var) : M u_world unit :=
  λ w, Ok tt (UWorld (<[p:=o]> (u_objs w)) (u_ncopy w) (u_visits w)).
Definition u_get_type (p : name) : M u_world nat := o <- u_get_var p ;; ret (u_type o).
Definition u_set_type (p : name) (t : nat) : M u_world unit :=
  o <- u_get_var p ;; u_put_var p (UVar (u_storage o) t).
(** the storage of [p] goes away; a value still alive in it would be leaked *)
Definition u_drop_var (p : name) : M u_world unit :=
  o <- u_get_var p ;;
  if empty (u_storage o) then λ w, Ok tt (UWorld (delete p (u_objs w)) (u_ncopy w) (u_visits w)) else stuck LiveFreed.

(** ** The same on the storage of a variant *)
Definition lift {A} (r : fault + A) : M u_world A := match r with inr a => ret a | inl f => stuck f end.
Definition u_st_get (p : name) (i : nat) : M u_world V := o <- u_get_var p ;; lift (c_get i (u_storage o)).
Definition u_st_store (p : name) (i : nat) (v : V) : M u_world unit :=
  o <- u_get_var p ;; u <- lift (c_store i v (u_storage o)) ;; u_put_var p (UVar u (u_type o)).
(** set<I>(...) where [m] constructs the value *)
Definition u_st_set (p : name) (i : nat) (m : M u_world V) : M u_world unit :=
  o <- u_get_var p ;; lift (c_reach i (u_storage o)) ;;;
  v <- m ;;
  o <- u_get_var p ;; u <- lift (c_set i v (u_storage o)) ;; u_put_var p (UVar u (u_type o)).
Definition u_st_destroy (p : name) (i : nat) : M u_world unit :=
  o <- u_get_var p ;; u <- lift (c_destroy i (u_storage o)) ;; u_put_var p (UVar u (u_type o)).

(** ** Arguments *)
(** read it as an object of the i-th alternative *)
Definition u_rd_ref (i : nat) (r : ref) : M u_world V :=
  match r with RVal v => ret v | RAlt y => u_st_get (Some y) i end.
Fixpoint u_rd_refs (l : list (nat * ref)) : M u_world (list V) :=
  match l with [] => ret [] | (i, r) :: l' => v <- u_rd_ref i r ;; vs <- u_rd_refs l' ;; ret (v :: vs) end.
(** a construction that may throw *)
Definition u_may_throw (safe : bool) : M u_world unit := λ w,
  if safe then Ok tt w
  else
    let w' := UWorld (u_objs w) (S (u_ncopy w)) (u_visits w) in
    if copy_fails (u_ncopy w) then Exn ElementThrow w' else Ok tt w'.
(** the value of T{std::forward<Args>(args)...} where T is the i-th alternative *)
Definition u_new_value (i : nat) (a : arg) : M u_world V :=
  match a with
  | ACopy r => v <- u_rd_ref i r ;; u_may_throw (nothrow i a) ;;; ret v
  | AMove (RVal v) => ret v
  | AMove (RAlt y) => v <- u_st_get (Some y) i ;; u_st_store (Some y) i (moved i v) ;;; ret v
  | AMake c l => vs <- u_rd_refs l ;; u_may_throw (nothrow i a) ;;; ret (make i c vs)
  end.

(** ** Dispatch, variant.hpp:99-169 *)
(** dispatch[type] of a table with one entry for each alternative *)
Definition u_dispatch {A} (f : nat → M u_world A) (t : nat) : M u_world A :=
  match (f <$> seq 0 (length alts)) !! t with Some m => m | None => stuck OutOfBounds end.
(** variant.hpp:99-114 visit; the visitor is called with the value, may change it to [f i v] *)
Definition u_log_visit (i : nat) (v : V) : M u_world unit :=
  λ w, Ok tt (UWorld (u_objs w) (u_ncopy w) (u_visits w ++ [(i, v)])).
Definition u_st_visit (p : name) (t : nat) (f : nat → V → V) : M u_world unit :=
  u_dispatch (λ i, v <- u_st_get p i ;; u_log_visit i v ;;; u_st_store p i (f i v)) t.
(** variant.hpp:123-129 emplace *)
Definition u_st_emplace (p : name) (t : nat) (a : arg) : M u_world unit :=
  u_dispatch (λ i, u_st_set p i (u_new_value i a)) t.
(** variant.hpp:131-142 assign<false> and assign<true> *)
Definition u_st_assign_copy (t : nat) (p q : name) : M u_world unit :=
  u_dispatch (λ i, u_st_set p i (v <- u_st_get q i ;; u_may_throw (nothrow_copy i) ;;; ret v)) t.
Definition u_st_assign_move (t : nat) (p q : name) : M u_world unit := noexcept (
  u_dispatch (λ i, u_st_set p i (v <- u_st_get q i ;; u_st_store q i (moved i v) ;;; ret v)) t).
(** variant.hpp:144-150 destroy *)
Definition u_st_destroy_any (t : nat) (p : name) : M u_world unit := u_dispatch (λ i, u_st_destroy p i) t.
(** variant.hpp:160-169 swap *)
Definition u_st_swap (t : nat) (p q : name) : M u_world unit := noexcept (
  u_dispatch (λ i, u <- u_st_get p i ;; v <- u_st_get q i ;; u_st_store p i v ;;; u_st_store q i u) t).

(** ** Members *)
(** a constructor: [type] is initialised, the body runs; if it throws, the storage goes away *)
Definition u_construct_var (p : name) (t : nat) (body : M u_world unit) : M u_world unit :=
  u_put_var p (UVar CNone t) ;;; on_exn body (u_drop_var p).
(** variant.hpp:214-217 variant(std::in_place_index_t<Index>, Args &&...) *)
Definition u_var_new_index (p : name) (i : nat) (a : arg) : M u_world unit :=
  u_construct_var p i (u_st_set p i (u_new_value i a)).
(** variant.hpp:203-205 variant() *)
Definition u_var_new (p : name) : M u_world unit := u_construct_var p 0 (u_st_set p 0 (u_new_value 0 (AMake 0 []))).
(** variant.hpp:207 variant(const variant &) *)
Definition u_var_new_copy (p q : name) : M u_world unit :=
  t <- u_get_type q ;; u_construct_var p t (s <- u_get_type p ;; u_st_assign_copy s p q).
(** variant.hpp:208 variant(variant &&) *)
Definition u_var_new_move (p q : name) : M u_world unit := noexcept (
  t <- u_get_type q ;; u_construct_var p t (s <- u_get_type p ;; u_st_assign_move s p q)).
(** variant.hpp:210-212, 218-221 variant(T &&), variant(std::in_place_type_t<T>, Args &&...) *)
Definition u_var_new_value (p : name) (T : ty) (a : arg) : M u_world unit := u_var_new_index p (index_of T) a.
(** variant.hpp:248 ~variant *)
Definition u_var_destroy (p : name) : M u_world unit := noexcept (
  t <- u_get_type p ;; u_st_destroy_any t p ;;; u_drop_var p).
(** a local variable tmp, destroyed when its scope is left *)
Definition u_with_tmp (init body : M u_world unit) : M u_world unit :=
  init ;;; on_exn body (u_var_destroy None) ;;; u_var_destroy None.
(** variant.hpp:232-239 operator=(variant &&) *)
Definition u_var_move_assign (p q : name) : M u_world unit := noexcept (
  if decide (p = q) then u_get_var p ;;; ret tt
  else
    t <- u_get_type p ;; u_st_destroy_any t p ;;;
    u <- u_get_type q ;; u_st_assign_move u p q ;;;
    s <- u_get_type q ;; u_set_type p s).
(** variant.hpp:223-231 operator=(const variant &) *)
Definition u_var_copy_assign (p q : name) : M u_world unit :=
  if decide (p = q) then u_get_var p ;;; ret tt
  else
    u_with_tmp (u_var_new_copy None q) (
      t <- u_get_type p ;; u_st_destroy_any t p ;;;
      u <- u_get_type None ;; u_st_assign_move u p None ;;;
      s <- u_get_type q ;; u_set_type p s).
(** variant.hpp:241-246 operator=(T &&) *)
Definition u_var_assign (p : name) (T : ty) (a : arg) : M u_world unit :=
  u_with_tmp (u_var_new_value None T a) (u_var_move_assign p None).

(** variant.hpp:279-281 holds *)
Definition u_var_holds (p : name) (T : ty) : M u_world bool := noexcept (t <- u_get_type p ;; ret (t =? index_of T)).
(** variant.hpp:283-294 get_if; the pointer designates the member of that index, or is null *)
Definition u_var_get_if (p : name) (T : ty) : M u_world (option nat) := noexcept (
  b <- u_var_holds p T ;; if negb b then ret None else ret (Some (index_of T))).
(** variant.hpp:296-307 get, followed by a read or a write *)
Definition u_var_get (p : name) (T : ty) : M u_world V :=
  o <- u_var_get_if p T ;; match o with Some i => u_st_get p i | None => throw BadVariantAccess end.
Definition u_var_write (p : name) (T : ty) (v : V) : M u_world unit :=
  o <- u_var_get_if p T ;; match o with Some i => u_st_store p i v | None => throw BadVariantAccess end.
(** variant.hpp:308-313 get() &&, from which the caller initialises an object *)
Definition u_var_take (p : name) (T : ty) : M u_world V :=
  o <- u_var_get_if p T ;;
  match o with
  | Some i => v <- u_st_get p i ;; u_st_store p i (moved i v) ;;; ret v
  | None => throw BadVariantAccess
  end.

(** variant.hpp:252-264 emplace<T> *)
Definition u_var_emplace (p : name) (T : ty) (a : arg) : M u_world V :=
  (if declared (index_of T) a then
     t <- u_get_type p ;; u_st_destroy_any t p ;;;
     u_st_emplace p (index_of (remove_const T)) a ;;;
     u_set_type p (index_of (remove_const T))
   else
     u_with_tmp (u_var_new_value None T a) (u_var_move_assign p None)) ;;;
  u_var_get p T.
(** variant.hpp:250-251 emplace<Index> *)
Definition u_var_emplace_index (p : name) (i : nat) (a : arg) : M u_world V :=
  match determine_type i alts with Some T => u_var_emplace p T a | None => stuck OutOfBounds end.

(** variant.hpp:266-277 visit *)
Definition u_var_visit (p : name) (f : nat → V → V) : M u_world unit := t <- u_get_type p ;; u_st_visit p t f.

(** std::swap<variant> *)
Definition u_std_swap (p q : name) : M u_world unit := noexcept (
  u_with_tmp (u_var_new_move None p) (u_var_move_assign p q ;;; u_var_move_assign q None)).
(** variant.hpp:315-321 swap *)
Definition u_var_swap (p q : name) : M u_world unit := noexcept (
  if decide (p = q) then u_get_var p ;;; ret tt
  else
    t <- u_get_type p ;; u <- u_get_type q ;;
    if t =? u then s <- u_get_type p ;; u_st_swap s p q else u_std_swap p q).

(** ** Calls and histories *)
Definition u_obs {A} (f : A → vobs) (m : M u_world A) : M u_world vobs := a <- m ;; ret (f a).
Definition u_vexec (o : vop) : M u_world vobs :=
  match o with
  | VNew x => u_obs (λ _, BUnit) (u_var_new (Some x))
  | VNewCopy x y => u_obs (λ _, BUnit) (u_var_new_copy (Some x) (Some y))
  | VNewMove x y => u_obs (λ _, BUnit) (u_var_new_move (Some x) (Some y))
  | VNewValue x T a => u_obs (λ _, BUnit) (u_var_new_value (Some x) T a)
  | VNewIndex x i a => u_obs (λ _, BUnit) (u_var_new_index (Some x) i a)
  | VDestroy x => u_obs (λ _, BUnit) (u_var_destroy (Some x))
  | VCopyAssign x y => u_obs (λ _, BUnit) (u_var_copy_assign (Some x) (Some y))
  | VMoveAssign x y => u_obs (λ _, BUnit) (u_var_move_assign (Some x) (Some y))
  | VAssign x T a => u_obs (λ _, BUnit) (u_var_assign (Some x) T a)
  | VEmplace x T a => u_obs BVal (u_var_emplace (Some x) T a)
  | VEmplaceIndex x i a => u_obs BVal (u_var_emplace_index (Some x) i a)
  | VSwap x y => u_obs (λ _, BUnit) (u_var_swap (Some x) (Some y))
  | VHolds x T => u_obs BBool (u_var_holds (Some x) T)
  | VGetIf x T => u_obs BPtr (u_var_get_if (Some x) T)
  | VGet x T => u_obs BVal (u_var_get (Some x) T)
  | VTake x T => u_obs BVal (u_var_take (Some x) T)
  | VWrite x T v => u_obs (λ _, BUnit) (u_var_write (Some x) T v)
  | VVisit x f => u_obs (λ _, BUnit) (u_var_visit (Some x) f)
  end.
(** A history: exceptions are caught by the caller, who then goes on. *)
Inductive u_hist := UFinished (rs : list vobs) (w : u_world) | UFaulted (f : fault) | UAborted.
Fixpoint u_vrun (os : list vop) (w : u_world) : u_hist :=
  match os with
  | [] => UFinished [] w
  | o :: os' =>
      let go r w' := match u_vrun os' w' with UFinished rs w'' => UFinished (r :: rs) w'' | h => h end in
      match u_vexec o w with
      | Ok r w' => go r w'
      | Exn e w' => go (BThrew e) w'
      | Stuck f => UFaulted f
      | Terminated => UAborted
      end
  end.
Definition u_init_world : u_world := UWorld ∅ 0 [].
End model.
