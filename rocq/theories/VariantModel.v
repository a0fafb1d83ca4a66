(** Model of /repo/inc/ptl/variant.hpp.

    A variant object is its storage, raw ([None]) or holding a live object of one
    alternative ([Some (i, v)]: a value of the i-th type), and the member [type]. Every member
    function is a program over all variant objects of one type variant<alts...>, so that
    arguments may refer to the value inside a variant.

    Simplified: values of all alternatives are drawn from one universe [V]; the nested unions of
    storage_t (lines 14-56) are one slot of which at most one member is alive, and using a
    member that is not alive is a fault; a move leaves [moved i v]; which constructor
    Type{args...} selects is given with the arguments ([AMake c]). Move construction never
    throws (line 184); other constructions throw at the environment's pleasure
    ([copy_fails k] for the k-th one) unless the constructor selected by T{args...} is noexcept
    ([nothrow_copy], [nothrow_make]); std::is_nothrow_constructible is about T(args...), which can
    select another constructor if T has one for an initializer_list ([decl_copy], [decl_make]). The dispatch tables are lists indexed by [type]; an index past the end is
    a fault. The result type of visit, which is that of calling the visitor with the first
    alternative, is in VisitModel.v. *)
From stdpp Require Import prelude gmap.
From Verif Require Import Cpp OrderSpec.
Local Open Scope nat_scope.

(** a type: its name and whether it is const-qualified *)
Record ty := Ty { t_const : bool; t_id : nat }.
Global Instance ty_eq_dec : EqDecision ty.
Proof. solve_decision. Defined.
Definition remove_const (T : ty) : ty := Ty false (t_id T).

(** ** Compile-time functions on the list of alternatives *)

(** variant.hpp:58-60 *)
Definition not_found : nat := 255.
(** variant.hpp:62-68 determine_index; the index is an unsigned char *)
Fixpoint determine_index (T : ty) (l : list ty) (index : nat) : nat :=
  match l with
  | [] => not_found
  | h :: t =>
      if decide (T = h) then index
      else match t with [] => not_found | _ => determine_index T t (Nat.modulo (index + 1) 256) end
  end.
(** variant.hpp:70-76 validate_unique *)
Fixpoint validate_unique (l : list ty) : bool :=
  match l with
  | [] => true
  | h :: t =>
      match t with
      | [] => true
      | _ => if negb (determine_index h t 0 =? not_found) then false else validate_unique t
      end
  end.
(** variant.hpp:78-84 max_sizeof *)
Fixpoint max_sizeof (sizeof : ty → nat) (l : list ty) (size : nat) : nat :=
  match l with
  | [] => size
  | h :: t => let size' := if size <? sizeof h then sizeof h else size in max_sizeof sizeof t size'
  end.
(** variant.hpp:91-97 determine_type *)
Fixpoint determine_type (index : nat) (l : list ty) : option ty :=
  match l, index with
  | [], _ => None
  | h :: _, O => Some h
  | _ :: t, S i => determine_type i t
  end.

Class VarCfg := {
  V : Type;
  alts : list ty;
  moved : nat → V → V;
  make : nat → nat → list V → V;
  nothrow_copy : nat → bool;
  nothrow_make : nat → nat → bool;
  decl_copy : nat → bool;
  decl_make : nat → nat → bool;
  copy_fails : nat → bool;
}.

Section model.
Context `{C : VarCfg}.

(** what the static_asserts of variant.hpp:180-188 require; a const-qualified alternative is
    not swappable *)
Record cfg_ok : Prop := CfgOk {
  ok_some : alts ≠ [];
  ok_few : length alts ≤ 254;
  ok_unique : validate_unique alts = true;
  ok_mutable : Forall (λ T, t_const T = false) alts;
}.
(** index of a type in this variant *)
Definition index_of (T : ty) : nat := determine_index T alts 0.
(** variant.hpp:198-201 can_store *)
Definition can_store (T : ty) : bool := negb (index_of (remove_const T) =? not_found).

(** variant.hpp:195-196 *)
Record var := Var { v_storage : option (nat * V); v_type : nat }.
(** objects of the caller ([Some x]) and the local variable tmp of the code ([None]); the calls
    visitors received *)
Notation name := (option nat).
Record world := World { objs : gmap name var; ncopy : nat; visits : list (nat * V) }.

Definition get_var (p : name) : M world var := λ w,
  match objs w !! p with Some o => Ok o w | None => Stuck NoObject end.
Definition put_var (p : name) (o : var) : M world unit :=
  λ w, Ok tt (World (<[p:=o]> (objs w)) (ncopy w) (visits w)).
Definition get_type (p : name) : M world nat := o <- get_var p ;; ret (v_type o).
Definition set_type (p : name) (t : nat) : M world unit :=
  o <- get_var p ;; put_var p (Var (v_storage o) t).
(** the storage of [p] goes away; a value still alive in it would be leaked *)
Definition drop_var (p : name) : M world unit :=
  o <- get_var p ;;
  match v_storage o with
  | Some _ => stuck LiveFreed
  | None => λ w, Ok tt (World (delete p (objs w)) (ncopy w) (visits w))
  end.

(** ** storage_t, variant.hpp:14-56 *)
(** *get<I>() *)
Definition st_get (p : name) (i : nat) : M world V :=
  o <- get_var p ;;
  match v_storage o with
  | Some (j, v) => if decide (i = j) then ret v else stuck InactiveMember
  | None => stuck DeadObject
  end.
(** *get<I>() = v *)
Definition st_store (p : name) (i : nat) (v : V) : M world unit :=
  o <- get_var p ;;
  match v_storage o with
  | Some (j, _) => if decide (i = j) then put_var p (Var (Some (i, v)) (v_type o)) else stuck InactiveMember
  | None => stuck DeadObject
  end.
(** set<I>(...) with the new value [v] *)
Definition st_set (p : name) (i : nat) (v : V) : M world unit :=
  o <- get_var p ;;
  match v_storage o with Some _ => stuck LiveOverwritten | None => put_var p (Var (Some (i, v)) (v_type o)) end.
(** destroy<I>() *)
Definition st_destroy (p : name) (i : nat) : M world unit :=
  o <- get_var p ;;
  match v_storage o with
  | Some (j, _) => if decide (i = j) then put_var p (Var None (v_type o)) else stuck InactiveMember
  | None => stuck DeadObject
  end.

(** ** Arguments: a value of the caller, or a reference to the value inside variant [y] *)
Inductive ref := RVal (v : V) | RAlt (y : nat).
(** read it as an object of the i-th alternative *)
Definition rd_ref (i : nat) (r : ref) : M world V :=
  match r with RVal v => ret v | RAlt y => st_get (Some y) i end.
Fixpoint rd_refs (l : list (nat * ref)) : M world (list V) :=
  match l with [] => ret [] | (i, r) :: l' => v <- rd_ref i r ;; vs <- rd_refs l' ;; ret (v :: vs) end.
(** const T &, T &&, or arguments for another constructor of T *)
Inductive arg := ACopy (r : ref) | AMove (r : ref) | AMake (c : nat) (l : list (nat * ref)).
(** std::is_nothrow_constructible_v<T, Args...>: T(args...) cannot throw *)
Definition declared (i : nat) (a : arg) : bool :=
  match a with ACopy _ => decl_copy i | AMove _ => true | AMake c _ => decl_make i c end.
(** T{args...} cannot throw *)
Definition nothrow (i : nat) (a : arg) : bool :=
  match a with ACopy _ => nothrow_copy i | AMove _ => true | AMake c _ => nothrow_make i c end.
(** a construction that may throw *)
Definition may_throw (safe : bool) : M world unit := λ w,
  if safe then Ok tt w
  else
    let w' := World (objs w) (S (ncopy w)) (visits w) in
    if copy_fails (ncopy w) then Exn ElementThrow w' else Ok tt w'.
(** the value of T{std::forward<Args>(args)...} where T is the i-th alternative *)
Definition new_value (i : nat) (a : arg) : M world V :=
  match a with
  | ACopy r => v <- rd_ref i r ;; may_throw (nothrow i a) ;;; ret v
  | AMove (RVal v) => ret v
  | AMove (RAlt y) => v <- st_get (Some y) i ;; st_store (Some y) i (moved i v) ;;; ret v
  | AMake c l => vs <- rd_refs l ;; may_throw (nothrow i a) ;;; ret (make i c vs)
  end.

(** ** Dispatch, variant.hpp:99-169 *)
(** dispatch[type] of a table with one entry for each alternative *)
Definition dispatch {A} (f : nat → M world A) (t : nat) : M world A :=
  match (f <$> seq 0 (length alts)) !! t with Some m => m | None => stuck OutOfBounds end.
(** variant.hpp:99-114 visit; the visitor is called with the value, may change it to [f i v] *)
Definition log_visit (i : nat) (v : V) : M world unit :=
  λ w, Ok tt (World (objs w) (ncopy w) (visits w ++ [(i, v)])).
Definition st_visit (p : name) (t : nat) (f : nat → V → V) : M world unit :=
  dispatch (λ i, v <- st_get p i ;; log_visit i v ;;; st_store p i (f i v)) t.
(** variant.hpp:123-129 emplace *)
Definition st_emplace (p : name) (t : nat) (a : arg) : M world unit :=
  dispatch (λ i, v <- new_value i a ;; st_set p i v) t.
(** variant.hpp:131-142 assign<false> and assign<true> *)
Definition st_assign_copy (t : nat) (p q : name) : M world unit :=
  dispatch (λ i, v <- st_get q i ;; may_throw (nothrow_copy i) ;;; st_set p i v) t.
Definition st_assign_move (t : nat) (p q : name) : M world unit := noexcept (
  dispatch (λ i, v <- st_get q i ;; st_store q i (moved i v) ;;; st_set p i v) t).
(** variant.hpp:144-150 destroy *)
Definition st_destroy_any (t : nat) (p : name) : M world unit := dispatch (λ i, st_destroy p i) t.
(** variant.hpp:160-169 swap *)
Definition st_swap (t : nat) (p q : name) : M world unit := noexcept (
  dispatch (λ i, u <- st_get p i ;; v <- st_get q i ;; st_store p i v ;;; st_store q i u) t).

(** ** Members *)
(** a constructor: [type] is initialised, the body runs; if it throws, the storage goes away *)
Definition construct_var (p : name) (t : nat) (body : M world unit) : M world unit :=
  put_var p (Var None t) ;;; on_exn body (drop_var p).
(** variant.hpp:214-217 variant(std::in_place_index_t<Index>, Args &&...) *)
Definition var_new_index (p : name) (i : nat) (a : arg) : M world unit :=
  construct_var p i (v <- new_value i a ;; st_set p i v).
(** variant.hpp:203-205 variant() *)
Definition var_new (p : name) : M world unit := construct_var p 0 (v <- new_value 0 (AMake 0 []) ;; st_set p 0 v).
(** variant.hpp:207 variant(const variant &) *)
Definition var_new_copy (p q : name) : M world unit :=
  t <- get_type q ;; construct_var p t (s <- get_type p ;; st_assign_copy s p q).
(** variant.hpp:208 variant(variant &&) *)
Definition var_new_move (p q : name) : M world unit := noexcept (
  t <- get_type q ;; construct_var p t (s <- get_type p ;; st_assign_move s p q)).
(** variant.hpp:210-212, 218-221 variant(T &&), variant(std::in_place_type_t<T>, Args &&...) *)
Definition var_new_value (p : name) (T : ty) (a : arg) : M world unit := var_new_index p (index_of T) a.
(** variant.hpp:248 ~variant *)
Definition var_destroy (p : name) : M world unit := noexcept (
  t <- get_type p ;; st_destroy_any t p ;;; drop_var p).
(** a local variable tmp, destroyed when its scope is left *)
Definition with_tmp (init body : M world unit) : M world unit :=
  init ;;; on_exn body (var_destroy None) ;;; var_destroy None.
(** variant.hpp:232-239 operator=(variant &&) *)
Definition var_move_assign (p q : name) : M world unit := noexcept (
  if decide (p = q) then get_var p ;;; ret tt
  else
    t <- get_type p ;; st_destroy_any t p ;;;
    u <- get_type q ;; st_assign_move u p q ;;;
    s <- get_type q ;; set_type p s).
(** variant.hpp:223-231 operator=(const variant &) *)
Definition var_copy_assign (p q : name) : M world unit :=
  if decide (p = q) then get_var p ;;; ret tt
  else
    with_tmp (var_new_copy None q) (
      t <- get_type p ;; st_destroy_any t p ;;;
      u <- get_type None ;; st_assign_move u p None ;;;
      s <- get_type q ;; set_type p s).
(** variant.hpp:241-246 operator=(T &&) *)
Definition var_assign (p : name) (T : ty) (a : arg) : M world unit :=
  with_tmp (var_new_value None T a) (var_move_assign p None).

(** variant.hpp:279-281 holds *)
Definition var_holds (p : name) (T : ty) : M world bool := noexcept (t <- get_type p ;; ret (t =? index_of T)).
(** variant.hpp:283-294 get_if; the pointer designates the member of that index, or is null *)
Definition var_get_if (p : name) (T : ty) : M world (option nat) := noexcept (
  b <- var_holds p T ;; if negb b then ret None else ret (Some (index_of T))).
(** variant.hpp:296-307 get, followed by a read or a write *)
Definition var_get (p : name) (T : ty) : M world V :=
  o <- var_get_if p T ;; match o with Some i => st_get p i | None => throw BadVariantAccess end.
Definition var_write (p : name) (T : ty) (v : V) : M world unit :=
  o <- var_get_if p T ;; match o with Some i => st_store p i v | None => throw BadVariantAccess end.
(** variant.hpp:308-313 get() &&, from which the caller initialises an object *)
Definition var_take (p : name) (T : ty) : M world V :=
  o <- var_get_if p T ;;
  match o with
  | Some i => v <- st_get p i ;; st_store p i (moved i v) ;;; ret v
  | None => throw BadVariantAccess
  end.

(** variant.hpp:252-264 emplace<T> *)
Definition var_emplace (p : name) (T : ty) (a : arg) : M world V :=
  (if declared (index_of T) a then
     t <- get_type p ;; st_destroy_any t p ;;;
     st_emplace p (index_of (remove_const T)) a ;;;
     set_type p (index_of (remove_const T))
   else
     with_tmp (var_new_value None T a) (var_move_assign p None)) ;;;
  var_get p T.
(** variant.hpp:250-251 emplace<Index> *)
Definition var_emplace_index (p : name) (i : nat) (a : arg) : M world V :=
  match determine_type i alts with Some T => var_emplace p T a | None => stuck OutOfBounds end.

(** variant.hpp:266-277 visit *)
Definition var_visit (p : name) (f : nat → V → V) : M world unit := t <- get_type p ;; st_visit p t f.

(** std::swap<variant> *)
Definition std_swap (p q : name) : M world unit := noexcept (
  with_tmp (var_new_move None p) (var_move_assign p q ;;; var_move_assign q None)).
(** variant.hpp:315-321 swap *)
Definition var_swap (p q : name) : M world unit := noexcept (
  if decide (p = q) then get_var p ;;; ret tt
  else
    t <- get_type p ;; u <- get_type q ;;
    if t =? u then s <- get_type p ;; st_swap s p q else std_swap p q).

(** ** Calls and histories *)
Inductive vop :=
  | VNew (x : nat) | VNewCopy (x y : nat) | VNewMove (x y : nat)
  | VNewValue (x : nat) (T : ty) (a : arg) | VNewIndex (x : nat) (i : nat) (a : arg) | VDestroy (x : nat)
  | VCopyAssign (x y : nat) | VMoveAssign (x y : nat) | VAssign (x : nat) (T : ty) (a : arg)
  | VEmplace (x : nat) (T : ty) (a : arg) | VEmplaceIndex (x : nat) (i : nat) (a : arg) | VSwap (x y : nat)
  | VHolds (x : nat) (T : ty) | VGetIf (x : nat) (T : ty) | VGet (x : nat) (T : ty) | VTake (x : nat) (T : ty)
  | VWrite (x : nat) (T : ty) (v : V) | VVisit (x : nat) (f : nat → V → V).
Inductive vobs := BUnit | BVal (v : V) | BBool (b : bool) | BPtr (o : option nat) | BThrew (e : exn).

Definition obs {A} (f : A → vobs) (m : M world A) : M world vobs := a <- m ;; ret (f a).
Definition vexec (o : vop) : M world vobs :=
  match o with
  | VNew x => obs (λ _, BUnit) (var_new (Some x))
  | VNewCopy x y => obs (λ _, BUnit) (var_new_copy (Some x) (Some y))
  | VNewMove x y => obs (λ _, BUnit) (var_new_move (Some x) (Some y))
  | VNewValue x T a => obs (λ _, BUnit) (var_new_value (Some x) T a)
  | VNewIndex x i a => obs (λ _, BUnit) (var_new_index (Some x) i a)
  | VDestroy x => obs (λ _, BUnit) (var_destroy (Some x))
  | VCopyAssign x y => obs (λ _, BUnit) (var_copy_assign (Some x) (Some y))
  | VMoveAssign x y => obs (λ _, BUnit) (var_move_assign (Some x) (Some y))
  | VAssign x T a => obs (λ _, BUnit) (var_assign (Some x) T a)
  | VEmplace x T a => obs BVal (var_emplace (Some x) T a)
  | VEmplaceIndex x i a => obs BVal (var_emplace_index (Some x) i a)
  | VSwap x y => obs (λ _, BUnit) (var_swap (Some x) (Some y))
  | VHolds x T => obs BBool (var_holds (Some x) T)
  | VGetIf x T => obs BPtr (var_get_if (Some x) T)
  | VGet x T => obs BVal (var_get (Some x) T)
  | VTake x T => obs BVal (var_take (Some x) T)
  | VWrite x T v => obs (λ _, BUnit) (var_write (Some x) T v)
  | VVisit x f => obs (λ _, BUnit) (var_visit (Some x) f)
  end.
(** A history: exceptions are caught by the caller, who then goes on. *)
Inductive hist := Finished (rs : list vobs) (w : world) | Faulted (f : fault) | Aborted.
Fixpoint vrun (os : list vop) (w : world) : hist :=
  match os with
  | [] => Finished [] w
  | o :: os' =>
      let go r w' := match vrun os' w' with Finished rs w'' => Finished (r :: rs) w'' | h => h end in
      match vexec o w with
      | Ok r w' => go r w'
      | Exn e w' => go (BThrew e) w'
      | Stuck f => Faulted f
      | Terminated => Aborted
      end
  end.
Definition init_world : world := World ∅ 0 [].

(** ** Comparisons, variant.hpp:323-363; [alt_ops i] are the operators of the i-th alternative *)
Context (alt_ops : nat → V → V → answers).
(** variant.hpp:152-158 compare *)
Definition st_compare (t : nat) (p q : name) (f : answers → bool) : M world bool := noexcept (
  dispatch (λ i, u <- st_get p i ;; v <- st_get q i ;; ret (f (alt_ops i u v))) t).
(** 323-328 *)
Definition var_eq (p q : name) : M world bool := noexcept (
  l <- get_type p ;; r <- get_type q ;;
  if negb (l =? r) then ret false else st_compare l p q a_eq).
(** 329-334 *)
Definition var_ne (p q : name) : M world bool := noexcept (
  l <- get_type p ;; r <- get_type q ;;
  if negb (l =? r) then ret true else st_compare l p q a_ne).
(** 336-342 *)
Definition var_lt (p q : name) : M world bool := noexcept (
  l <- get_type p ;; r <- get_type q ;;
  if l <? r then ret true else if r <? l then ret false else st_compare l p q a_lt).
(** 343-349 *)
Definition var_le (p q : name) : M world bool := noexcept (
  l <- get_type p ;; r <- get_type q ;;
  if l <? r then ret true else if r <? l then ret false else st_compare l p q a_le).
(** 350-356 *)
Definition var_gt (p q : name) : M world bool := noexcept (
  l <- get_type p ;; r <- get_type q ;;
  if r <? l then ret true else if l <? r then ret false else st_compare l p q a_gt).
(** 357-363 *)
Definition var_ge (p q : name) : M world bool := noexcept (
  l <- get_type p ;; r <- get_type q ;;
  if r <? l then ret true else if l <? r then ret false else st_compare l p q a_ge).
Definition var_six (x y : nat) : list (M world bool) :=
  (λ f : name → name → M world bool, f (Some x) (Some y)) <$> [var_lt; var_le; var_gt; var_ge; var_eq; var_ne].
End model.
