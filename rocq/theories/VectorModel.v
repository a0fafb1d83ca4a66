(** Model of /repo/inc/ptl/vector.hpp.

    Memory is a heap of blocks; a block is a list of element slots, each raw
    ([None]) or holding a live element ([Some v]). A vector object is the record of
    storage_t's four members. Every member function is a program over the whole
    world (all vector objects, all blocks), so arguments may refer to elements of
    the vector being modified. Allocation and element construction fail at the
    caller's pleasure: [alloc_fails k] / [ctor_fails k] decide about the k-th one. The
    program consists of several modules, each with a heap of its own; the code of any module
    may run next ([running]), and vectors are passed between modules.

    Simplified: iterators into a vector are element offsets; Type's operations are
    value-like (a copy equals its source, a move leaves [moved v], assigning an
    element from itself as an rvalue leaves [selfmove v]); std::rotate and the
    uninitialized_* algorithms are the standard's; reallocated elements are
    relocated in one sweep. Iterator classes (vector.hpp:92-187) are in IterModel.v,
    comparisons (380-392) in OrderModel.v. *)
From stdpp Require Import prelude gmap.
From Coq Require Import ZArith.
From Verif Require Import Cpp.
Local Open Scope nat_scope.

(** The element type, the platform and the environment's failures. *)
Class VecCfg := {
  V : Type;
  moved : V → V;            (* value left behind by a move *)
  selfmove : V → V;         (* value after x = std::move(x) *)
  dflt : V;                 (* Type() *)
  wbits : nat;              (* width of std::size_t *)
  szT : nat;                (* sizeof(Type) *)
  alloc_fails : nat → bool; (* does the k-th calloc return null? *)
  ctor_fails : nat → bool;  (* does the k-th copy/value construction throw? *)
  running : nat → nat;      (* the module whose code runs when block b is allocated *)
}.

Section model.
Context `{C : VecCfg}.

(** std::size_t addition wraps *)
Definition wadd (a b : nat) : nat :=
  Z.to_nat ((Z.of_nat a + Z.of_nat b) `mod` 2 ^ Z.of_nat wbits).

(** vector.hpp:29-32 *)
Definition min_cap : nat := 10.
Definition max_cap : nat :=
  Z.to_nat ((2 ^ (Z.of_nat wbits - 1) - 1) `div` Z.of_nat szT).

(** vector.hpp:36-39; [v_dealloc] is the module whose deallocation function it points to *)
Record vec := Vec { v_dealloc : option nat; v_ptr : option nat; v_cap : nat; v_siz : nat }.
(** vector.hpp:41 storage_t() *)
Definition null_vec : vec := Vec None None 0 0.
(** vector.hpp:82 set_size *)
Definition set_size (v : vec) (n : nat) : vec := Vec (v_dealloc v) (v_ptr v) (v_cap v) n.

Notation block := (list (option V)).
Record world := World {
  objs : gmap nat vec;      (* the vector objects alive *)
  heap : gmap nat block;    (* allocated blocks *)
  nextb : nat;              (* next block address *)
  nctor : nat;              (* constructions attempted so far *)
  nalloc : nat;             (* allocations attempted so far *)
  nreloc : nat;             (* elements relocated to another block so far *)
}.
Definition with_objs (o : gmap nat vec) (w : world) : world :=
  World o (heap w) (nextb w) (nctor w) (nalloc w) (nreloc w).
Definition with_heap (h : gmap nat block) (w : world) : world :=
  World (objs w) h (nextb w) (nctor w) (nalloc w) (nreloc w).

(** ** Objects *)
Definition get_vec (x : nat) : M world vec := λ w,
  match objs w !! x with Some v => Ok v w | None => Stuck NoObject end.
Definition put_vec (x : nat) (v : vec) : M world unit := λ w, Ok tt (with_objs (<[x:=v]> (objs w)) w).
Definition del_vec (x : nat) : M world unit := λ w, Ok tt (with_objs (delete x (objs w)) w).
(** an unused name for a temporary object *)
Definition temp_name : M world nat := λ w, Ok (fresh (dom (objs w))) w.

(** ** Memory *)
Definition ptr := (option nat * nat)%type.     (* block (or null) and element offset *)
Definition padd (p : ptr) (n : nat) : ptr := (p.1, p.2 + n).

Definition get_block (p : ptr) : M world (nat * block) := λ w,
  match p.1 with
  | None => Stuck NullDeref
  | Some b => match heap w !! b with Some c => Ok (b, c) w | None => Stuck UseAfterFree end
  end.
Definition put_block (b : nat) (c : block) : M world unit := λ w, Ok tt (with_heap (<[b:=c]> (heap w)) w).

(** read *p *)
Definition rd (p : ptr) : M world V :=
  bc <- get_block p ;;
  match bc.2 !! p.2 with
  | None => stuck OutOfBounds
  | Some None => stuck DeadObject
  | Some (Some v) => ret v
  end.
(** begin the lifetime of an element at p *)
Definition construct (p : ptr) (v : V) : M world unit :=
  bc <- get_block p ;;
  match bc.2 !! p.2 with
  | None => stuck OutOfBounds
  | Some (Some _) => stuck LiveOverwritten
  | Some None => put_block bc.1 (<[p.2:=Some v]> bc.2)
  end.
(** end the lifetime of the element at p *)
Definition destroy (p : ptr) : M world unit :=
  bc <- get_block p ;;
  match bc.2 !! p.2 with
  | None => stuck OutOfBounds
  | Some None => stuck DeadObject
  | Some (Some _) => put_block bc.1 (<[p.2:=None]> bc.2)
  end.
(** overwrite the live element at p *)
Definition store (p : ptr) (v : V) : M world unit :=
  bc <- get_block p ;;
  match bc.2 !! p.2 with
  | None => stuck OutOfBounds
  | Some None => stuck DeadObject
  | Some (Some _) => put_block bc.1 (<[p.2:=Some v]> bc.2)
  end.
(** the module whose code is running; it matters only when a block is allocated *)
Definition this_module : M world nat := λ w, Ok (running (nextb w)) w.
(** std::calloc, null on failure; block [b] is part of the heap of module [running b] *)
Definition calloc (n : nat) : M world (option nat) := λ w,
  if alloc_fails (nalloc w)
  then Ok None (World (objs w) (heap w) (nextb w) (nctor w) (S (nalloc w)) (nreloc w))
  else Ok (Some (nextb w))
          (World (objs w) (<[nextb w:=replicate n None]> (heap w)) (S (nextb w))
                 (nctor w) (S (nalloc w)) (nreloc w)).
(** std::free of module [m]; releasing memory with live elements in it is a leak of those *)
Definition free (m : nat) (p : option nat) : M world unit :=
  match p with
  | None => ret tt
  | Some b => λ w,
      match heap w !! b with
      | None => Stuck UseAfterFree
      | Some c => if negb (running b =? m) then Stuck WrongModule
                  else if forallb (λ s, match s with None => true | Some _ => false end) c
                  then Ok tt (with_heap (delete b (heap w)) w) else Stuck LiveFreed
      end
  end.
(** a copy/value constructor of Type runs; it may throw *)
Definition ctor : M world unit := λ w,
  let w' := World (objs w) (heap w) (nextb w) (S (nctor w)) (nalloc w) (nreloc w) in
  if ctor_fails (nctor w) then Exn ElementThrow w' else Ok tt w'.
Definition relocated : M world unit := λ w,
  Ok tt (World (objs w) (heap w) (nextb w) (nctor w) (nalloc w) (S (nreloc w))).

(** ** Standard algorithms *)
(** std::destroy_n / std::destroy *)
Fixpoint destroy_n (p : ptr) (n : nat) : M world unit :=
  match n with O => ret tt | S n' => destroy p ;;; destroy_n (padd p 1) n' end.

(** What a value argument designates: an object of the caller, or an element in memory. *)
Inductive src := SVal (v : V) | SPtr (p : ptr).
Definition rd_src (s : src) : M world V :=
  match s with SVal v => ret v | SPtr p => rd p end.

(** uninitialized_{copy,fill,value_construct}: construct n elements at [p], the k-th from
    [from k]; if one throws, the [done] elements before it are destroyed. *)
Fixpoint uninit_loop (from : nat → src) (p : ptr) (done n : nat) : M world unit :=
  match n with
  | O => ret tt
  | S n' =>
      on_exn (v <- rd_src (from done) ;; ctor ;;; construct (padd p done) v) (destroy_n p done) ;;;
      uninit_loop from p (S done) n'
  end.
Definition uninit (from : nat → src) (p : ptr) (n : nat) : M world unit := uninit_loop from p 0 n.

(** std::uninitialized_move_n: Type's move constructor is noexcept (vector.hpp:23) *)
Fixpoint uninit_move_n (s : ptr) (n : nat) (d : ptr) : M world unit :=
  match n with
  | O => ret tt
  | S n' =>
      v <- rd s ;; construct d v ;;; store s (moved v) ;;; relocated ;;;
      uninit_move_n (padd s 1) n' (padd d 1)
  end.

(** *d = std::move( *s) *)
Definition move_assign_elem (s d : ptr) : M world unit :=
  v <- rd s ;;
  if decide (s = d) then store d (selfmove v) else store d v ;;; store s (moved v).
(** std::move(s, s + n, d) *)
Fixpoint move_range (s : ptr) (n : nat) (d : ptr) : M world unit :=
  match n with
  | O => ret tt
  | S n' => move_assign_elem s d ;;; move_range (padd s 1) n' (padd d 1)
  end.

(** std::rotate(p + first, p + middle, p + last) *)
Definition rotate (p : option nat) (first middle last : nat) : M world unit :=
  if (first =? middle) || (middle =? last) then ret tt
  else
    bc <- get_block (p, 0) ;;
    let c := bc.2 in
    if negb ((first <=? middle) && (middle <=? last) && (last <=? length c)) then stuck OutOfBounds
    else if forallb (λ s, match s with None => false | Some _ => true end) (take (last - first) (drop first c))
    then put_block bc.1 (take first c ++ take (last - middle) (drop middle c)
                         ++ take (middle - first) (drop first c) ++ drop last c)
    else stuck DeadObject.

(** ** storage_t, vector.hpp:35-90 *)

(** vector.hpp:43-52 storage_t(std::size_t) *)
Definition storage_new (capacity : nat) : M world vec :=
  if capacity =? 0 then ret null_vec
  else if max_cap <? capacity then throw LengthError
  else let capacity := min_cap `max` capacity in
       m <- this_module ;;
       p <- calloc capacity ;;
       match p with
       | None => throw BadAlloc
       | Some b => ret (Vec (Some m) (Some b) capacity 0)
       end.

(** vector.hpp:70-74 ~storage_t() *)
Definition storage_dtor (v : vec) : M world unit :=
  match v_dealloc v with
  | Some m => destroy_n (v_ptr v, 0) (v_siz v) ;;; free m (v_ptr v)
  | None => ret tt
  end.

(** vector.hpp:56-68 operator=(storage_t &&) for distinct operands; the result is [other] afterwards *)
Definition storage_take (x : nat) (other : vec) : M world vec :=
  v <- get_vec x ;;
  (match v_dealloc v with
   | Some m => destroy_n (v_ptr v, 0) (v_siz v) ;;; free m (v_ptr v)
   | None => ret tt
   end) ;;;
  put_vec x (Vec (v_dealloc other) (v_ptr other) (v_cap other) (v_siz other)) ;;;
  ret null_vec.

(** the end of every reallocating operation: storage = std::move(tmp); } and tmp is destroyed *)
Definition commit (x : nat) (tmp : vec) : M world unit :=
  rest <- storage_take x tmp ;; storage_dtor rest.

(** ** vector *)

(** vector.hpp:189-202 assign_impl; [func] receives the place to construct at *)
Definition assign_impl (x required : nat) (func : ptr → M world unit) : M world unit :=
  v <- get_vec x ;;
  let size := v_siz v in
  if wadd size required <=? v_cap v then
    func (v_ptr v, size) ;;;
    rotate (v_ptr v) 0 size (size + required) ;;;
    destroy_n (v_ptr v, required) size ;;;
    put_vec x (set_size v required)
  else
    tmp <- storage_new required ;;
    on_exn (func (v_ptr tmp, 0)) (storage_dtor tmp) ;;;
    commit x (set_size tmp required).

(** vector.hpp:204-220 insert_impl; returns the offset of the result iterator *)
Definition insert_impl (x offset required : nat) (func : ptr → M world unit) : M world nat :=
  v <- get_vec x ;;
  let size := v_siz v in
  (if wadd size required <=? v_cap v then
     func (v_ptr v, size) ;;;
     rotate (v_ptr v) offset size (size + required) ;;;
     put_vec x (set_size v (size + required))
   else
     tmp <- storage_new (wadd size (size `max` required)) ;;
     on_exn (func (v_ptr tmp, offset)) (storage_dtor tmp) ;;;
     uninit_move_n (v_ptr v, 0) offset (v_ptr tmp, 0) ;;;
     uninit_move_n (v_ptr v, offset) (size - offset) (v_ptr tmp, offset + required) ;;;
     commit x (set_size tmp (size + required))) ;;;
  ret offset.

(** vector.hpp:341-347 erase(first, last), noexcept; [i], [j] are offsets *)
Definition vec_erase (x i j : nat) : M world nat :=
  v <- get_vec x ;;
  let size := v_siz v in
  let count := j - i in
  move_range (v_ptr v, j) (size - j) (v_ptr v, i) ;;;
  destroy_n (v_ptr v, size - count) count ;;;
  put_vec x (set_size v (size - count)) ;;;
  ret i.
(** vector.hpp:340 erase(pos) *)
Definition vec_erase1 (x i : nat) : M world nat := vec_erase x i (i + 1).

(** vector.hpp:222-233 resize_impl *)
Definition resize_impl (x new_size : nat) (func : ptr → nat → M world unit) : M world unit :=
  v <- get_vec x ;;
  let size := v_siz v in
  if new_size =? size then ret tt
  else if new_size <? size then vec_erase x new_size size ;;; ret tt
  else
    tmp <- storage_new new_size ;;
    on_exn (func (v_ptr tmp, size) (new_size - size)) (storage_dtor tmp) ;;;
    uninit_move_n (v_ptr v, 0) size (v_ptr tmp, 0) ;;;
    commit x (set_size tmp new_size).

(** Arguments as the caller writes them: a value of its own, or a reference to element
    [i] of vector [y]; for rvalue parameters also std::move(y[i]). *)
Inductive carg := CVal (v : V) | CElem (y i : nat).
Inductive earg := ECopy (a : carg) | EMove (y i : nat).
(** forward-iterator ranges: values elsewhere, or elements [i, i+n) of vector [y] *)
Inductive range := RVals (l : list V) | RElems (y i n : nat).

(** the reference is formed before the call *)
Definition bind_arg (a : carg) : M world src :=
  match a with
  | CVal v => ret (SVal v)
  | CElem y i => v <- get_vec y ;; ret (SPtr (v_ptr v, i))
  end.
Definition bind_range (r : range) : M world ((nat → src) * nat) :=
  match r with
  | RVals l => ret (λ k, match l !! k with Some v => SVal v | None => SPtr (None, 0) end, length l)
  | RElems y i n => v <- get_vec y ;; ret (λ k, SPtr (v_ptr v, i + k), n)
  end.

(** vector.hpp:336-338 assign *)
Definition vec_assign_range (x : nat) (r : range) : M world unit :=
  s <- bind_range r ;; assign_impl x s.2 (λ p, uninit s.1 p s.2).
Definition vec_assign_fill (x count : nat) (a : carg) : M world unit :=
  s <- bind_arg a ;; assign_impl x count (λ p, uninit (λ _, s) p count).
(** vector.hpp:355, 359 insert *)
Definition vec_insert_range (x i : nat) (r : range) : M world nat :=
  s <- bind_range r ;; insert_impl x i s.2 (λ p, uninit s.1 p s.2).
Definition vec_insert_fill (x i count : nat) (a : carg) : M world nat :=
  s <- bind_arg a ;; insert_impl x i count (λ p, uninit (λ _, s) p count).
(** vector.hpp:357 insert(pos, const Type &) *)
Definition vec_insert1 (x i : nat) (a : carg) : M world nat := vec_insert_fill x i 1 a.
(** vector.hpp:361 emplace: new(pos) Type{std::forward<Args>(args)...} *)
Definition emplace_at (a : src + ptr) (p : ptr) : M world unit :=
  match a with
  | inl s => v <- rd_src s ;; ctor ;;; construct p v
  | inr q => v <- rd q ;; construct p v ;;; store q (moved v)
  end.
Definition bind_earg (a : earg) : M world (src + ptr) :=
  match a with
  | ECopy a => s <- bind_arg a ;; ret (inl s)
  | EMove y i => v <- get_vec y ;; ret (inr (v_ptr v, i))
  end.
Definition vec_emplace (x i : nat) (a : earg) : M world nat :=
  s <- bind_earg a ;; insert_impl x i 1 (emplace_at s).
(** vector.hpp:298-301 push_back, emplace_back *)
Definition vec_push_back (x : nat) (a : earg) : M world nat :=
  s <- bind_earg a ;; v <- get_vec x ;; insert_impl x (v_siz v) 1 (emplace_at s).

(** vector.hpp:303-306 pop_back *)
Definition vec_pop_back (x : nat) : M world unit :=
  v <- get_vec x ;;
  let v' := set_size v (v_siz v - 1) in
  put_vec x v' ;;; destroy (v_ptr v', v_siz v').

(** vector.hpp:308-314 reserve *)
Definition vec_reserve (x new_capacity : nat) : M world unit :=
  v <- get_vec x ;;
  if new_capacity <=? v_cap v then ret tt
  else
    tmp <- storage_new new_capacity ;;
    (if v_siz v =? 0 then ret tt else uninit_move_n (v_ptr v, 0) (v_siz v) (v_ptr tmp, 0)) ;;;
    commit x (set_size tmp (v_siz v)).

(** vector.hpp:316-317 resize *)
Definition vec_resize (x count : nat) : M world unit :=
  resize_impl x count (λ p n, uninit (λ _, SVal dflt) p n).
Definition vec_resize_fill (x count : nat) (a : carg) : M world unit :=
  s <- bind_arg a ;; resize_impl x count (λ p n, uninit (λ _, s) p n).

(** vector.hpp:319-326 shrink_to_fit, declared noexcept *)
Definition vec_shrink_to_fit (x : nat) : M world unit :=
  noexcept (
    v <- get_vec x ;;
    if v_cap v <=? wadd (v_siz v) (v_siz v) then ret tt
    else
      tmp <- storage_new (v_siz v) ;;
      uninit_move_n (v_ptr v, 0) (v_siz v) (v_ptr tmp, 0) ;;;
      commit x (set_size tmp (v_siz v))).

(** vector.hpp:328-331 clear *)
Definition vec_clear (x : nat) : M world unit :=
  v <- get_vec x ;;
  destroy_n (v_ptr v, 0) (v_siz v) ;;;
  put_vec x (set_size v 0).

(** vector.hpp:376, 84-89 swap *)
Definition vec_swap (x y : nat) : M world unit :=
  a <- get_vec x ;; b <- get_vec y ;;
  put_vec x (Vec (v_dealloc b) (v_ptr b) (v_cap b) (v_siz b)) ;;;
  put_vec y (Vec (v_dealloc a) (v_ptr a) (v_cap a) (v_siz a)).

(** vector.hpp:254, 56-68 operator=(vector &&) *)
Definition vec_move_assign (x y : nat) : M world unit :=
  if decide (x = y) then get_vec x ;;; ret tt
  else b <- get_vec y ;; b' <- storage_take x b ;; put_vec y b'.

(** vector.hpp:250-253 operator=(const vector &) *)
Definition vec_copy_assign (x y : nat) : M world unit :=
  if decide (x = y) then get_vec x ;;; ret tt
  else b <- get_vec y ;; vec_assign_range x (RElems y 0 (v_siz b)).

(** ~vector: ~storage_t *)
Definition vec_destroy (x : nat) : M world unit :=
  v <- get_vec x ;; storage_dtor v ;;; del_vec x.

(** constructors with a body: [storage] is default-initialised first, and destroyed if the
    body throws (vector.hpp:248, 257-265) *)
Definition construct_vec (x : nat) (body : M world unit) : M world unit :=
  put_vec x null_vec ;;; on_exn body (vec_destroy x).
(** std::copy(first, last, std::back_inserter( *this)) *)
Fixpoint push_all (x : nat) (l : list V) : M world unit :=
  match l with [] => ret tt | v :: l' => vec_push_back x (ECopy (CVal v)) ;;; push_all x l' end.
Definition vec_new (x : nat) : M world unit := put_vec x null_vec.                        (* 247 *)
Definition vec_new_range (x : nat) (r : range) : M world unit :=                          (* 260 *)
  construct_vec x (vec_assign_range x r).
Definition vec_new_copy (x y : nat) : M world unit :=                                     (* 248 *)
  b <- get_vec y ;; vec_new_range x (RElems y 0 (v_siz b)).
Definition vec_new_move (x y : nat) : M world unit :=                                     (* 249, 54 *)
  b <- get_vec y ;; put_vec y null_vec ;;;
  put_vec x (Vec (v_dealloc b) (v_ptr b) (v_cap b) (v_siz b)).
Definition vec_new_input (x : nat) (l : list V) : M world unit :=                         (* 258 *)
  construct_vec x (push_all x l).
Definition vec_new_count (x n : nat) : M world unit := construct_vec x (vec_resize x n).  (* 262 *)
Definition vec_new_fill (x n : nat) (a : carg) : M world unit :=                          (* 263 *)
  construct_vec x (vec_resize_fill x n a).

(** vector.hpp:334 assign from input iterators: *this = vector(first, last) *)
Definition vec_assign_input (x : nat) (l : list V) : M world unit :=
  t <- temp_name ;;
  vec_new_input t l ;;; vec_move_assign x t ;;; vec_destroy t.
(** vector.hpp:350-353 insert from input iterators, through a temporary and move iterators *)
Fixpoint uninit_move_from (s : ptr) (p : ptr) (n : nat) : M world unit :=
  match n with
  | O => ret tt
  | S n' => v <- rd s ;; construct p v ;;; store s (moved v) ;;; uninit_move_from (padd s 1) (padd p 1) n'
  end.
Definition vec_insert_input (x i : nat) (l : list V) : M world nat :=
  t <- temp_name ;;
  vec_new_input t l ;;;
  r <- on_exn (tv <- get_vec t ;; insert_impl x i (v_siz tv) (λ p, uninit_move_from (v_ptr tv, 0) p (v_siz tv)))
              (vec_destroy t) ;;
  vec_destroy t ;;; ret r.

(** Element access, vector.hpp:272-286 *)
Definition vec_index (x i : nat) : M world V := v <- get_vec x ;; rd (v_ptr v, i).
Definition vec_at (x i : nat) : M world V :=
  v <- get_vec x ;; if v_siz v <=? i then throw OutOfRange else vec_index x i.
Definition vec_front (x : nat) : M world V := vec_index x 0.
Definition vec_back (x : nat) : M world V := v <- get_vec x ;; vec_index x (v_siz v - 1).
(** x[i] = std::move(value) for a value of the caller *)
Definition vec_set (x i : nat) (value : V) : M world unit := v <- get_vec x ;; store (v_ptr v, i) value.
(** vector.hpp:292-296 *)
Definition vec_size (x : nat) : M world nat := v <- get_vec x ;; ret (v_siz v).
Definition vec_empty (x : nat) : M world bool := n <- vec_size x ;; ret (n =? 0).
Definition vec_capacity (x : nat) : M world nat := v <- get_vec x ;; ret (v_cap v).
Definition vec_data (x : nat) : M world (option nat) := v <- get_vec x ;; ret (v_ptr v).

(** ** Calls and histories *)
Inductive vop :=
  | VNew (x : nat) | VNewRange (x : nat) (r : range) | VNewCopy (x y : nat) | VNewMove (x y : nat)
  | VNewInput (x : nat) (l : list V) | VNewCount (x n : nat) | VNewFill (x n : nat) (a : carg)
  | VDestroy (x : nat)
  | VCopyAssign (x y : nat) | VMoveAssign (x y : nat)
  | VAssignRange (x : nat) (r : range) | VAssignFill (x n : nat) (a : carg) | VAssignInput (x : nat) (l : list V)
  | VPushBack (x : nat) (a : earg) | VEmplace (x i : nat) (a : earg)
  | VInsertFill (x i n : nat) (a : carg) | VInsertRange (x i : nat) (r : range) | VInsertInput (x i : nat) (l : list V)
  | VPopBack (x : nat) | VErase (x i j : nat) | VErase1 (x i : nat)
  | VReserve (x n : nat) | VResize (x n : nat) | VResizeFill (x n : nat) (a : carg)
  | VShrink (x : nat) | VClear (x : nat) | VSwap (x y : nat)
  | VSet (x i : nat) (v : V)
  | VAt (x i : nat) | VIndex (x i : nat) | VFront (x : nat) | VBack (x : nat) | VSize (x : nat) | VEmpty (x : nat).

Inductive vobs := OUnit | OVal (v : V) | ONat (n : nat) | OBool (b : bool) | OThrew (e : exn).

Definition obs_unit (m : M world unit) : M world vobs := m ;;; ret OUnit.
Definition obs_nat (m : M world nat) : M world vobs := n <- m ;; ret (ONat n).
Definition obs_val (m : M world V) : M world vobs := v <- m ;; ret (OVal v).
Definition obs_bool (m : M world bool) : M world vobs := v <- m ;; ret (OBool v).

Definition vexec (o : vop) : M world vobs :=
  match o with
  | VNew x => obs_unit (vec_new x)
  | VNewRange x r => obs_unit (vec_new_range x r)
  | VNewCopy x y => obs_unit (vec_new_copy x y)
  | VNewMove x y => obs_unit (vec_new_move x y)
  | VNewInput x l => obs_unit (vec_new_input x l)
  | VNewCount x n => obs_unit (vec_new_count x n)
  | VNewFill x n a => obs_unit (vec_new_fill x n a)
  | VDestroy x => obs_unit (vec_destroy x)
  | VCopyAssign x y => obs_unit (vec_copy_assign x y)
  | VMoveAssign x y => obs_unit (vec_move_assign x y)
  | VAssignRange x r => obs_unit (vec_assign_range x r)
  | VAssignFill x n a => obs_unit (vec_assign_fill x n a)
  | VAssignInput x l => obs_unit (vec_assign_input x l)
  | VPushBack x a => obs_nat (vec_push_back x a)
  | VEmplace x i a => obs_nat (vec_emplace x i a)
  | VInsertFill x i n a => obs_nat (vec_insert_fill x i n a)
  | VInsertRange x i r => obs_nat (vec_insert_range x i r)
  | VInsertInput x i l => obs_nat (vec_insert_input x i l)
  | VPopBack x => obs_unit (vec_pop_back x)
  | VErase x i j => obs_nat (vec_erase x i j)
  | VErase1 x i => obs_nat (vec_erase1 x i)
  | VReserve x n => obs_unit (vec_reserve x n)
  | VResize x n => obs_unit (vec_resize x n)
  | VResizeFill x n a => obs_unit (vec_resize_fill x n a)
  | VShrink x => obs_unit (vec_shrink_to_fit x)
  | VClear x => obs_unit (vec_clear x)
  | VSwap x y => obs_unit (vec_swap x y)
  | VSet x i v => obs_unit (vec_set x i v)
  | VAt x i => obs_val (vec_at x i)
  | VIndex x i => obs_val (vec_index x i)
  | VFront x => obs_val (vec_front x)
  | VBack x => obs_val (vec_back x)
  | VSize x => obs_nat (vec_size x)
  | VEmpty x => obs_bool (vec_empty x)
  end.

(** A history: exceptions are caught by the caller, who then goes on. *)
Inductive hist := Finished (rs : list vobs) (w : world) | Faulted (f : fault) | Aborted.
Fixpoint vrun (os : list vop) (w : world) : hist :=
  match os with
  | [] => Finished [] w
  | o :: os' =>
      let go r w' := match vrun os' w' with Finished rs w'' => Finished (r :: rs) w'' | h => h end in
      match vexec o w with
      | Ok r w' => go r w'
      | Exn e w' => go (OThrew e) w'
      | Stuck f => Faulted f
      | Terminated => Aborted
      end
  end.

(** before any vector exists; the counters select which part of the failure oracles is used *)
Definition init_world : world := World ∅ ∅ 0 0 0 0.
End model.
