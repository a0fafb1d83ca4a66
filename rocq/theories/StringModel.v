(** Model of /repo/inc/ptl/string.hpp.

    Memory is a map from buffers to arrays of bytes, a byte being indeterminate ([None])
    or having a value. A buffer is the inline array of a storage_t object, which exists
    while its [sso] member is the active one, or a block from new char[]. A string object
    is its deallocation function and its union. The program consists of several modules, each
    with a heap of its own; the code of any module may run next ([running]). Every member function is a program over the
    whole world, so ranges may lie in the string being modified. Allocation fails at the
    caller's pleasure ([alloc_fails k] decides about the k-th), and always for more than
    PTRDIFF_MAX bytes. Iterators of the caller may throw when dereferenced.

    Simplified: string iterators are offsets into the buffer; the deallocation function
    is the module it is part of; the members of [heap] are written together; std::copy and friends are the loops
    of the standard's specification, std::rotate its effect; a function returning a local
    string constructs it in place. The iterator class (string.hpp:140-235) is in
    IterModel.v, comparisons and hash (573-610, 627-632) in StringOrder.v. *)
From stdpp Require Import prelude gmap.
From Coq Require Import ZArith.
From Coq Require Export Init.Byte.
From Verif Require Import Cpp.
Local Open Scope nat_scope.

(** The platform and the environment's failures. *)
Class StrCfg := {
  psz : nat;                (* sizeof(void * ) *)
  wbits : nat;              (* width of std::size_t *)
  alloc_fails : nat → bool; (* does the k-th new char[] throw? *)
  running : nat → nat;      (* the module whose code runs when block b is allocated *)
}.

Notation char := byte.
Notation NUL := x00.

Section model.
Context `{C : StrCfg}.

(** std::size_t addition wraps *)
Definition wadd (a b : nat) : nat :=
  Z.to_nat ((Z.of_nat a + Z.of_nat b) `mod` 2 ^ Z.of_nat wbits).
Definition ptrdiff_max : nat := Z.to_nat (2 ^ (Z.of_nat wbits - 1) - 1).
(** conversion to char; the values in question stay below 128 *)
Definition to_char (n : nat) : nat := n `mod` 256.

(** string.hpp:20-22 sso_size and :30 sizeof(sso) *)
Definition sso_size : nat := 3 * psz - 2.
Definition footprint : nat := 3 * psz.
(** string.hpp:386-387 max_size *)
Definition max_size : nat := ptrdiff_max - 1.

(** string.hpp:24-35 the members; [UNone] before anything was stored in the union *)
Inductive uni := UNone | USso (siz : nat) | UHeap (ptr cap siz : nat).
(** [s_dealloc] is the module whose deallocation function it points to, or null *)
Record str := Str { s_dealloc : option nat; s_u : uni }.
Definition is_set (d : option nat) : bool := match d with Some _ => true | None => false end.

Notation bufid := (nat + nat)%type.            (* inline buffer of an object, or block *)
Definition bptr := (bufid * nat)%type.
Definition padd (p : bptr) (n : nat) : bptr := (p.1, p.2 + n).
Notation buffer := (list (option char)).

Record world := World {
  objs : gmap nat str;                  (* the storage_t objects alive *)
  mem : gmap bufid buffer;
  nextb : nat;                          (* next block address *)
  nalloc : nat;                         (* allocations attempted so far *)
  ncopied : nat;                        (* characters copied by reserve so far *)
}.
Definition with_objs (o : gmap nat str) (w : world) : world :=
  World o (mem w) (nextb w) (nalloc w) (ncopied w).
Definition with_mem (h : gmap bufid buffer) (w : world) : world :=
  World (objs w) h (nextb w) (nalloc w) (ncopied w).

(** ** Memory *)
(** read *p *)
Definition rd (p : bptr) : M world char := λ w,
  match mem w !! p.1 with
  | None => Stuck UseAfterFree
  | Some c => match c !! p.2 with
              | None => Stuck OutOfBounds
              | Some None => Stuck Uninitialised
              | Some (Some v) => Ok v w
              end
  end.
(** *p = v *)
Definition wr (p : bptr) (v : char) : M world unit := λ w,
  match mem w !! p.1 with
  | None => Stuck UseAfterFree
  | Some c => if p.2 <? length c then Ok tt (with_mem (<[p.1:=<[p.2:=Some v]> c]> (mem w)) w)
              else Stuck OutOfBounds
  end.
(** the module whose code is running; it matters only when a block is allocated *)
Definition this_module : M world nat := λ w, Ok (running (nextb w)) w.
(** new char[n]; block [b] is part of the heap of module [running b] *)
Definition new_char (n : nat) : M world nat := λ w,
  if alloc_fails (nalloc w) || (ptrdiff_max <? n)
  then Exn BadAlloc (World (objs w) (mem w) (nextb w) (S (nalloc w)) (ncopied w))
  else Ok (nextb w) (World (objs w) (<[inr (nextb w):=replicate n None]> (mem w)) (S (nextb w))
                           (S (nalloc w)) (ncopied w)).
(** delete[] of module [m] *)
Definition delete_char (m b : nat) : M world unit := λ w,
  match mem w !! (inr b : bufid) with
  | None => Stuck UseAfterFree
  | Some _ => if negb (running b =? m) then Stuck WrongModule
              else Ok tt (with_mem (delete (inr b) (mem w)) w)
  end.
Definition count_copied (n : nat) : M world unit := λ w,
  Ok tt (World (objs w) (mem w) (nextb w) (nalloc w) (ncopied w + n)).

(** ** Objects and their union *)
Definition get_str (x : nat) : M world str := λ w,
  match objs w !! x with Some s => Ok s w | None => Stuck NoObject end.
Definition put_str (x : nat) (s : str) : M world unit := λ w, Ok tt (with_objs (<[x:=s]> (objs w)) w).
(** the memory of the object is given up *)
Definition drop_str (x : nat) : M world unit := λ w,
  Ok tt (with_mem (delete (inl x) (mem w)) (with_objs (delete x (objs w)) w)).
(** an unused name for a temporary object *)
Definition temp_name : M world nat := λ w, Ok (fresh (dom (objs w))) w.

Definition read_heap (x : nat) : M world (nat * nat * nat) :=
  s <- get_str x ;; match s_u s with UHeap p cap siz => ret (p, cap, siz) | _ => stuck InactiveMember end.
Definition read_sso (x : nat) : M world nat :=
  s <- get_str x ;; match s_u s with USso siz => ret siz | _ => stuck InactiveMember end.
(** sso.siz = n makes [sso] the active member, [buf] being indeterminate if it was not *)
Definition write_sso (x n : nat) : M world unit :=
  s <- get_str x ;;
  match s_u s with
  | USso _ => put_str x (Str (s_dealloc s) (USso n))
  | _ => put_str x (Str (s_dealloc s) (USso n)) ;;;
         (λ w, Ok tt (with_mem (<[inl x:=replicate (sso_size + 1) None]> (mem w)) w))
  end.
Definition write_heap (x : nat) (h : nat * nat * nat) : M world unit :=
  s <- get_str x ;;
  put_str x (Str (s_dealloc s) (UHeap h.1.1 h.1.2 h.2)) ;;;
  (λ w, Ok tt (with_mem (delete (inl x) (mem w)) w)).
Definition write_dealloc (x : nat) (b : option nat) : M world unit :=
  s <- get_str x ;; put_str x (Str b (s_u s)).

(** ** Standard algorithms *)
(** what an iterator designates: a value of the caller ([None]: dereferencing throws), or memory *)
Inductive chsrc := CVal (c : option char) | CPtr (p : bptr).
Definition rd_src (s : chsrc) : M world char :=
  match s with
  | CVal (Some c) => ret c
  | CVal None => throw ElementThrow
  | CPtr p => rd p
  end.
(** std::copy / std::copy_n / std::move of n characters, front to back *)
Fixpoint copy_loop (from : nat → chsrc) (d : bptr) (k n : nat) : M world unit :=
  match n with
  | O => ret tt
  | S n' => v <- rd_src (from k) ;; wr (padd d k) v ;;; copy_loop from d (S k) n'
  end.
Definition copy_from (from : nat → chsrc) (d : bptr) (n : nat) : M world unit := copy_loop from d 0 n.
Definition copy_n (s : bptr) (n : nat) (d : bptr) : M world unit := copy_from (λ k, CPtr (padd s k)) d n.
(** std::copy_backward(b + first, b + first + n, b + d_last) within one buffer *)
Fixpoint copy_backward (b : bptr) (first n d_last : nat) : M world unit :=
  match n with
  | O => ret tt
  | S n' =>
      match d_last with
      | O => stuck OutOfBounds
      | S d' => v <- rd (padd b (first + n')) ;; wr (padd b d') v ;;; copy_backward b first n' d'
      end
  end.
(** std::fill / std::fill_n *)
Fixpoint fill_n (d : bptr) (n : nat) (c : char) : M world unit :=
  match n with O => ret tt | S n' => wr d c ;;; fill_n (padd d 1) n' c end.
(** std::rotate(b + first, b + middle, b + last) *)
Definition rotate (b : bptr) (first middle last : nat) : M world unit := λ w,
  if (first =? middle) || (middle =? last) then Ok tt w
  else
    match mem w !! b.1 with
    | None => Stuck UseAfterFree
    | Some c =>
        if negb ((first <=? middle) && (middle <=? last) && (b.2 + last <=? length c)) then Stuck OutOfBounds
        else
          let f := b.2 + first in let m := b.2 + middle in let l := b.2 + last in
          if forallb (λ s, match s with None => false | Some _ => true end) (take (l - f) (drop f c))
          then Ok tt (with_mem (<[b.1:=take f c ++ take (l - m) (drop m c) ++ take (m - f) (drop f c) ++ drop l c]>
                                  (mem w)) w)
          else Stuck Uninitialised
    end.
(** std::copy_n between a buffer and a local array *)
Fixpoint load (s : bptr) (n : nat) : M world (list char) :=
  match n with O => ret [] | S n' => v <- rd s ;; l <- load (padd s 1) n' ;; ret (v :: l) end.

(** ** storage_t, string.hpp:19-138 *)

(** string.hpp:37-41 *)
Definition clear_to_sso (x : nat) : M world unit :=
  write_dealloc x None ;;; write_sso x 0 ;;; wr (inl x, 0) NUL.
(** string.hpp:43-46 *)
Definition copy_sso (x other : nat) : M world unit :=
  n <- read_sso other ;; write_sso x n ;;; copy_n (inl other, 0) (n + 1) (inl x, 0).
(** string.hpp:48-51 *)
Definition move_heap (x other : nat) : M world unit :=
  h <- read_heap other ;; write_heap x h ;;; clear_to_sso other.
(** string.hpp:53 storage_t() *)
Definition storage_default (x : nat) : M world unit := put_str x (Str None UNone) ;;; clear_to_sso x.
(** string.hpp:60 the capacity of a heap buffer *)
Definition heap_cap (required : nat) : nat :=
  (2 `max` (wadd required (footprint - 1) `div` footprint)) * footprint.
(** string.hpp:55-64 storage_t(std::size_t); the object comes into being only if new[] succeeds *)
Definition storage_new (x required : nat) : M world unit :=
  if sso_size <? required then
    let cap := heap_cap required in
    m <- this_module ;;
    b <- new_char (wadd cap 1) ;;
    put_str x (Str (Some m) UNone) ;;; write_heap x (b, cap, 0) ;;; wr (inr b, 0) NUL
  else storage_default x.
(** string.hpp:66-69 storage_t(storage_t &&) *)
Definition storage_move_new (x other : nat) : M world unit :=
  o <- get_str other ;;
  put_str x (Str (s_dealloc o) UNone) ;;;
  if s_dealloc o then move_heap x other else copy_sso x other.
(** if(dealloc) dealloc(heap.ptr) *)
Definition release (x : nat) : M world unit :=
  s <- get_str x ;;
  match s_dealloc s with Some m => h <- read_heap x ;; delete_char m h.1.1 | None => ret tt end.
(** string.hpp:70-78 operator=(storage_t &&) *)
Definition storage_move_assign (x other : nat) : M world unit :=
  if decide (x = other) then get_str x ;;; ret tt
  else
    release x ;;;
    o <- get_str other ;;
    write_dealloc x (s_dealloc o) ;;;
    if s_dealloc o then move_heap x other else copy_sso x other.
(** string.hpp:80 ~storage_t() *)
Definition storage_dtor (x : nat) : M world unit := release x ;;; drop_str x.
(** string.hpp:82-83, 379-380 data *)
Definition str_data (x : nat) : M world bptr :=
  s <- get_str x ;; if s_dealloc s then h <- read_heap x ;; ret (inr h.1.1, 0) else read_sso x ;;; ret (inl x, 0).
(** string.hpp:85, 388 capacity *)
Definition str_capacity (x : nat) : M world nat :=
  s <- get_str x ;; if s_dealloc s then h <- read_heap x ;; ret h.1.2 else ret sso_size.
(** string.hpp:87-95 set_size *)
Definition set_size (x val : nat) : M world unit :=
  s <- get_str x ;;
  if s_dealloc s then h <- read_heap x ;; write_heap x (h.1.1, h.1.2, val) ;;; wr (inr h.1.1, val) NUL
  else write_sso x (to_char val) ;;; wr (inl x, val) NUL.
(** string.hpp:96, 385 size *)
Definition str_size (x : nat) : M world nat :=
  s <- get_str x ;; if s_dealloc s then h <- read_heap x ;; ret h.2 else read_sso x.
(** string.hpp:98-109, 414 shrink_to_fit *)
Definition str_shrink_to_fit (x : nat) : M world unit :=
  noexcept (
    s <- get_str x ;;
    match s_dealloc s with
    | None => ret tt
    | Some m =>
      h <- read_heap x ;;
      if sso_size <? h.2 then ret tt
      else
        write_sso x (to_char h.2) ;;;
        copy_n (inr h.1.1, 0) (h.2 + 1) (inl x, 0) ;;;
        delete_char m h.1.1 ;;;
        write_dealloc x None
    end).
(** string.hpp:111-137, 568-570 swap *)
Definition str_swap (x other : nat) : M world unit :=
  noexcept (
    if decide (x = other) then get_str x ;;; ret tt
    else
      a <- get_str x ;; b <- get_str other ;;
      if is_set (s_dealloc a) && is_set (s_dealloc b) then
        h <- read_heap x ;; h' <- read_heap other ;;
        write_heap x h' ;;; write_heap other h ;;;
        write_dealloc x (s_dealloc b) ;;; write_dealloc other (s_dealloc a)
      else if negb (is_set (s_dealloc a)) && negb (is_set (s_dealloc b)) then
        n <- read_sso x ;; tmp <- load (inl x, 0) (n + 1) ;;
        k <- read_sso other ;;
        copy_n (inl other, 0) (k + 1) (inl x, 0) ;;;
        n <- read_sso x ;;
        copy_from (λ i, CVal (tmp !! i)) (inl other, 0) (n + 1) ;;;
        write_sso x k ;;; write_sso other n
      else
        let on_heap := if s_dealloc a then x else other in
        let on_sso := if s_dealloc a then other else x in
        tmp <- read_heap on_heap ;;
        n <- read_sso on_sso ;;
        write_sso on_heap n ;;;
        copy_n (inl on_sso, 0) (n + 1) (inl on_heap, 0) ;;;
        write_heap on_sso tmp ;;;
        write_dealloc x (s_dealloc b) ;;; write_dealloc other (s_dealloc a)).

(** ** string *)

(** storage = std::move(tmp); } and tmp is destroyed *)
Definition commit (x t : nat) : M world unit := storage_move_assign x t ;;; storage_dtor t.
(** storage = n; through a temporary storage_t *)
Definition storage_assign (x n : nat) : M world unit :=
  t <- temp_name ;; storage_new t n ;;; commit x t.

(** forward-iterator ranges: characters elsewhere, or [i, i+n) of string [y] *)
Inductive range := RExt (l : list (option char)) | RSub (y i n : nat).
(** the iterators are formed before the call *)
Definition bind_range (r : range) : M world ((nat → chsrc) * nat) :=
  match r with
  | RExt l => ret (λ k, CVal (match l !! k with Some c => c | None => None end), length l)
  | RSub y i n => p <- str_data y ;; ret (λ k, CPtr (padd p (i + k)), n)
  end.

(** string.hpp:397-404 reserve *)
Definition str_reserve (x new_capacity : nat) : M world unit :=
  cap <- str_capacity x ;;
  if new_capacity <=? cap then ret tt
  else if max_size <? new_capacity then throw LengthError
  else
    t <- temp_name ;;
    storage_new t new_capacity ;;;
    n <- str_size x ;;
    set_size t n ;;;
    (if n =? 0 then ret tt
     else d <- str_data x ;; e <- str_data t ;; copy_n d (wadd n 1) e ;;; count_copied n) ;;;
    commit x t.
(** string.hpp:406-412 resize *)
Definition str_resize_fill (x count : nat) (ch : char) : M world unit :=
  old <- str_size x ;;
  str_reserve x count ;;;
  set_size x count ;;;
  n <- str_size x ;;
  if old <? n then d <- str_data x ;; fill_n (padd d old) (n - old) ch else ret tt.
Definition str_resize (x count : nat) : M world unit := str_resize_fill x count NUL.
(** string.hpp:416-419 clear *)
Definition str_clear (x : nat) : M world unit :=
  noexcept (n <- str_size x ;; if n =? 0 then ret tt else set_size x 0).
(** string.hpp:390-394 push_back *)
Definition str_push_back (x : nat) (ch : char) : M world unit :=
  n <- str_size x ;; cap <- str_capacity x ;;
  (if n =? cap then str_reserve x (wadd n 1) else ret tt) ;;;
  n <- str_size x ;;
  str_resize_fill x (wadd n 1) ch.
(** string.hpp:395 pop_back *)
Definition str_pop_back (x : nat) : M world unit :=
  noexcept (n <- str_size x ;; set_size x (n - 1)).

(** constructors with a body: [storage] is default-initialised first, and destroyed if the
    body throws *)
Definition construct_str (x : nat) (body : M world unit) : M world unit :=
  storage_default x ;;; on_exn body (storage_dtor x).
(** string.hpp:297 string() *)
Definition str_new (x : nat) : M world unit := noexcept (storage_default x).
(** string.hpp:308-309 std::copy(first, last, std::back_inserter( *this)) from input iterators *)
Fixpoint push_all (x : nat) (l : list (option char)) : M world unit :=
  match l with
  | [] => ret tt
  | c :: l' => v <- rd_src (CVal c) ;; str_push_back x v ;;; push_all x l'
  end.
Definition str_new_input (x : nat) (l : list (option char)) : M world unit :=
  construct_str x (push_all x l).
(** string.hpp:310-316 from forward iterators; also 317-318 (string_view) and 324 (initializer_list) *)
Definition str_new_from (x : nat) (s : (nat → chsrc) * nat) : M world unit :=
  construct_str x (
    storage_assign x s.2 ;;; set_size x s.2 ;;;
    d <- str_data x ;; copy_from s.1 d s.2).
Definition str_new_range (x : nat) (r : range) : M world unit := s <- bind_range r ;; str_new_from x s.
(** string.hpp:319-323 string(count, ch) *)
Definition str_new_fill (x count : nat) (ch : char) : M world unit :=
  construct_str x (
    storage_assign x count ;;; set_size x count ;;;
    d <- str_data x ;; fill_n d count ch).
(** string.hpp:550-553 operator std::string_view: data() and size(), nothing for an empty string *)
Definition as_view (x : nat) : M world range := n <- str_size x ;; ret (RSub x 0 n).
(** string.hpp:299 string(const string &) *)
Definition str_new_copy (x y : nat) : M world unit := r <- as_view y ;; str_new_range x r.
(** string.hpp:300 string(string &&) *)
Definition str_new_move (x y : nat) : M world unit := noexcept (storage_move_new x y).
(** string.hpp:306 ~string() *)
Definition str_destroy (x : nat) : M world unit := noexcept (storage_dtor x).
(** string.hpp:305 operator=(string &&) *)
Definition str_move_assign (x y : nat) : M world unit := noexcept (storage_move_assign x y).

(** string.hpp:237-245 concat; operator+ (339-342, 351-354, 360-361) calls it *)
Definition str_concat (z : nat) (l r : range) : M world unit :=
  a <- bind_range l ;; b <- bind_range r ;;
  let count := wadd a.2 b.2 in
  construct_str z (
    storage_assign z count ;;; set_size z count ;;;
    d <- str_data z ;; copy_from a.1 d a.2 ;;; copy_from b.1 (padd d a.2) b.2).

(** string.hpp:247-252 append_no_aliasing *)
Definition append_no_aliasing (x additional : nat) (fill : nat → M world unit) : M world unit :=
  old <- str_size x ;; str_resize x (wadd old additional) ;;; fill old.
(** string.hpp:254-258 assign_no_aliasing *)
Definition assign_no_aliasing (x required : nat) (fill : M world unit) : M world unit :=
  str_resize x required ;;; fill.
(** string.hpp:260-268 insert_no_aliasing *)
Definition insert_no_aliasing (x offset additional : nat) (fill : M world unit) : M world nat :=
  old <- str_size x ;;
  str_resize x (wadd old additional) ;;;
  d <- str_data x ;; n <- str_size x ;;
  copy_backward d offset (old - offset) n ;;;
  fill ;;; ret offset.
(** string.hpp:460-465 erase; [i], [j] are offsets *)
Definition str_erase (x i j : nat) : M world nat :=
  noexcept (
    d <- str_data x ;; n <- str_size x ;;
    copy_n (padd d j) (n - j) (padd d i) ;;;
    set_size x (n - (j - i)) ;;;
    ret i).
Definition str_erase1 (x i : nat) : M world nat := noexcept (str_erase x i (i + 1)).
(** string.hpp:270-282 replace_no_aliasing *)
Definition replace_no_aliasing (x i j required : nat) (fill : nat → M world unit) : M world unit :=
  let count := j - i in
  if count <? required then
    old <- str_size x ;;
    str_resize x (wadd old (required - count)) ;;;
    d <- str_data x ;; n <- str_size x ;;
    copy_backward d (i + count) (old - (i + count)) n ;;;
    fill i
  else
    fill i ;;; str_erase x (i + required) (i + count) ;;; ret tt.

(** the filling functions passed to the above *)
Definition fill_list (x : nat) (l : list char) (offset : nat) : M world unit :=
  d <- str_data x ;; copy_from (λ k, CVal (l !! k)) (padd d offset) (length l).
Definition fill_count (x count : nat) (ch : char) (offset : nat) : M world unit :=
  d <- str_data x ;; fill_n (padd d offset) count ch.
Definition fill_str (x t : nat) (offset : nat) : M world unit :=
  e <- str_data t ;; n <- str_size t ;; d <- str_data x ;; copy_n e n (padd d offset).
(** const string tmp(first, last); body(tmp) from input iterators (string.hpp:423-424, 469-470, 497-498) *)
Definition with_input {A} (l : list (option char)) (body : nat → M world A) : M world A :=
  t <- temp_name ;;
  str_new_input t l ;;;
  r <- on_exn (body t) (storage_dtor t) ;;
  storage_dtor t ;;; ret r.

(** string.hpp:426-439 append from forward iterators; also 440 (string_view) and operator+= (335-338, 356-359) *)
Definition str_append_range (x : nat) (r : range) : M world unit :=
  s <- bind_range r ;;
  let distance := s.2 in
  n <- str_size x ;; cap <- str_capacity x ;;
  if wadd distance n <=? cap then
    d <- str_data x ;; copy_from s.1 (padd d n) distance ;;; set_size x (wadd n distance)
  else
    t <- temp_name ;;
    storage_new t (wadd n distance) ;;;
    on_exn (e <- str_data t ;; copy_from s.1 (padd e n) distance) (storage_dtor t) ;;;
    d <- str_data x ;; e <- str_data t ;; copy_n d n e ;;;
    set_size t (wadd n distance) ;;;
    commit x t.
(** string.hpp:421-425 append from input iterators, 441 from an initializer_list, 442 count times ch;
    also operator+= (343-350) *)
Definition str_append_input (x : nat) (l : list (option char)) : M world unit :=
  with_input l (λ t, n <- str_size t ;; append_no_aliasing x n (fill_str x t)).
Definition str_append_ilist (x : nat) (l : list char) : M world unit :=
  append_no_aliasing x (length l) (fill_list x l).
Definition str_append_fill (x count : nat) (ch : char) : M world unit :=
  append_no_aliasing x count (fill_count x count ch).

(** string.hpp:444-445 assign from input iterators, 446-455 from forward iterators, 456 (string_view)
    and operator= (326-329) *)
Definition str_assign_input (x : nat) (l : list (option char)) : M world unit :=
  with_input l (λ t, storage_move_assign x t).
Definition str_assign_range (x : nat) (r : range) : M world unit :=
  s <- bind_range r ;;
  let distance := s.2 in
  n <- str_size x ;; cap <- str_capacity x ;;
  if wadd distance n <=? cap then
    d <- str_data x ;;
    copy_from s.1 (padd d n) distance ;;;
    rotate d 0 n (n + distance) ;;;
    set_size x distance
  else
    t <- temp_name ;; str_new_from t s ;;; commit x t.
(** string.hpp:457-458 assign from an initializer_list, count times ch; also operator= (330-333) *)
Definition str_assign_ilist (x : nat) (l : list char) : M world unit :=
  assign_no_aliasing x (length l) (fill_list x l 0).
Definition str_assign_fill (x count : nat) (ch : char) : M world unit :=
  assign_no_aliasing x count (fill_count x count ch 0).
(** string.hpp:301-304 operator=(const string &) *)
Definition str_copy_assign (x y : nat) : M world unit :=
  if decide (x = y) then get_str x ;;; ret tt else r <- as_view y ;; str_assign_range x r.

(** string.hpp:472-489 insert from forward iterators, 490 (string_view) *)
Definition str_insert_range (x offset : nat) (r : range) : M world nat :=
  s <- bind_range r ;;
  let distance := s.2 in
  n <- str_size x ;; cap <- str_capacity x ;;
  (if wadd distance n <=? cap then
     d <- str_data x ;;
     copy_from s.1 (padd d n) distance ;;;
     rotate d offset n (n + distance) ;;;
     set_size x (wadd n distance)
   else
     t <- temp_name ;;
     storage_new t (wadd n distance) ;;;
     on_exn (e <- str_data t ;; copy_from s.1 (padd e offset) distance) (storage_dtor t) ;;;
     d <- str_data x ;; e <- str_data t ;;
     copy_n d offset e ;;;
     copy_n (padd d offset) (n - offset) (padd e (offset + distance)) ;;;
     set_size t (wadd n distance) ;;;
     commit x t) ;;;
  ret offset.
(** string.hpp:467-471 from input iterators, 491 from an initializer_list, 492-493 count times ch *)
Definition str_insert_input (x offset : nat) (l : list (option char)) : M world nat :=
  with_input l (λ t, n <- str_size t ;; insert_no_aliasing x offset n (fill_str x t offset)).
Definition str_insert_ilist (x offset : nat) (l : list char) : M world nat :=
  insert_no_aliasing x offset (length l) (fill_list x l offset).
Definition str_insert_fill (x offset count : nat) (ch : char) : M world nat :=
  insert_no_aliasing x offset count (fill_count x count ch offset).

(** string.hpp:501-520 replace from forward iterators, 521 (string_view) *)
Definition str_replace_range (x i j : nat) (r : range) : M world unit :=
  s <- bind_range r ;;
  let distance := s.2 in
  n <- str_size x ;; cap <- str_capacity x ;;
  if wadd distance n <=? cap then
    d <- str_data x ;;
    copy_from s.1 (padd d n) distance ;;;
    let offset_mid := n - (j - i) in
    set_size x (wadd n distance) ;;;
    str_erase x i j ;;;
    n' <- str_size x ;;
    rotate d i offset_mid n'
  else
    t <- temp_name ;;
    storage_new t (wadd (n - (j - i)) distance) ;;;
    on_exn (e <- str_data t ;; copy_from s.1 (padd e i) distance) (storage_dtor t) ;;;
    d <- str_data x ;; e <- str_data t ;;
    copy_n d i e ;;;
    copy_n (padd d j) (n - j) (padd e (i + distance)) ;;;
    set_size t (wadd (n - (j - i)) distance) ;;;
    commit x t.
(** string.hpp:495-500 from input iterators, 522-525 from an initializer_list, 526-529 count times ch *)
Definition str_replace_input (x i j : nat) (l : list (option char)) : M world unit :=
  with_input l (λ t, n <- str_size t ;; replace_no_aliasing x i j n (fill_str x t)).
Definition str_replace_ilist (x i j : nat) (l : list char) : M world unit :=
  replace_no_aliasing x i j (length l) (fill_list x l).
Definition str_replace_fill (x i j count : nat) (ch : char) : M world unit :=
  replace_no_aliasing x i j count (fill_count x count ch).

(** string.hpp:531-541 substr, into a new string [z]: const & and && forms *)
Definition str_substr_tail (z x offset : nat) : M world unit :=
  n <- str_size x ;; str_new_range z (RSub x offset (n - offset)).
Definition str_substr (z x offset count : nat) : M world unit := str_new_range z (RSub x offset count).
Definition str_substr_tail_move (z x offset : nat) : M world unit :=
  noexcept (str_erase x 0 offset ;;; str_new_move z x).
Definition str_substr_move (z x offset count : nat) : M world unit :=
  noexcept (n <- str_size x ;; str_erase x (offset + count) n ;;; str_erase x 0 offset ;;; str_new_move z x).

(** Element access, string.hpp:363-377 *)
Definition str_index (x i : nat) : M world char := d <- str_data x ;; rd (padd d i).
Definition str_at (x i : nat) : M world char :=
  n <- str_size x ;; if n <=? i then throw OutOfRange else str_index x i.
Definition str_front (x : nat) : M world char := str_index x 0.
Definition str_back (x : nat) : M world char := n <- str_size x ;; str_index x (n - 1).
(** x[i] = value *)
Definition str_set (x i : nat) (value : char) : M world unit := d <- str_data x ;; wr (padd d i) value.
(** string.hpp:381, 383-384 c_str()[i], empty() *)
Definition str_c_str (x i : nat) : M world char := str_index x i.
Definition str_empty (x : nat) : M world bool := n <- str_size x ;; ret (n =? 0).

(** ** Calls and histories *)
Inductive sop :=
  | SNew (x : nat) | SNewRange (x : nat) (r : range) | SNewInput (x : nat) (l : list (option char))
  | SNewCopy (x y : nat) | SNewMove (x y : nat) | SNewFill (x n : nat) (c : char) | SDestroy (x : nat)
  | SConcat (x : nat) (l r : range)
  | SCopyAssign (x y : nat) | SMoveAssign (x y : nat)
  | SAssignRange (x : nat) (r : range) | SAssignInput (x : nat) (l : list (option char))
  | SAssignIlist (x : nat) (l : list char) | SAssignFill (x n : nat) (c : char)
  | SAppendRange (x : nat) (r : range) | SAppendInput (x : nat) (l : list (option char))
  | SAppendIlist (x : nat) (l : list char) | SAppendFill (x n : nat) (c : char)
  | SInsertRange (x i : nat) (r : range) | SInsertInput (x i : nat) (l : list (option char))
  | SInsertIlist (x i : nat) (l : list char) | SInsertFill (x i n : nat) (c : char)
  | SReplaceRange (x i j : nat) (r : range) | SReplaceInput (x i j : nat) (l : list (option char))
  | SReplaceIlist (x i j : nat) (l : list char) | SReplaceFill (x i j n : nat) (c : char)
  | SErase (x i j : nat) | SErase1 (x i : nat)
  | SPushBack (x : nat) (c : char) | SPopBack (x : nat)
  | SReserve (x n : nat) | SResize (x n : nat) | SResizeFill (x n : nat) (c : char)
  | SShrink (x : nat) | SClear (x : nat) | SSwap (x y : nat)
  | SSubstrTail (z x i : nat) | SSubstr (z x i n : nat)
  | SSubstrTailMove (z x i : nat) | SSubstrMove (z x i n : nat)
  | SSet (x i : nat) (c : char)
  | SAt (x i : nat) | SIndex (x i : nat) | SFront (x : nat) | SBack (x : nat) | SCStr (x i : nat)
  | SSize (x : nat) | SEmpty (x : nat).

Inductive sobs := OUnit | OChar (c : char) | ONat (n : nat) | OBool (b : bool) | OThrew (e : exn).

Definition obs_unit (m : M world unit) : M world sobs := m ;;; ret OUnit.
Definition obs_nat (m : M world nat) : M world sobs := n <- m ;; ret (ONat n).
Definition obs_char (m : M world char) : M world sobs := v <- m ;; ret (OChar v).
Definition obs_bool (m : M world bool) : M world sobs := v <- m ;; ret (OBool v).

Definition sexec (o : sop) : M world sobs :=
  match o with
  | SNew x => obs_unit (str_new x)
  | SNewRange x r => obs_unit (str_new_range x r)
  | SNewInput x l => obs_unit (str_new_input x l)
  | SNewCopy x y => obs_unit (str_new_copy x y)
  | SNewMove x y => obs_unit (str_new_move x y)
  | SNewFill x n c => obs_unit (str_new_fill x n c)
  | SDestroy x => obs_unit (str_destroy x)
  | SConcat x l r => obs_unit (str_concat x l r)
  | SCopyAssign x y => obs_unit (str_copy_assign x y)
  | SMoveAssign x y => obs_unit (str_move_assign x y)
  | SAssignRange x r => obs_unit (str_assign_range x r)
  | SAssignInput x l => obs_unit (str_assign_input x l)
  | SAssignIlist x l => obs_unit (str_assign_ilist x l)
  | SAssignFill x n c => obs_unit (str_assign_fill x n c)
  | SAppendRange x r => obs_unit (str_append_range x r)
  | SAppendInput x l => obs_unit (str_append_input x l)
  | SAppendIlist x l => obs_unit (str_append_ilist x l)
  | SAppendFill x n c => obs_unit (str_append_fill x n c)
  | SInsertRange x i r => obs_nat (str_insert_range x i r)
  | SInsertInput x i l => obs_nat (str_insert_input x i l)
  | SInsertIlist x i l => obs_nat (str_insert_ilist x i l)
  | SInsertFill x i n c => obs_nat (str_insert_fill x i n c)
  | SReplaceRange x i j r => obs_unit (str_replace_range x i j r)
  | SReplaceInput x i j l => obs_unit (str_replace_input x i j l)
  | SReplaceIlist x i j l => obs_unit (str_replace_ilist x i j l)
  | SReplaceFill x i j n c => obs_unit (str_replace_fill x i j n c)
  | SErase x i j => obs_nat (str_erase x i j)
  | SErase1 x i => obs_nat (str_erase1 x i)
  | SPushBack x c => obs_unit (str_push_back x c)
  | SPopBack x => obs_unit (str_pop_back x)
  | SReserve x n => obs_unit (str_reserve x n)
  | SResize x n => obs_unit (str_resize x n)
  | SResizeFill x n c => obs_unit (str_resize_fill x n c)
  | SShrink x => obs_unit (str_shrink_to_fit x)
  | SClear x => obs_unit (str_clear x)
  | SSwap x y => obs_unit (str_swap x y)
  | SSubstrTail z x i => obs_unit (str_substr_tail z x i)
  | SSubstr z x i n => obs_unit (str_substr z x i n)
  | SSubstrTailMove z x i => obs_unit (str_substr_tail_move z x i)
  | SSubstrMove z x i n => obs_unit (str_substr_move z x i n)
  | SSet x i c => obs_unit (str_set x i c)
  | SAt x i => obs_char (str_at x i)
  | SIndex x i => obs_char (str_index x i)
  | SFront x => obs_char (str_front x)
  | SBack x => obs_char (str_back x)
  | SCStr x i => obs_char (str_c_str x i)
  | SSize x => obs_nat (str_size x)
  | SEmpty x => obs_bool (str_empty x)
  end.

(** A history: exceptions are caught by the caller, who then goes on. *)
Inductive hist := Finished (rs : list sobs) (w : world) | Faulted (f : fault) | Aborted.
Fixpoint srun (os : list sop) (w : world) : hist :=
  match os with
  | [] => Finished [] w
  | o :: os' =>
      let go r w' := match srun os' w' with Finished rs w'' => Finished (r :: rs) w'' | h => h end in
      match sexec o w with
      | Ok r w' => go r w'
      | Exn e w' => go (OThrew e) w'
      | Stuck f => Faulted f
      | Terminated => Aborted
      end
  end.

(** before any string exists *)
Definition init_world : world := World ∅ ∅ 0 0 0.
End model.
