(** Model of threads that use vectors, strings, bitsets and optionals at the same time. Functions of the
    library are programs of single memory accesses, which interleave in any order.

    Simplified: a cell of memory holds a number, and elements, pointers, sizes and characters are one cell
    each (of a string's 24 bytes of union the members of the heap form take the first three cells);
    constructing, assigning and destroying an element writes its cell, copying and comparing reads it;
    local variables are not memory; references and iterators that functions return are left out; sizes
    stay below max_size(); std::rotate reads all of its range and
    then writes it. Memory comes from std::calloc or new char[], which may fail and are free of data
    races ([c.malloc], [new.delete.dataraces]); every interleaving is sequentially consistent, which
    [intro.races] guarantees to programs without data races. *)
From stdpp Require Import prelude gmap.

(** a cell, or the size of the block that starts there *)
Notation addr := (nat + nat)%type.
Notation mem := (gmap addr nat).
Inductive exn := OutOfRange | BadAlloc | BadAccess.
Inductive outcome (A : Type) := Ok (a : A) | Exn (e : exn).
Arguments Ok {A} _. Arguments Exn {A} _.
Inductive prog (A : Type) :=
  | Done (o : outcome A)
  | Rd (l : nat) (k : nat → prog A)
  | Wr (l v : nat) (k : prog A)
  | Al (n : nat) (k : option nat → prog A)         (* memory for n cells *)
  | Fr (b : nat) (k : prog A).                     (* the block at b is released *)
Arguments Done {A} _. Arguments Rd {A} _ _. Arguments Wr {A} _ _ _. Arguments Al {A} _ _. Arguments Fr {A} _ _.
Fixpoint bind {A B} (p : prog A) (k : A → prog B) : prog B :=
  match p with
  | Done (Ok a) => k a
  | Done (Exn e) => Done (Exn e)
  | Rd l f => Rd l (λ v, bind (f v) k)
  | Wr l v p' => Wr l v (bind p' k)
  | Al n f => Al n (λ b, bind (f b) k)
  | Fr b p' => Fr b (bind p' k)
  end.
(** try { p } catch(...), with what happened *)
Fixpoint catch {A B} (p : prog A) (k : outcome A → prog B) : prog B :=
  match p with
  | Done o => k o
  | Rd l f => Rd l (λ v, catch (f v) k)
  | Wr l v p' => Wr l v (catch p' k)
  | Al n f => Al n (λ b, catch (f b) k)
  | Fr b p' => Fr b (catch p' k)
  end.
Notation "x <- p ;; k" := (bind p (λ x, k)) (at level 100, p at next level, right associativity).
Notation "p ;;; k" := (bind p (λ _, k)) (at level 100, right associativity).
Definition ret {A} (a : A) : prog A := Done (Ok a).
Definition throw {A} (e : exn) : prog A := Done (Exn e).
Definition rd (l : nat) : prog nat := Rd l ret.
Definition wr (l v : nat) : prog unit := Wr l v (ret tt).
(** what runs when an exception leaves [p] *)
Definition unwind {A} (p : prog A) (cleanup : prog unit) : prog A :=
  catch p (λ o, match o with Ok a => ret a | Exn e => cleanup ;;; throw e end).
Definition free (b : nat) : prog unit := Fr b (ret tt).

(** ** Execution *)
Fixpoint cells (a : nat) (vs : list nat) : mem :=
  match vs with [] => ∅ | v :: vs' => <[inl a := v]> (cells (S a) vs') end.
Definition block (b : nat) (vs : list nat) : mem := <[inr b := length vs]> (cells b vs).
Inductive hstep {A} : prog A → mem → prog A → mem → Prop :=
  | step_rd l k v m : m !! inl l = Some v → hstep (Rd l k) m (k v) m
  | step_wr l v k m : is_Some (m !! inl l) → hstep (Wr l v k) m k (<[inl l := v]> m)
  | step_al_fails n k m : hstep (Al n k) m (k None) m
  | step_al n k m b vs : b ≠ 0 → length vs = n → block b vs ##ₘ m → hstep (Al n k) m (k (Some b)) (block b vs ∪ m)
  | step_fr b k m vs : block b vs ##ₘ m → hstep (Fr b k) (block b vs ∪ m) k m.
(** any thread takes a step *)
Inductive step {A} : list (prog A) * mem → list (prog A) * mem → Prop :=
  | step_thread ts i p m p' m' : ts !! i = Some p → hstep p m p' m' → step (ts, m) (<[i := p']> ts, m').
(** undefined behaviour: accesses outside of memory, releasing what is not allocated *)
Definition undefined {A} (ts : list (prog A)) (m : mem) : Prop :=
  ∃ i p, ts !! i = Some p ∧ (∀ o, p ≠ Done o) ∧ ∀ p' m', ¬ hstep p m p' m'.
(** what the next step of a thread accesses, and whether it writes *)
Definition accesses {A} (p : prog A) (m : mem) (x : addr) (writes : bool) : Prop :=
  match p with
  | Done _ | Al _ _ => False
  | Rd l _ => x = inl l ∧ writes = false
  | Wr l _ _ => x = inl l ∧ writes = true
  | Fr b _ => writes = true ∧ (x = inr b ∨ ∃ n l, m !! inr b = Some n ∧ b ≤ l < b + n ∧ x = inl l)
  end.
(** undefined behaviour: a data race, [intro.races] *)
Definition race {A} (ts : list (prog A)) (m : mem) : Prop :=
  ∃ i j p q x w w', i ≠ j ∧ ts !! i = Some p ∧ ts !! j = Some q ∧
    accesses p m x w ∧ accesses q m x w' ∧ w || w' = true.

(** ** Algorithms of the standard library *)
Fixpoint read_n (p n : nat) : prog (list nat) :=
  match n with 0 => ret [] | S n' => v <- rd p ;; vs <- read_n (S p) n' ;; ret (v :: vs) end.
Fixpoint write_n (p : nat) (vs : list nat) : prog unit :=
  match vs with [] => ret tt | v :: vs' => wr p v ;;; write_n (S p) vs' end.
(** std::copy, std::copy_n, std::move, std::uninitialized_copy, std::uninitialized_move, forwards *)
Fixpoint copy_n (p n q : nat) : prog unit :=
  match n with 0 => ret tt | S n' => v <- rd p ;; wr q v ;;; copy_n (S p) n' (S q) end.
Definition destroy_n (p n : nat) : prog unit := write_n p (replicate n 0).
Definition rotate (first middle last : nat) : prog unit :=
  if (first =? middle) || (middle =? last) then ret tt else
  vs <- read_n first (last - first) ;; write_n first (drop (middle - first) vs ++ take (middle - first) vs).
(** std::equal of ranges of the same length *)
Fixpoint equal_n (p q n : nat) : prog bool :=
  match n with 0 => ret true | S n' => x <- rd p ;; y <- rd q ;; if x =? y then equal_n (S p) (S q) n' else ret false end.
(** std::lexicographical_compare *)
Fixpoint less_n (p n q k : nat) : prog bool :=
  match n, k with
  | _, 0 => ret false
  | 0, S _ => ret true
  | S n', S k' =>
      x <- rd p ;; y <- rd q ;;
      if x <? y then ret true else x' <- rd q ;; y' <- rd p ;; if x' <? y' then ret false else less_n (S p) n' (S q) k'
  end.
Definition alloc (n : nat) : prog nat :=
  Al n (λ b, match b with Some b => ret b | None => throw BadAlloc end).

(** ** vector: dealloc, ptr, cap and siz, vector.hpp:36-39; dealloc is 0 for a null pointer *)
(** vector.hpp:76-80, 288-296 data(), size(), capacity() *)
Definition v_data (a : nat) : prog nat := rd (a + 1).
Definition v_capacity (a : nat) : prog nat := rd (a + 2).
Definition v_size (a : nat) : prog nat := rd (a + 3).
(** vector.hpp:82 set_size *)
Definition v_set_size (a n : nat) : prog unit := wr (a + 3) n.
(** vector.hpp:43-52 storage_t(capacity), for a capacity above 0; the cells of the new object are local *)
Definition v_storage (n : nat) : prog (nat * nat) := b <- alloc (max 10 n) ;; ret (b, max 10 n).
(** vector.hpp:58-61, 71-73 destroying what the vector has *)
Definition v_release (a : nat) : prog unit :=
  d <- rd a ;; if d =? 0 then ret tt else p <- v_data a ;; s <- v_size a ;; destroy_n p s ;;; p <- v_data a ;; free p.
(** vector.hpp:56-68 operator=(storage_t &&); [d], [p], [c], [s]: the other object *)
Definition v_move_storage (a d p c s : nat) : prog unit :=
  v_release a ;;;
  wr a d ;;; wr (a + 1) p ;;; wr (a + 2) c ;;; wr (a + 3) s.
(** vector.hpp:189-202, 336 assign_impl and assign, for a range in memory *)
Definition v_assign (a p n : nat) : prog unit :=
  s <- v_size a ;; c <- v_capacity a ;;
  if s + n <=? c then
    d <- v_data a ;; s <- v_size a ;; copy_n p n (d + s) ;;;
    d <- v_data a ;; s <- v_size a ;; rotate d (d + s) (d + s + n) ;;;
    d <- v_data a ;; s <- v_size a ;; destroy_n (d + n) s ;;;
    v_set_size a n
  else
    t <- v_storage n ;; copy_n p n (fst t) ;;; v_move_storage a 1 (fst t) (snd t) n.
(** vector.hpp:36-41, 248, 260 vector(const vector &), at [a]; if that fails the storage is destroyed *)
Definition v_copy (a b : nat) : prog unit :=
  p <- v_data b ;; p' <- v_data b ;; n <- v_size b ;;
  write_n a [0; 0; 0; 0] ;;; unwind (v_assign a p (p' + n - p)) (v_release a).
(** vector.hpp:363-368 begin(), end() *)
Definition v_range (a : nat) : prog (nat * nat) := p <- v_data a ;; p' <- v_data a ;; n <- v_size a ;; ret (p, p' + n).
(** vector.hpp:250-253 operator=(const vector &) *)
Definition v_copy_assign (a b : nat) : prog unit :=
  if a =? b then ret tt else r <- v_range b ;; v_assign a (fst r) (snd r - fst r).
(** vector.hpp:254, 56-68 operator=(vector &&) *)
Definition v_move_assign (a b : nat) : prog unit :=
  if a =? b then ret tt else
  v_release a ;;;
  d <- rd b ;; wr b 0 ;;; wr a d ;;; p <- rd (b + 1) ;; wr (b + 1) 0 ;;; wr (a + 1) p ;;;
  c <- rd (b + 2) ;; wr (b + 2) 0 ;;; wr (a + 2) c ;;; s <- rd (b + 3) ;; wr (b + 3) 0 ;;; wr (a + 3) s.
(** vector.hpp:70-74, 255 ~vector() *)
Definition v_destroy (a : nat) : prog unit := v_release a.
Definition swap_cells (x y : nat) : prog unit := v <- rd x ;; w <- rd y ;; wr x w ;;; wr y v.
(** vector.hpp:84-89, 376 swap *)
Definition v_swap (a b : nat) : prog unit :=
  swap_cells (a + 1) (b + 1) ;;; swap_cells (a + 2) (b + 2) ;;; swap_cells (a + 3) (b + 3) ;;; swap_cells a b.
(** vector.hpp:272-273 operator[] and reading or assigning the element *)
Definition v_index (a i : nat) : prog nat := p <- v_data a ;; rd (p + i).
Definition v_set (a i x : nat) : prog unit := p <- v_data a ;; wr (p + i) x.
(** vector.hpp:274-281 at and reading *)
Definition v_at (a i : nat) : prog nat := n <- v_size a ;; if n <=? i then throw OutOfRange else v_index a i.
(** vector.hpp:204-220, 361 emplace at the iterator [q]; an iterator to the new element *)
Definition v_emplace (a q x : nat) : prog nat :=
  d <- v_data a ;; let offset := q - d in
  s <- v_size a ;; c <- v_capacity a ;;
  (if s + 1 <=? c then
    d <- v_data a ;; s <- v_size a ;; wr (d + s) x ;;;
    d <- v_data a ;; s <- v_size a ;; rotate q (d + s) (d + s + 1) ;;;
    s <- v_size a ;; v_set_size a (s + 1)
  else
    s <- v_size a ;; t <- v_storage (s + max s 1) ;; wr (fst t + offset) x ;;;
    d <- v_data a ;; copy_n d offset (fst t) ;;;
    d <- v_data a ;; s <- v_size a ;; copy_n (d + offset) (s - offset) (fst t + offset + 1) ;;;
    s <- v_size a ;; v_move_storage a 1 (fst t) (snd t) (s + 1)) ;;;
  d <- v_data a ;; ret (d + offset).
(** vector.hpp:298-301 push_back: emplace at end() *)
Definition v_push_back (a x : nat) : prog unit := r <- v_range a ;; v_emplace a (snd r) x ;;; ret tt.
(** vector.hpp:358 insert(begin() + i, std::move(x)), and what the iterator that it returns is at *)
Definition v_insert (a i x : nat) : prog nat := d <- v_data a ;; q <- v_emplace a (d + i) x ;; rd q.
(** vector.hpp:303-306 pop_back *)
Definition v_pop_back (a : nat) : prog unit :=
  s <- v_size a ;; v_set_size a (s - 1) ;;; d <- v_data a ;; s <- v_size a ;; destroy_n (d + s) 1.
(** vector.hpp:308-314 reserve *)
Definition v_reserve (a n : nat) : prog unit :=
  c <- v_capacity a ;; if n <=? c then ret tt else
  t <- v_storage n ;; s <- v_size a ;;
  (if s =? 0 then ret tt else d <- v_data a ;; s <- v_size a ;; copy_n d s (fst t)) ;;;
  s <- v_size a ;; v_move_storage a 1 (fst t) (snd t) s.
(** vector.hpp:328-331 clear *)
Definition v_clear (a : nat) : prog unit :=
  d <- v_data a ;; s <- v_size a ;; destroy_n d s ;;; v_set_size a 0.
(** vector.hpp:341-347 erase(begin() + i, begin() + i + n) *)
Definition v_erase (a i n : nat) : prog unit :=
  d <- v_data a ;; d' <- v_data a ;; s <- v_size a ;; copy_n (d + i + n) (d' + s - (d + i + n)) (d + i) ;;;
  d <- v_data a ;; s <- v_size a ;; destroy_n (d + s - n) n ;;;
  s <- v_size a ;; v_set_size a (s - n).
(** vector.hpp:222-233, 317 resize(n, x) *)
Definition v_resize (a n x : nat) : prog unit :=
  s <- v_size a ;; if n =? s then ret tt else
  s <- v_size a ;; if n <? s then d <- v_data a ;; r <- v_range a ;; v_erase a n (snd r - (d + n)) else
  t <- v_storage n ;; s <- v_size a ;; s' <- v_size a ;; write_n (fst t + s) (replicate (n - s') x) ;;;
  d <- v_data a ;; s <- v_size a ;; copy_n d s (fst t) ;;;
  v_move_storage a 1 (fst t) (snd t) n.
(** vector.hpp:389-390 operator== *)
Definition v_eq (a b : nat) : prog bool :=
  r <- v_range a ;; t <- v_range b ;;
  if snd r - fst r =? snd t - fst t then equal_n (fst r) (fst t) (snd r - fst r) else ret false.
(** vector.hpp:381-382 operator< *)
Definition v_lt (a b : nat) : prog bool :=
  r <- v_range a ;; t <- v_range b ;; less_n (fst r) (snd r - fst r) (fst t) (snd t - fst t).

(** ** string: dealloc, then siz and buf of sso, or ptr, cap and siz of heap, string.hpp:18-34 *)
Definition sso_size : nat := 22.
(** string.hpp:82-96 data(), capacity(), set_size(), size() *)
Definition s_data (a : nat) : prog nat := d <- rd a ;; if d =? 0 then ret (a + 2) else rd (a + 1).
Definition s_capacity (a : nat) : prog nat := d <- rd a ;; if d =? 0 then ret sso_size else rd (a + 2).
Definition s_size (a : nat) : prog nat := d <- rd a ;; if d =? 0 then rd (a + 1) else rd (a + 3).
Definition s_set_size (a n : nat) : prog unit :=
  d <- rd a ;; if d =? 0 then wr (a + 1) n ;;; wr (a + 2 + n) 0 else wr (a + 3) n ;;; p <- rd (a + 1) ;; wr (p + n) 0.
(** string.hpp:37-41 clear_to_sso() *)
Definition s_clear_to_sso (a : nat) : prog unit := wr a 0 ;;; wr (a + 1) 0 ;;; wr (a + 2) 0.
(** string.hpp:55-64 storage_t(required) for more than [sso_size] characters, a local object: ptr and cap *)
Definition s_storage (n : nat) : prog (nat * nat) :=
  let c := max 2 ((n + 23) / 24) * 24 in b <- alloc (c + 1) ;; wr b 0 ;;; ret (b, c).
(** string.hpp:72, 80 if(dealloc) dealloc(heap.ptr) *)
Definition s_release (a : nat) : prog unit := d <- rd a ;; if d =? 0 then ret tt else p <- rd (a + 1) ;; free p.
(** string.hpp:70-78, 48-51 operator=(storage_t &&), where the other object is on the heap *)
Definition s_move_heap (a p c s : nat) : prog unit :=
  s_release a ;;; wr a 1 ;;; wr (a + 1) p ;;; wr (a + 2) c ;;; wr (a + 3) s.
(** string.hpp:550-553 operator std::string_view *)
Definition s_view (a : nat) : prog (nat * nat) :=
  n <- s_size a ;; if n =? 0 then ret (0, 0) else p <- s_data a ;; n <- s_size a ;; ret (p, n).
(** string.hpp:299, 311-318 string(const string &), at [a]; where the characters fit, storage = size
    frees nothing and copies the empty text of a local object; if memory runs out the storage is destroyed *)
Definition s_copy (a b : nat) : prog unit :=
  v <- s_view b ;; s_clear_to_sso a ;;;
  unwind (if sso_size <? snd v then t <- s_storage (snd v) ;; s_move_heap a (fst t) (snd t) 0
          else s_release a ;;; s_clear_to_sso a) (s_release a) ;;;
  s_set_size a (snd v) ;;; d <- s_data a ;; copy_n (fst v) (snd v) d.
(** string.hpp:80, 306 ~string() *)
Definition s_destroy (a : nat) : prog unit := s_release a.
(** string.hpp:365-372 at and reading *)
Definition s_at (a i : nat) : prog nat :=
  n <- s_size a ;; if n <=? i then throw OutOfRange else p <- s_data a ;; rd (p + i).
(** string.hpp:397-404 reserve *)
Definition s_reserve (a n : nat) : prog unit :=
  c <- s_capacity a ;; if n <=? c then ret tt else
  t <- s_storage n ;; s <- s_size a ;; wr (fst t + s) 0 ;;;
  s' <- s_size a ;; (if s' =? 0 then ret tt else p <- s_data a ;; s' <- s_size a ;; copy_n p (s' + 1) (fst t)) ;;;
  s_move_heap a (fst t) (snd t) s.
(** string.hpp:390-394, 407-412 push_back: resize(size() + 1, ch) *)
Definition s_push_back (a x : nat) : prog unit :=
  s <- s_size a ;; c <- s_capacity a ;;
  (if s =? c then s <- s_size a ;; s_reserve a (s + 1) else ret tt) ;;;
  s <- s_size a ;; old <- s_size a ;; s_reserve a (s + 1) ;;; s_set_size a (s + 1) ;;;
  new <- s_size a ;; (if old <? new then p <- s_data a ;; p' <- s_data a ;; new <- s_size a ;; write_n (p + old) (replicate (p' + new - (p + old)) x) else ret tt).
(** string.hpp:395 pop_back *)
Definition s_pop_back (a : nat) : prog unit := s <- s_size a ;; s_set_size a (s - 1).
(** string.hpp:416-419 clear *)
Definition s_clear (a : nat) : prog unit := s <- s_size a ;; if s =? 0 then ret tt else s_set_size a 0.
(** string.hpp:70-78, 42-51, 305 operator=(string &&) *)
Definition s_move_assign (a b : nat) : prog unit :=
  if a =? b then ret tt else
  s_release a ;;; d <- rd b ;; wr a d ;;; d <- rd a ;;
  if d =? 0 then n <- rd (b + 1) ;; wr (a + 1) n ;;; n <- rd (a + 1) ;; copy_n (b + 2) (n + 1) (a + 2)
  else copy_n (b + 1) 3 (a + 1) ;;; s_clear_to_sso b.
(** string.hpp:111-137 swap; simplified: both flags are read once, in the beginning *)
Definition s_swap (a b : nat) : prog unit :=
  if a =? b then ret tt else
  d <- rd a ;; e <- rd b ;;
  if negb (d =? 0) && negb (e =? 0) then
    swap_cells (a + 1) (b + 1) ;;; swap_cells (a + 2) (b + 2) ;;; swap_cells (a + 3) (b + 3) ;;; swap_cells a b
  else if (d =? 0) && (e =? 0) then
    n <- rd (a + 1) ;; tmp <- read_n (a + 2) (n + 1) ;;
    n <- rd (b + 1) ;; copy_n (b + 2) (n + 1) (a + 2) ;;;
    n <- rd (a + 1) ;; write_n (b + 2) (take (n + 1) tmp) ;;;
    swap_cells (a + 1) (b + 1)
  else
    let heap := if d =? 0 then b else a in let sso := if d =? 0 then a else b in
    tmp <- read_n (heap + 1) 3 ;;
    n <- rd (sso + 1) ;; wr (heap + 1) n ;;;
    n <- rd (sso + 1) ;; copy_n (sso + 2) (n + 1) (heap + 2) ;;;
    write_n (sso + 1) tmp ;;;
    swap_cells a b.
(** string.hpp:581-582, 607-608 operator== *)
Definition s_eq (a b : nat) : prog bool :=
  w <- s_view b ;; v <- s_view a ;; if snd v =? snd w then equal_n (fst v) (fst w) (snd v) else ret false.

(** ** bitset: the bytes, bitset.hpp:61; [n]: how many, the size is above 0 *)
(** bitset.hpp:135-139, 154 operator[] and test, for an index in range *)
Definition b_test (a i : nat) : prog bool := v <- rd (a + i / 8) ;; ret (Nat.testbit v (i mod 8)).
Definition popcount (v : nat) : nat := length (List.filter (Nat.testbit v) (seq 0 8)).
(** bitset.hpp:172-179 count *)
Definition b_count (a n : nat) : prog nat := vs <- read_n a n ;; ret (sum_list_with popcount vs).
(** bitset.hpp:284-293, 300-308 set(index, value) and reset(index) *)
Definition b_set (a i : nat) (value : bool) : prog unit :=
  v <- rd (a + i / 8) ;; wr (a + i / 8) (if value then Nat.setbit v (i mod 8) else Nat.clearbit v (i mod 8)).
(** bitset.hpp:318-326 flip(index) *)
Definition b_flip (a i : nat) : prog unit := v <- rd (a + i / 8) ;; wr (a + i / 8) (Nat.lxor v (2 ^ (i mod 8))).
(** bitset.hpp:192-196 operator&= *)
Fixpoint b_and (a b n : nat) : prog unit :=
  match n with 0 => ret tt | S n' => v <- rd a ;; w <- rd b ;; wr a (Nat.land v w) ;;; b_and (S a) (S b) n' end.
(** bitset.hpp:368-373 operator== *)
Definition b_eq (a b n : nat) : prog bool := equal_n a b n.

(** ** optional: val and initialized, optional.hpp:26-29 *)
(** optional.hpp:111-115 has_value() *)
Definition o_has_value (a : nat) : prog bool := i <- rd (a + 1) ;; ret (negb (i =? 0)).
(** optional.hpp:118-136 value() and reading *)
Definition o_value (a : nat) : prog nat := i <- rd (a + 1) ;; if i =? 0 then throw BadAccess else rd a.
(** optional.hpp:75-82 operator=(const Type &), also of a value in memory *)
Definition o_assign (a x : nat) : prog unit :=
  i <- rd (a + 1) ;; if i =? 0 then wr a x ;;; wr (a + 1) 1 else wr a x.
Definition o_assign_from (a p : nat) : prog unit :=
  i <- rd (a + 1) ;; if i =? 0 then x <- rd p ;; wr a x ;;; wr (a + 1) 1 else x <- rd p ;; wr a x.
(** optional.hpp:149-155 reset() *)
Definition o_reset (a : nat) : prog unit :=
  i <- rd (a + 1) ;; if i =? 0 then ret tt else destroy_n a 1 ;;; wr (a + 1) 0.
(** optional.hpp:58-64 operator=(const optional &) *)
Definition o_copy_assign (a b : nat) : prog unit :=
  if a =? b then ret tt else i <- rd (b + 1) ;; if i =? 0 then o_reset a else o_assign_from a b.

(** ** Clients: what a thread calls may depend on what it got *)
Inductive val := VUnit | VNat (n : nat) | VBool (b : bool).
Inductive call :=
  | VSize (a : nat) | VCapacity (a : nat) | VIndex (a i : nat) | VAt (a i : nat) | VEq (a b : nat) | VLt (a b : nat)
  | VCopy (a b : nat) | VCopyAssign (a b : nat) | VMoveAssign (a b : nat) | VSwap (a b : nat) | VPush (a x : nat) | VPop (a : nat)
  | VInsert (a i x : nat) | VResize (a n x : nat) | VReserve (a n : nat) | VClear (a : nat) | VErase (a i n : nat) | VSet (a i x : nat) | VDestroy (a : nat)
  | SSize (a : nat) | SAt (a i : nat) | SEq (a b : nat) | SCopy (a b : nat) | SPush (a x : nat) | SPop (a : nat) | SReserve (a n : nat) | SMoveAssign (a b : nat) | SSwap (a b : nat) | SClear (a : nat) | SDestroy (a : nat)
  | BTest (a i : nat) | BCount (a n : nat) | BEq (a b n : nat) | BSet (a i : nat) (v : bool) | BFlip (a i : nat) | BAnd (a b n : nat)
  | OHas (a : nat) | OValue (a : nat) | OAssign (a x : nat) | OReset (a : nat) | OCopyAssign (a b : nat).
Definition unit_of (p : prog unit) : prog val := p ;;; ret VUnit.
Definition nat_of (p : prog nat) : prog val := n <- p ;; ret (VNat n).
Definition bool_of (p : prog bool) : prog val := b <- p ;; ret (VBool b).
Definition code (c : call) : prog val :=
  match c with
  | VSize a => nat_of (v_size a) | VCapacity a => nat_of (v_capacity a)
  | VIndex a i => nat_of (v_index a i) | VAt a i => nat_of (v_at a i)
  | VEq a b => bool_of (v_eq a b) | VLt a b => bool_of (v_lt a b)
  | VCopy a b => unit_of (v_copy a b) | VCopyAssign a b => unit_of (v_copy_assign a b)
  | VMoveAssign a b => unit_of (v_move_assign a b) | VSwap a b => unit_of (v_swap a b)
  | VPush a x => unit_of (v_push_back a x) | VPop a => unit_of (v_pop_back a)
  | VInsert a i x => nat_of (v_insert a i x) | VResize a n x => unit_of (v_resize a n x)
  | VReserve a n => unit_of (v_reserve a n) | VClear a => unit_of (v_clear a)
  | VErase a i n => unit_of (v_erase a i n) | VSet a i x => unit_of (v_set a i x) | VDestroy a => unit_of (v_destroy a)
  | SSize a => nat_of (s_size a) | SAt a i => nat_of (s_at a i) | SEq a b => bool_of (s_eq a b)
  | SCopy a b => unit_of (s_copy a b) | SPush a x => unit_of (s_push_back a x) | SPop a => unit_of (s_pop_back a)
  | SReserve a n => unit_of (s_reserve a n) | SMoveAssign a b => unit_of (s_move_assign a b) | SSwap a b => unit_of (s_swap a b)
  | SClear a => unit_of (s_clear a) | SDestroy a => unit_of (s_destroy a)
  | BTest a i => bool_of (b_test a i) | BCount a n => nat_of (b_count a n) | BEq a b n => bool_of (b_eq a b n)
  | BSet a i v => unit_of (b_set a i v) | BFlip a i => unit_of (b_flip a i) | BAnd a b n => unit_of (b_and a b n)
  | OHas a => bool_of (o_has_value a) | OValue a => nat_of (o_value a) | OAssign a x => unit_of (o_assign a x)
  | OReset a => unit_of (o_reset a) | OCopyAssign a b => unit_of (o_copy_assign a b)
  end.
Inductive client := Finish | Call (c : call) (k : outcome val → client).
(** the thread that runs a client, with the results of all calls *)
Fixpoint thread (t : client) : prog (list (outcome val)) :=
  match t with
  | Finish => ret []
  | Call c k => catch (code c) (λ o, os <- thread (k o) ;; ret (o :: os))
  end.
