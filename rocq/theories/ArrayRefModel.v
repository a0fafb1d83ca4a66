(** Model of /repo/inc/ptl/array_ref.hpp.

    Simplified: element types are a single type [A]; the traits that decide which ranges are
    accepted (27-61) and the deduction guides are not modelled; const and mutable iterators
    are the same pointers. The iterator class (63-155) is in IterModel.v. *)
From stdpp Require Import prelude gmap.
From Coq Require Import ZArith.
From Verif Require Import Cpp IterModel ViewModel.
Local Open Scope Z_scope.

Section model.
Context `{C : ViewCfg} {A : Type}.
Notation world := (world A).

(** array_ref.hpp:25, 170-171 array_ref() *)
Definition ar_new (x : nat) : M world unit := noexcept (put_view x (Null, Null)).
(** array_ref.hpp:177-178 array_ref(pointer, pointer) *)
Definition ar_new_ptrs (x : nat) (first last : pointer nat) : M world unit := noexcept (put_view x (first, last)).
(** array_ref.hpp:184-185 array_ref(pointer, size_type) *)
Definition ar_new_count (x : nat) (p : pointer nat) (count : Z) : M world unit := noexcept (
  q <- padd p count ;; ar_new_ptrs x p q).

(** array_ref.hpp:194-195 data *)
Definition ar_data (x : nat) : M world (pointer nat) := noexcept (v <- get_view x ;; ret v.1).
(** array_ref.hpp:199-200 size *)
Definition ar_size (x : nat) : M world Z := noexcept (v <- get_view x ;; d <- pdiff v.2 v.1 ;; ret (to_size d)).
(** array_ref.hpp:196-198 empty *)
Definition ar_empty (x : nat) : M world bool := noexcept (n <- ar_size x ;; ret (n =? 0)).

(** what array_ref(ContiguousRange &&) is given: an array, a container without memory, or a view *)
Inductive crange := RArr (b : nat) | REmpty | RView (y : nat).
(** std::data and std::size *)
Definition range_data (r : crange) : M world (pointer nat) :=
  match r with RArr b => padd (At b 0) 0 | REmpty => ret Null | RView y => ar_data y end.
Definition range_size (r : crange) : M world Z :=
  match r with
  | RArr b => λ w, match arrs w !! b with Some l => Ok (Z.of_nat (length l)) w | None => Stuck UseAfterFree end
  | REmpty => ret 0
  | RView y => ar_size y
  end.
(** array_ref.hpp:190-192 array_ref(ContiguousRange &&) *)
Definition ar_new_range (x : nat) (r : crange) : M world unit := noexcept (
  p <- range_data r ;; n <- range_size r ;; ar_new_count x p n).
(** implicit copy constructor, assignment and destructor *)
Definition ar_copy (x y : nat) : M world unit := v <- get_view y ;; put_view x v.
Definition ar_assign (x y : nat) : M world unit := get_view x ;;; v <- get_view y ;; put_view x v.
Definition ar_destroy (x : nat) : M world unit := del_view x.

(** array_ref.hpp:206-207 operator[] *)
Definition ar_index (x : nat) (i : Z) : M world (pointer nat) := noexcept (p <- ar_data x ;; q <- padd p i ;; pderef q).
(** array_ref.hpp:202-203 front *)
Definition ar_front (x : nat) : M world (pointer nat) := noexcept (ar_index x 0).
(** array_ref.hpp:204-205 back *)
Definition ar_back (x : nat) : M world (pointer nat) := noexcept (n <- ar_size x ;; ar_index x (to_size (n - 1))).
(** array_ref.hpp:208-212 at *)
Definition ar_at (x : nat) (i : Z) : M world (pointer nat) :=
  n <- ar_size x ;; if n <=? i then throw OutOfRange else ar_index x i.

(** array_ref.hpp:214-215 first; [z] is the result *)
Definition ar_first (z x : nat) (count : Z) : M world unit := noexcept (p <- ar_data x ;; ar_new_count z p count).
(** array_ref.hpp:216-217 last *)
Definition ar_last (z x : nat) (count : Z) : M world unit := noexcept (
  p <- ar_data x ;; n <- ar_size x ;; q <- padd p (to_size (n - count)) ;; ar_new_count z q count).
(** array_ref.hpp:218-219 subrange(offset) *)
Definition ar_subrange (z x : nat) (offset : Z) : M world unit := noexcept (
  p <- ar_data x ;; q <- padd p offset ;; n <- ar_size x ;; ar_new_count z q (to_size (n - offset))).
(** array_ref.hpp:220-221 subrange(offset, count) *)
Definition ar_subrange_n (z x : nat) (offset count : Z) : M world unit := noexcept (
  p <- ar_data x ;; q <- padd p offset ;; ar_new_count z q count).

(** array_ref.hpp:223-228 begin, cbegin *)
Definition ar_begin (x : nat) : M world (pointer nat) := noexcept (ar_data x).
(** array_ref.hpp:229-234 end, cend *)
Definition ar_end (x : nat) : M world (pointer nat) := noexcept (p <- ar_begin x ;; n <- ar_size x ;; it_add p (to_diff n)).
(** array_ref.hpp:235-240 rbegin, crbegin: the iterator inside *)
Definition ar_rbegin (x : nat) : M world (pointer nat) := noexcept (ar_end x).
(** array_ref.hpp:241-246 rend, crend *)
Definition ar_rend (x : nat) : M world (pointer nat) := noexcept (ar_begin x).

(** ** Calls and histories *)
Inductive aop :=
  | ANewArr (b : nat) (l : list A) | ADelArr (b : nat) | ARead (p : pointer nat) | AWrite (p : pointer nat) (v : A)
  | ANew (x : nat) | ANewPtrs (x : nat) (p q : pointer nat) | ANewCount (x : nat) (p : pointer nat) (n : Z)
  | ANewRange (x : nat) (r : crange) | ACopy (x y : nat) | AAssign (x y : nat) | ADel (x : nat)
  | AData (x : nat) | ASize (x : nat) | AEmpty (x : nat)
  | AFront (x : nat) | ABack (x : nat) | AIndex (x : nat) (i : Z) | AAt (x : nat) (i : Z)
  | AFirst (z x : nat) (n : Z) | ALast (z x : nat) (n : Z) | ASub (z x : nat) (o : Z) | ASubN (z x : nat) (o n : Z)
  | ABegin (x : nat) | AEnd (x : nat) | ARbegin (x : nat) | ARend (x : nat).
Inductive aobs := BUnit | BNum (n : Z) | BBool (b : bool) | BVal (v : A) | BPtr (p : pointer nat) | BThrew (e : exn).

Definition aexec (o : aop) : M world aobs :=
  match o with
  | ANewArr b l => new_arr b l ;;; ret BUnit
  | ADelArr b => del_arr b ;;; ret BUnit
  | ARead p => v <- pread p ;; ret (BVal v)
  | AWrite p v => pwrite p v ;;; ret BUnit
  | ANew x => ar_new x ;;; ret BUnit
  | ANewPtrs x p q => ar_new_ptrs x p q ;;; ret BUnit
  | ANewCount x p n => ar_new_count x p n ;;; ret BUnit
  | ANewRange x r => ar_new_range x r ;;; ret BUnit
  | ACopy x y => ar_copy x y ;;; ret BUnit
  | AAssign x y => ar_assign x y ;;; ret BUnit
  | ADel x => ar_destroy x ;;; ret BUnit
  | AData x => p <- ar_data x ;; ret (BPtr p)
  | ASize x => n <- ar_size x ;; ret (BNum n)
  | AEmpty x => b <- ar_empty x ;; ret (BBool b)
  | AFront x => p <- ar_front x ;; ret (BPtr p)
  | ABack x => p <- ar_back x ;; ret (BPtr p)
  | AIndex x i => p <- ar_index x i ;; ret (BPtr p)
  | AAt x i => p <- ar_at x i ;; ret (BPtr p)
  | AFirst z x n => ar_first z x n ;;; ret BUnit
  | ALast z x n => ar_last z x n ;;; ret BUnit
  | ASub z x o => ar_subrange z x o ;;; ret BUnit
  | ASubN z x o n => ar_subrange_n z x o n ;;; ret BUnit
  | ABegin x => p <- ar_begin x ;; ret (BPtr p)
  | AEnd x => p <- ar_end x ;; ret (BPtr p)
  | ARbegin x => p <- ar_rbegin x ;; ret (BPtr p)
  | ARend x => p <- ar_rend x ;; ret (BPtr p)
  end.
Inductive hist := Finished (rs : list aobs) (w : world) | Faulted (f : fault) | Aborted.
Fixpoint arun (os : list aop) (w : world) : hist :=
  match os with
  | [] => Finished [] w
  | o :: os' =>
      let go r w' := match arun os' w' with Finished rs w'' => Finished (r :: rs) w'' | h => h end in
      match aexec o w with
      | Ok r w' => go r w'
      | Exn e w' => go (BThrew e) w'
      | Stuck f => Faulted f
      | Terminated => Aborted
      end
  end.
End model.
Global Arguments aop : clear implicits.
Global Arguments aobs : clear implicits.
Global Arguments hist : clear implicits.
