(** Model of /repo/inc/ptl/string_ref.hpp.

    A string_ref is a pair of pointers into an array of characters; a std::string_view is a
    pointer and a size. std::char_traits, std::string_view::compare and std::hash are the
    standard's, the latter an unknown function of the characters.

    operator<< (213-214) is in OutModel.v, the iterator class (26-114) in IterModel.v. *)
From stdpp Require Import prelude gmap.
From Coq Require Import ZArith NArith.
From Coq Require Export Init.Byte.
From Verif Require Import Cpp IterModel ViewModel.
From Verif Require StringOrder.
Local Open Scope Z_scope.

Notation char := byte (only parsing).
Notation NUL := x00 (only parsing).
Notation uchar := StringOrder.uchar.

Section model.
Context `{C : ViewCfg} `{H : StringOrder.HashFn}.
Notation world := (world char).

(** ** Standard library *)
(** std::char_traits<char>::length: reads characters until one is null; no array has more than
    [fuel] characters from [p] on *)
Fixpoint length_loop (fuel : nat) (p : pointer nat) (k : Z) : M world Z :=
  c <- pread p ;;
  if (uchar c =? 0)%N then ret k
  else match fuel with O => stuck OutOfBounds | S fuel' => q <- padd p 1 ;; length_loop fuel' q (k + 1) end.
Definition traits_length (p : pointer nat) : M world Z := λ w,
  match p with
  | Null => Stuck NullDeref
  | At b o => match arrs w !! b with Some l => length_loop (length l) p 0 w | None => Stuck UseAfterFree end
  end.
(** std::char_traits<char>::compare of [n] characters *)
Fixpoint traits_compare (p q : pointer nat) (n : nat) : M world comparison :=
  match n with
  | O => ret Eq
  | S n' =>
      a <- pread p ;; b <- pread q ;;
      if (uchar a <? uchar b)%N then ret Lt
      else if (uchar b <? uchar a)%N then ret Gt
      else p' <- padd p 1 ;; q' <- padd q 1 ;; traits_compare p' q' n'
  end.
(** std::string_view::compare *)
Definition sv_compare (l r : pointer nat * Z) : M world comparison :=
  c <- traits_compare l.1 r.1 (Z.to_nat (l.2 `min` r.2)) ;;
  match c with Eq => ret (l.2 ?= r.2) | _ => ret c end.
(** the characters of a std::string_view *)
Fixpoint sv_chars (p : pointer nat) (n : nat) : M world (list char) :=
  match n with
  | O => ret []
  | S n' => c <- pread p ;; q <- padd p 1 ;; l <- sv_chars q n' ;; ret (c :: l)
  end.

(** ** string_ref *)
(** string_ref.hpp:16, 119-120 string_ref() *)
Definition sr_new (x : nat) : M world unit := noexcept (put_view x (Null, Null)).
(** string_ref.hpp:124-125 string_ref(const_pointer) *)
Definition sr_new_cstr (x : nat) (p : pointer nat) : M world unit := noexcept (
  n <- traits_length p ;; q <- padd p n ;; put_view x (p, q)).
(** string_ref.hpp:131-132 string_ref(const_pointer, size_type) *)
Definition sr_new_count (x : nat) (p : pointer nat) (n : Z) : M world unit := noexcept (
  q <- padd p n ;; put_view x (p, q)).
(** string_ref.hpp:136-137 string_ref(const std::string_view &) *)
Definition sr_new_view (x : nat) (v : pointer nat * Z) : M world unit := noexcept (sr_new_count x v.1 v.2).
(** implicit copy constructor, assignment and destructor *)
Definition sr_copy (x y : nat) : M world unit := v <- get_view y ;; put_view x v.
Definition sr_assign (x y : nat) : M world unit := get_view x ;;; v <- get_view y ;; put_view x v.
Definition sr_destroy (x : nat) : M world unit := del_view x.
(** string_ref.hpp:226-228 operator""_sr; the second parameter has no name *)
Definition sr_literal (x : nat) (p : pointer nat) (_ : Z) : M world unit := noexcept (sr_new_cstr x p).

(** string_ref.hpp:143-144 data *)
Definition sr_data (x : nat) : M world (pointer nat) := noexcept (v <- get_view x ;; ret v.1).
(** string_ref.hpp:148-149 size *)
Definition sr_size (x : nat) : M world Z := noexcept (v <- get_view x ;; d <- pdiff v.2 v.1 ;; ret (to_size d)).
(** string_ref.hpp:145-147 empty *)
Definition sr_empty (x : nat) : M world bool := noexcept (n <- sr_size x ;; ret (n =? 0)).
(** string_ref.hpp:150-152 max_size *)
Definition sr_max_size : Z := to_size diff_max.
(** string_ref.hpp:158-159 operator[] *)
Definition sr_index (x : nat) (i : Z) : M world (pointer nat) := noexcept (p <- sr_data x ;; q <- padd p i ;; pderef q).
(** string_ref.hpp:154-155 front *)
Definition sr_front (x : nat) : M world (pointer nat) := noexcept (sr_index x 0).
(** string_ref.hpp:156-157 back *)
Definition sr_back (x : nat) : M world (pointer nat) := noexcept (n <- sr_size x ;; sr_index x (to_size (n - 1))).
(** string_ref.hpp:160-164 at *)
Definition sr_at (x : nat) (i : Z) : M world (pointer nat) :=
  n <- sr_size x ;; if n <=? i then throw OutOfRange else sr_index x i.
(** string_ref.hpp:166-167 remove_prefix *)
Definition sr_remove_prefix (x : nat) (n : Z) : M world unit := noexcept (
  v <- get_view x ;; p <- padd v.1 n ;; put_view x (p, v.2)).
(** string_ref.hpp:168-169 remove_suffix *)
Definition sr_remove_suffix (x : nat) (n : Z) : M world unit := noexcept (
  v <- get_view x ;; p <- padd v.2 (- n) ;; put_view x (v.1, p)).
(** string_ref.hpp:171-172 substr(offset); [z] is the result *)
Definition sr_substr (z x : nat) (o : Z) : M world unit := noexcept (
  p <- sr_data x ;; q <- padd p o ;; n <- sr_size x ;; sr_new_count z q (to_size (n - o))).
(** string_ref.hpp:173-174 substr(offset, count) *)
Definition sr_substr_n (z x : nat) (o n : Z) : M world unit := noexcept (
  p <- sr_data x ;; q <- padd p o ;; sr_new_count z q n).

(** string_ref.hpp:176-179 begin, cbegin *)
Definition sr_begin (x : nat) : M world (pointer nat) := noexcept (sr_data x).
(** string_ref.hpp:180-183 end, cend *)
Definition sr_end (x : nat) : M world (pointer nat) := noexcept (p <- sr_begin x ;; n <- sr_size x ;; it_add p (to_diff n)).
(** string_ref.hpp:184-187 rbegin, crbegin: the iterator inside *)
Definition sr_rbegin (x : nat) : M world (pointer nat) := noexcept (sr_end x).
(** string_ref.hpp:188-191 rend, crend *)
Definition sr_rend (x : nat) : M world (pointer nat) := noexcept (sr_begin x).

(** string_ref.hpp:216-218 operator std::string_view *)
Definition sr_view (x : nat) : M world (pointer nat * Z) := noexcept (p <- sr_data x ;; n <- sr_size x ;; ret (p, n)).
(** string_ref.hpp:193-195 operator== *)
Definition sr_eq (x y : nat) : M world bool := noexcept (
  l <- sr_view x ;; r <- sr_view y ;; c <- sv_compare l r ;; ret (match c with Eq => true | _ => false end)).
(** string_ref.hpp:196-198 operator!= *)
Definition sr_ne (x y : nat) : M world bool := noexcept (b <- sr_eq x y ;; ret (negb b)).
(** string_ref.hpp:200-202 operator< *)
Definition sr_lt (x y : nat) : M world bool := noexcept (
  l <- sr_view x ;; r <- sr_view y ;; c <- sv_compare l r ;; ret (match c with Lt => true | _ => false end)).
(** string_ref.hpp:203-205 operator> *)
Definition sr_gt (x y : nat) : M world bool := noexcept (sr_lt y x).
(** string_ref.hpp:206-208 operator<= *)
Definition sr_le (x y : nat) : M world bool := noexcept (b <- sr_gt x y ;; ret (negb b)).
(** string_ref.hpp:209-211 operator>= *)
Definition sr_ge (x y : nat) : M world bool := noexcept (b <- sr_lt x y ;; ret (negb b)).
(** string_ref.hpp:233-236 std::hash *)
Definition sr_hash (x : nat) : M world nat := noexcept (
  v <- sr_view x ;; l <- sv_chars v.1 (Z.to_nat v.2) ;; ret (StringOrder.hash_bytes l)).

(** ** Calls and histories *)
Inductive sop :=
  | SNewArr (b : nat) (l : list char) | SDelArr (b : nat) | SRead (p : pointer nat) | SWrite (p : pointer nat) (c : char)
  | SNew (x : nat) | SNewCstr (x : nat) (p : pointer nat) | SNewCount (x : nat) (p : pointer nat) (n : Z)
  | SNewView (x : nat) (v : pointer nat * Z) | SCopy (x y : nat) | SAssign (x y : nat) | SDel (x : nat)
  | SData (x : nat) | SSize (x : nat) | SEmpty (x : nat)
  | SFront (x : nat) | SBack (x : nat) | SIndex (x : nat) (i : Z) | SAt (x : nat) (i : Z)
  | SRemovePrefix (x : nat) (n : Z) | SRemoveSuffix (x : nat) (n : Z) | SSubstr (z x : nat) (o : Z) | SSubstrN (z x : nat) (o n : Z)
  | SBegin (x : nat) | SEnd (x : nat) | SRbegin (x : nat) | SRend (x : nat)
  | SView (x : nat) | SEq (x y : nat) | SNe (x y : nat) | SLt (x y : nat) | SGt (x y : nat) | SLe (x y : nat) | SGe (x y : nat)
  | SHash (x : nat).
Inductive sobs :=
  BUnit | BNum (n : Z) | BBool (b : bool) | BVal (c : char) | BPtr (p : pointer nat) | BView (v : pointer nat * Z) | BHash (h : nat)
  | BThrew (e : exn).

Definition sexec (o : sop) : M world sobs :=
  match o with
  | SNewArr b l => new_arr b l ;;; ret BUnit
  | SDelArr b => del_arr b ;;; ret BUnit
  | SRead p => v <- pread p ;; ret (BVal v)
  | SWrite p v => pwrite p v ;;; ret BUnit
  | SNew x => sr_new x ;;; ret BUnit
  | SNewCstr x p => sr_new_cstr x p ;;; ret BUnit
  | SNewCount x p n => sr_new_count x p n ;;; ret BUnit
  | SNewView x v => sr_new_view x v ;;; ret BUnit
  | SCopy x y => sr_copy x y ;;; ret BUnit
  | SAssign x y => sr_assign x y ;;; ret BUnit
  | SDel x => sr_destroy x ;;; ret BUnit
  | SData x => p <- sr_data x ;; ret (BPtr p)
  | SSize x => n <- sr_size x ;; ret (BNum n)
  | SEmpty x => b <- sr_empty x ;; ret (BBool b)
  | SFront x => p <- sr_front x ;; ret (BPtr p)
  | SBack x => p <- sr_back x ;; ret (BPtr p)
  | SIndex x i => p <- sr_index x i ;; ret (BPtr p)
  | SAt x i => p <- sr_at x i ;; ret (BPtr p)
  | SRemovePrefix x n => sr_remove_prefix x n ;;; ret BUnit
  | SRemoveSuffix x n => sr_remove_suffix x n ;;; ret BUnit
  | SSubstr z x o => sr_substr z x o ;;; ret BUnit
  | SSubstrN z x o n => sr_substr_n z x o n ;;; ret BUnit
  | SBegin x => p <- sr_begin x ;; ret (BPtr p)
  | SEnd x => p <- sr_end x ;; ret (BPtr p)
  | SRbegin x => p <- sr_rbegin x ;; ret (BPtr p)
  | SRend x => p <- sr_rend x ;; ret (BPtr p)
  | SView x => v <- sr_view x ;; ret (BView v)
  | SEq x y => b <- sr_eq x y ;; ret (BBool b)
  | SNe x y => b <- sr_ne x y ;; ret (BBool b)
  | SLt x y => b <- sr_lt x y ;; ret (BBool b)
  | SGt x y => b <- sr_gt x y ;; ret (BBool b)
  | SLe x y => b <- sr_le x y ;; ret (BBool b)
  | SGe x y => b <- sr_ge x y ;; ret (BBool b)
  | SHash x => h <- sr_hash x ;; ret (BHash h)
  end.
Inductive hist := Finished (rs : list sobs) (w : world) | Faulted (f : fault) | Aborted.
Fixpoint srrun (os : list sop) (w : world) : hist :=
  match os with
  | [] => Finished [] w
  | o :: os' =>
      let go r w' := match srrun os' w' with Finished rs w'' => Finished (r :: rs) w'' | h => h end in
      match sexec o w with
      | Ok r w' => go r w'
      | Exn e w' => go (BThrew e) w'
      | Stuck f => Faulted f
      | Terminated => Aborted
      end
  end.
End model.
