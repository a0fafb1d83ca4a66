(** Model of the stream output of string, string_ref and bitset.

    A std::ostream is what reached its buffer so far, its field width, fill character and
    alignment, and its error flags. The buffer accepts a limited number of characters, or all.

    Simplified: the stream buffer does not throw and exceptions() is empty; std::internal is
    the same as std::right for characters, [a_left] is std::left; failing to write sets failbit. *)
From stdpp Require Import prelude gmap.
From Coq Require Import ZArith Ascii.
From Verif Require Import Cpp.
From Verif Require StringModel StringOrder ViewModel StringRefModel BitsetModel BitsetIoModel.
Local Open Scope nat_scope.

(** ** Streams (standard library) *)
Record ostream {A : Type} := OStream {
  written : list A;
  width : nat; fill : A; a_left : bool;
  room : option nat;             (* what the buffer still accepts; [None]: everything *)
  f_eof : bool; f_fail : bool; f_bad : bool;
}.
Global Arguments ostream : clear implicits.
Global Arguments OStream {A}.
Definition os_good {A} (s : ostream A) : bool := negb (f_eof s || f_fail s || f_bad s).
Definition set_fail {A} (s : ostream A) : ostream A :=
  OStream (written s) (width s) (fill s) (a_left s) (room s) (f_eof s) true (f_bad s).
(** rdbuf()->sputn *)
Definition sputn {A} (t : list A) (s : ostream A) : ostream A :=
  match room s with
  | None => OStream (written s ++ t) (width s) (fill s) (a_left s) None (f_eof s) (f_fail s) (f_bad s)
  | Some r =>
      OStream (written s ++ take r t) (width s) (fill s) (a_left s) (Some (r - length t))
              (f_eof s) (f_fail s || (r <? length t)) (f_bad s)
  end.
(** os << character and os << std::string_view, [ostream.inserters.character] and
    [string.view.io]: pad to the width, write, and reset the width *)
Definition os_insert {A} (t : list A) (s : ostream A) : ostream A :=
  if os_good s then
    let pad := replicate (width s - length t) (fill s) in
    let s' := sputn (if a_left s then t ++ pad else pad ++ t) s in
    OStream (written s') 0 (fill s') (a_left s') (room s') (f_eof s') (f_fail s') (f_bad s')
  else set_fail s.

(** a member function of an object next to a stream *)
Definition with_os {W S A} (m : M W A) : M (W * S) A := λ s,
  match m s.1 with
  | Ok a w => Ok a (w, s.2)
  | Exn e w => Exn e (w, s.2)
  | Stuck f => Stuck f
  | Terminated => Terminated
  end.
Definition insert_os {W A} (t : list A) : M (W * ostream A) unit := λ s, Ok tt (s.1, os_insert t s.2).

(** ** bitset.hpp:333-337 operator<<; [i] counts down from Size to 1 *)
Fixpoint bs_out_loop (Size i : nat) : M (BitsetModel.bitset * ostream ascii) unit :=
  match i with
  | O => ret tt
  | S i' =>
      t <- with_os (BitsetModel.bs_test Size i') ;;
      insert_os [if t : bool then "1" else "0"]%char ;;;
      bs_out_loop Size i'
  end.
Definition bs_out (Size : nat) : M (BitsetModel.bitset * ostream ascii) unit := bs_out_loop Size Size.

(** ** string.hpp:612-613 operator<<; the view is 550-553 *)
Section string.
Import StringModel StringOrder.
Context `{C : StrCfg}.
Definition str_out (x : nat) : M (world * ostream char) unit :=
  v <- with_os (view_of (AStr x)) ;; l <- with_os (view_chars v.1 0 v.2) ;; insert_os l.
End string.

(** ** string_ref.hpp:213-214 operator<<; the view is 216-218 *)
Section string_ref.
Import ViewModel StringRefModel.
Context `{C : ViewCfg}.
Definition sr_out (x : nat) : M (world char * ostream char) unit :=
  v <- with_os (sr_view x) ;; l <- with_os (sv_chars v.1 (Z.to_nat v.2)) ;; insert_os l.
End string_ref.
