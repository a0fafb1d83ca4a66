(** The test cases of /repo/test/string_ref.cpp, run in the model. They are a check of the model against what the
    authors expect of the code; the properties are in StringRefProps.v. *)
From stdpp Require Import prelude gmap.
From Coq Require Import ZArith NArith.
From Coq Require Import String.
From Verif Require Import Cpp IterModel ViewModel StringRefModel.
From Verif Require StringOrder OutModel.
Local Open Scope Z_scope.

#[local] Instance cfg : ViewCfg := { wbits := 64 }.
Notation world := (world byte).
Definition require (b : bool) : M world unit := if b then ret tt else stuck NoObject.
Definition gives (m : M world Z) (v : Z) : M world unit := x <- m ;; require (x =? v).
Definition holds (m : M world bool) : M world unit := b <- m ;; require b.
Definition chars (s : string) : list byte := list_byte_of_string s.
Fixpoint reads (x : nat) (i : Z) (l : list byte) : M world unit :=
  match l with
  | [] => ret tt
  | c :: l' => p <- sr_index x i ;; v <- pread p ;; require (uchar v =? uchar c)%N ;;; reads x (i + 1) l'
  end.
Definition shows (x : nat) (s : string) : M world unit :=
  gives (sr_size x) (Z.of_nat (List.length (chars s))) ;;; reads x 0 (chars s).
Definition passes (t : M world unit) : bool := match t init_world with Ok _ _ => true | _ => false end.

(** test/string_ref.cpp:14-29 "string_ref ctor"; the characters that << writes are those of the view (OutProps.v) *)
Example string_ref_ctor :
  passes (new_arr 0 (chars "Hello" ++ [x00] ++ chars "World" ++ [x00; x00]) ;;; sr_new_view 0 (At 0%nat 0, 12) ;;;
          gives (sr_size 0) 12 ;;; p <- sr_index 0 5 ;; c <- pread p ;; require (uchar c =? 0)%N ;;;
          v <- sr_view 0 ;; cs <- sv_chars v.1 (Z.to_nat v.2) ;; require (Z.of_nat (List.length cs) =? 12) ;;;
          sr_new 1 ;;; holds (sr_ne 0 1) ;;; sr_assign 1 0 ;;; holds (sr_eq 0 1)) = true.
Proof. by vm_compute. Qed.
(** test/string_ref.cpp:31-41 "string_ref size" *)
Example string_ref_size :
  passes (new_arr 0 (chars "TEST" ++ [x00]) ;;; sr_new_cstr 0 (At 0%nat 0) ;;; gives (sr_size 0) 4 ;;;
          sr_literal 1 (At 0%nat 0) 4 ;;; gives (sr_size 1) 4) = true.
Proof. by vm_compute. Qed.
(** test/string_ref.cpp:43-73 "string_ref substr" *)
Example string_ref_substr :
  passes (new_arr 0 (chars "Hello World" ++ [x00]) ;;; sr_new_view 0 (At 0%nat 0, 11) ;;; shows 0 "Hello World" ;;;
          sr_copy 1 0 ;;; sr_remove_prefix 1 3 ;;; shows 1 "lo World" ;;;
          sr_copy 2 0 ;;; sr_remove_suffix 2 3 ;;; shows 2 "Hello Wo" ;;;
          sr_substr 3 0 4 ;;; shows 3 "o World" ;;;
          sr_substr_n 4 0 5 3 ;;; shows 4 " Wo") = true.
Proof. by vm_compute. Qed.
