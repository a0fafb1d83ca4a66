(** Model of /repo/inc/ptl/bitset.hpp.

    A [bitset<Size, Tag>] object is the array [values] of bytes (line 61), here a
    list of integers; every member function is a program over that array.
    Integer promotions are modelled in Z (so [~] yields a negative int) and
    [static_cast<unsigned char>] is reduction modulo 256.
    [Size] is the template parameter, [wbits] the width of std::size_t (32/64).
    Tag, constexpr and the structured-binding traits (lines 413-418) have no
    run-time effect and are not modelled. *)
From stdpp Require Import prelude gmap.
From Coq Require Import ZArith Ascii.
From Verif Require Import Cpp.
Local Open Scope Z_scope.

Notation bitset := (list Z).

(** static_cast<unsigned char>(x) *)
Definition uc (x : Z) : Z := x `mod` 256.

(** bitset.hpp:32-36: storage<Size>::type is unsigned char[Size/8 + (Size%8 ? 1 : 0)],
    storage<0>::type is one unsigned char. sizeof(values) in bytes. *)
Definition storage_size (Size : nat) : nat :=
  match Size with
  | O => 1%nat
  | _ => (Size `div` 8 + (if (Size `mod` 8 =? 0)%nat then 0 else 1))%nat
  end.

(** bitset.hpp:22-25 determine_trailing_mask: masks[Size % 8]. *)
Definition masks : list Z := [255; 1; 3; 7; 15; 31; 63; 127].
Definition trailing_mask (Size : nat) : Z := nth (Size `mod` 8) masks 0.

(** values[i] as an rvalue; outside the array: undefined behaviour. *)
Definition rd (i : nat) : M bitset Z := λ b,
  match b !! i with Some v => Ok v b | None => Stuck OutOfBounds end.
(** values[i] = v *)
Definition wr (i : nat) (v : Z) : M bitset unit := λ b,
  match b !! i with Some _ => Ok tt (<[i:=v]> b) | None => Stuck OutOfBounds end.

(** bitset.hpp:59 clear_trailing_bits: values[sizeof(values) - 1] &= trailing_bits<Size> *)
Definition clear_trailing_bits (Size : nat) : M bitset unit :=
  let last := (storage_size Size - 1)%nat in
  v <- rd last ;; wr last (uc (Z.land v (trailing_mask Size))).

(** bitset.hpp:61,124: default constructor, values{} zero-initialised. *)
Definition bs_default (Size : nat) : bitset := replicate (storage_size Size) 0.

(** bitset.hpp:135-139 operator[](size_type) const.
    int -> bool conversion of values[index / 8] & (1 << (index % 8)). *)
Definition bs_index (Size index : nat) : M bitset bool :=
  if (Size =? 0)%nat then ret false
  else v <- rd (index `div` 8) ;;
       ret (negb (Z.land v (Z.shiftl 1 (Z.of_nat (index `mod` 8))) =? 0)).

(** bitset.hpp:143-146 at(size_type) const; bitset.hpp:154 test *)
Definition bs_at (Size index : nat) : M bitset bool :=
  if (Size <=? index)%nat then throw OutOfRange else bs_index Size index.
Definition bs_test (Size index : nat) : M bitset bool := bs_at Size index.

(** bitset.hpp:301-308 reset(size_type) *)
Definition bs_reset_at (Size index : nat) : M bitset unit :=
  if (Size =? 0)%nat then throw OutOfRange
  else if (Size <=? index)%nat then throw OutOfRange
  else v <- rd (index `div` 8) ;;
       wr (index `div` 8) (uc (Z.land v (Z.lnot (Z.shiftl 1 (Z.of_nat (index `mod` 8)))))).

(** bitset.hpp:285-293 set(size_type, bool) *)
Definition bs_set_at (Size index : nat) (value : bool) : M bitset unit :=
  if (Size =? 0)%nat then throw OutOfRange
  else if (Size <=? index)%nat then throw OutOfRange
  else if value
       then v <- rd (index `div` 8) ;;
            wr (index `div` 8) (uc (Z.lor v (Z.shiftl 1 (Z.of_nat (index `mod` 8)))))
       else bs_reset_at Size index.

(** bitset.hpp:319-326 flip(size_type) *)
Definition bs_flip_at (Size index : nat) : M bitset unit :=
  if (Size =? 0)%nat then throw OutOfRange
  else if (Size <=? index)%nat then throw OutOfRange
  else v <- rd (index `div` 8) ;;
       wr (index `div` 8) (uc (Z.lxor v (Z.shiftl 1 (Z.of_nat (index `mod` 8))))).

(** bitset.hpp:277-283 set(): std::fill_n with 255, then clear_trailing_bits *)
Definition bs_set_all (Size : nat) : M bitset unit :=
  if (Size =? 0)%nat then ret tt
  else modify (fmap (λ _, 255)) ;;; clear_trailing_bits Size.

(** bitset.hpp:296-299 reset(): std::fill_n with 0 *)
Definition bs_reset_all (Size : nat) : M bitset unit :=
  if (Size =? 0)%nat then ret tt else modify (fmap (λ _, 0)).

(** bitset.hpp:311-317 flip(): std::transform with ~val, then clear_trailing_bits *)
Definition bs_flip_all (Size : nat) : M bitset unit :=
  if (Size =? 0)%nat then ret tt
  else modify (fmap (λ v, uc (Z.lnot v))) ;;; clear_trailing_bits Size.

(** bitset.hpp:128-133 bitset(size_type): for i < min(width, Size), if bit i of value, set(i).
    noexcept. *)
Fixpoint from_int_loop (Size : nat) (value : Z) (i n : nat) : M bitset unit :=
  match n with
  | O => ret tt
  | S n' =>
      (if Z.land value (Z.shiftl 1 (Z.of_nat i)) =? 0 then ret tt else bs_set_at Size i true) ;;;
      from_int_loop Size value (S i) n'
  end.
Definition bs_from_int (wbits Size : nat) (value : Z) : M bitset unit :=
  noexcept (from_int_loop Size value 0 (wbits `min` Size)).

(** bitset.hpp:157-163 all(): every byte but the last is 255 and the last equals the mask *)
Definition bs_all (Size : nat) : M bitset bool :=
  if (Size =? 0)%nat then ret true
  else b <- get ;;
       l <- rd (storage_size Size - 1) ;;
       ret (forallb (λ v, v =? 255) (take (storage_size Size - 1) b) && (l =? trailing_mask Size)).

(** bitset.hpp:165-168 any(); bitset.hpp:170 none() *)
Definition bs_any (Size : nat) : M bitset bool :=
  if (Size =? 0)%nat then ret false
  else b <- get ;; ret (existsb (λ v, negb (v =? 0)) b).
Definition bs_none (Size : nat) : M bitset bool := a <- bs_any Size ;; ret (negb a).

(** bitset.hpp:328-331 operator bool (if enabled for the tag) *)
Definition bs_to_bool (Size : nat) : M bitset bool := bs_any Size.

(** bitset.hpp:173-179 count(): nibble table *)
Definition nibble_count : list Z := [0; 1; 1; 2; 1; 2; 2; 3; 1; 2; 2; 3; 2; 3; 3; 4].
Definition bs_count (Size : nat) : M bitset Z :=
  if (Size =? 0)%nat then ret 0
  else b <- get ;;
       ret (fold_left (λ sum v,
              sum + (nth (Z.to_nat (Z.shiftr v 4)) nibble_count 0
                     + nth (Z.to_nat (Z.land v 15)) nibble_count 0)) b 0).

(** bitset.hpp:192-226 operator&=, |=, ^= : std::transform over both arrays.
    [other] is passed by value; with &other == this each element is read before the
    same element is written, so this is the same. *)
Definition bs_and (Size : nat) (other : bitset) : M bitset unit :=
  if (Size =? 0)%nat then ret tt else modify (λ b, zip_with (λ l r, uc (Z.land l r)) b other).
Definition bs_or (Size : nat) (other : bitset) : M bitset unit :=
  if (Size =? 0)%nat then ret tt else modify (λ b, zip_with (λ l r, uc (Z.lor l r)) b other).
Definition bs_xor (Size : nat) (other : bitset) : M bitset unit :=
  if (Size =? 0)%nat then ret tt else modify (λ b, zip_with (λ l r, uc (Z.lxor l r)) b other).

(** bitset.hpp:239-242 the inner loop of <<=: j = sizeof(values)-1 down to 1 *)
Fixpoint shl_inner (j : nat) : M bitset unit :=
  match j with
  | O => ret tt
  | S j' =>
      v <- rd j ;; wr j (uc (Z.shiftl v 1)) ;;;
      v <- rd j ;; p <- rd j' ;; wr j (uc (Z.lor v (Z.shiftr p 7))) ;;;
      shl_inner j'
  end.
(** bitset.hpp:238-245 one iteration of the outer loop of <<= *)
Definition shl_once (Size : nat) : M bitset unit :=
  shl_inner (storage_size Size - 1) ;;;
  v <- rd 0 ;; wr 0 (uc (Z.shiftl v 1)) ;;;
  clear_trailing_bits Size.
Fixpoint repeat_m {S} (n : nat) (m : M S unit) : M S unit :=
  match n with O => ret tt | S n' => m ;;; repeat_m n' m end.
(** bitset.hpp:236-248 operator<<= *)
Definition bs_shl (Size count : nat) : M bitset unit :=
  if (Size =? 0)%nat then ret tt else repeat_m count (shl_once Size).

(** bitset.hpp:261-264 the inner loop of >>=: j = 1 up to sizeof(values)-1 ([n] iterations left) *)
Fixpoint shr_inner (j n : nat) : M bitset unit :=
  match n with
  | O => ret tt
  | S n' =>
      p <- rd (j - 1) ;; v <- rd j ;; wr (j - 1) (uc (Z.lor p (Z.shiftl v 7))) ;;;
      v <- rd j ;; wr j (uc (Z.shiftr v 1)) ;;;
      shr_inner (S j) n'
  end.
Definition shr_once (Size : nat) : M bitset unit :=
  v <- rd 0 ;; wr 0 (uc (Z.shiftr v 1)) ;;;
  shr_inner 1 (storage_size Size - 1).
(** bitset.hpp:257-268 operator>>= *)
Definition bs_shr (Size count : nat) : M bitset unit :=
  if (Size =? 0)%nat then ret tt else repeat_m count (shr_once Size).

(** bitset.hpp:198-202, 210-214, 222-226, 229-233, 250-254, 270-274: the non-assigning
    operators work on a by-value copy of the left operand and return it. *)
Definition on_copy (m : M bitset unit) (lhs : bitset) : res unit bitset :=
  match m lhs with
  | Ok _ b => Ok b tt
  | Exn e _ => Exn e tt
  | Stuck f => Stuck f
  | Terminated => Terminated
  end.
Definition bs_op_and (Size : nat) (lhs rhs : bitset) := on_copy (bs_and Size rhs) lhs.
Definition bs_op_or (Size : nat) (lhs rhs : bitset) := on_copy (bs_or Size rhs) lhs.
Definition bs_op_xor (Size : nat) (lhs rhs : bitset) := on_copy (bs_xor Size rhs) lhs.
Definition bs_op_not (Size : nat) (self : bitset) := on_copy (bs_flip_all Size) self.
Definition bs_op_shl (Size : nat) (lhs : bitset) (n : nat) := on_copy (bs_shl Size n) lhs.
Definition bs_op_shr (Size : nat) (lhs : bitset) (n : nat) := on_copy (bs_shr Size n) lhs.

(** bitset.hpp:370-376 operator==, operator!= : std::equal over the bytes *)
Fixpoint bytes_equal (a b : list Z) : bool :=
  match a, b with
  | [], _ => true
  | x :: a', y :: b' => (x =? y) && bytes_equal a' b'
  | _ :: _, [] => false
  end.
Definition bs_eq (Size : nat) (a b : bitset) : bool :=
  if (Size =? 0)%nat then true else bytes_equal a b.
Definition bs_ne (Size : nat) (a b : bitset) : bool := negb (bs_eq Size a b).

(** bitset.hpp:383-410 std::hash: FNV-1a over the bytes, modulo 2^wbits *)
Definition fnv_basis (wbits : nat) : Z :=
  if (wbits =? 32)%nat then 2166136261 else 14695981039346656037.
Definition fnv_prime (wbits : nat) : Z :=
  if (wbits =? 32)%nat then 16777619 else 1099511628211.
Definition bs_hash (wbits Size : nat) (b : bitset) : Z :=
  if (Size =? 0)%nat then 0
  else fold_left (λ hash value, (Z.lxor hash value * fnv_prime wbits) `mod` 2 ^ Z.of_nat wbits)
                 b (fnv_basis wbits).

(** bitset.hpp:361-366 swap: std::swap_ranges of the two arrays *)
Definition bs_swap (Size : nat) (a b : bitset) : bitset * bitset :=
  if (Size =? 0)%nat then (a, b) else (b, a).

(** ** Several bitset objects of one type, and histories over them *)

Notation bworld := (gmap nat (list Z)).

Definition on_bs {A} (x : nat) (m : M bitset A) : M bworld A := λ w,
  match w !! x with
  | None => Stuck NoObject
  | Some b =>
      match m b with
      | Ok a b' => Ok a (<[x:=b']> w)
      | Exn e b' => Exn e (<[x:=b']> w)
      | Stuck f => Stuck f
      | Terminated => Terminated
      end
  end.
Definition peek_bs (x : nat) : M bworld bitset := λ w,
  match w !! x with None => Stuck NoObject | Some b => Ok b w end.

(** One call of the public interface; [x], [y] name objects. *)
Inductive bop :=
  | BNew (x : nat) | BNewInt (x : nat) (value : Z) | BCopy (x y : nat)
  | BSetAll (x : nat) | BSet (x i : nat) (v : bool)
  | BResetAll (x : nat) | BReset (x i : nat)
  | BFlipAll (x : nat) | BFlip (x i : nat)
  | BAnd (x y : nat) | BOr (x y : nat) | BXor (x y : nat) | BNot (x y : nat)   (* BNot: x = ~y *)
  | BShl (x n : nat) | BShr (x n : nat)
  | BSwap (x y : nat)
  | BTest (x i : nat) | BAt (x i : nat) | BIndex (x i : nat)
  | BAllQ (x : nat) | BAnyQ (x : nat) | BNoneQ (x : nat) | BCount (x : nat) | BEqual (x y : nat).

(** What a call lets the caller observe. *)
Inductive bobs := BUnit | BBool (b : bool) | BInt (z : Z) | BThrew (e : exn).

Definition unit_obs {S} (m : M S unit) : M S bobs := m ;;; ret BUnit.
Definition bool_obs {S} (m : M S bool) : M S bobs := b <- m ;; ret (BBool b).
Definition int_obs {S} (m : M S Z) : M S bobs := z <- m ;; ret (BInt z).

Definition bexec (wbits Size : nat) (o : bop) : M bworld bobs :=
  match o with
  | BNew x => modify (<[x:=bs_default Size]>) ;;; ret BUnit
  | BNewInt x v => modify (<[x:=bs_default Size]>) ;;; unit_obs (on_bs x (bs_from_int wbits Size v))
  | BCopy x y => b <- peek_bs y ;; modify (<[x:=b]>) ;;; ret BUnit
  | BSetAll x => unit_obs (on_bs x (bs_set_all Size))
  | BSet x i v => unit_obs (on_bs x (bs_set_at Size i v))
  | BResetAll x => unit_obs (on_bs x (bs_reset_all Size))
  | BReset x i => unit_obs (on_bs x (bs_reset_at Size i))
  | BFlipAll x => unit_obs (on_bs x (bs_flip_all Size))
  | BFlip x i => unit_obs (on_bs x (bs_flip_at Size i))
  | BAnd x y => b <- peek_bs y ;; unit_obs (on_bs x (bs_and Size b))
  | BOr x y => b <- peek_bs y ;; unit_obs (on_bs x (bs_or Size b))
  | BXor x y => b <- peek_bs y ;; unit_obs (on_bs x (bs_xor Size b))
  | BNot x y => b <- peek_bs y ;; peek_bs x ;;;
                match bs_op_not Size b with
                | Ok r _ => modify (<[x:=r]>) ;;; ret BUnit
                | Exn e _ => throw e
                | Stuck f => stuck f
                | Terminated => λ _, Terminated
                end
  | BShl x n => unit_obs (on_bs x (bs_shl Size n))
  | BShr x n => unit_obs (on_bs x (bs_shr Size n))
  | BSwap x y => a <- peek_bs x ;; b <- peek_bs y ;;
                 modify (λ w, <[y:=snd (bs_swap Size a b)]> (<[x:=fst (bs_swap Size a b)]> w)) ;;; ret BUnit
  | BTest x i => bool_obs (on_bs x (bs_test Size i))
  | BAt x i => bool_obs (on_bs x (bs_at Size i))
  | BIndex x i => bool_obs (on_bs x (bs_index Size i))
  | BAllQ x => bool_obs (on_bs x (bs_all Size))
  | BAnyQ x => bool_obs (on_bs x (bs_any Size))
  | BNoneQ x => bool_obs (on_bs x (bs_none Size))
  | BCount x => int_obs (on_bs x (bs_count Size))
  | BEqual x y => a <- peek_bs x ;; b <- peek_bs y ;; ret (BBool (bs_eq Size a b))
  end.

(** Run a history; a thrown exception is caught by the caller, recorded, and the history goes on.
    [None]: the history hit a fault. *)
Fixpoint brun (wbits Size : nat) (os : list bop) (w : bworld) : option (list bobs * bworld) :=
  match os with
  | [] => Some ([], w)
  | o :: os' =>
      match bexec wbits Size o w with
      | Ok r w' => match brun wbits Size os' w' with Some (rs, w'') => Some (r :: rs, w'') | None => None end
      | Exn e w' => match brun wbits Size os' w' with Some (rs, w'') => Some (BThrew e :: rs, w'') | None => None end
      | _ => None
      end
  end.
