(** The arrays that views refer to, and the objects array_ref and string_ref as pairs of
    pointers. std::size_t is [wbits] wide. *)
From stdpp Require Import prelude gmap.
From Coq Require Import ZArith.
From Verif Require Import Cpp IterModel.
Local Open Scope Z_scope.

Class ViewCfg := { wbits : Z }.

Section world.
Context {A : Type}.
(** a view: array_ref.hpp:25 first_ and last_, string_ref.hpp:16 first and last *)
Notation view := (pointer nat * pointer nat)%type.
Record world := World { arrs : gmap nat (list A); views : gmap nat view }.
Definition set_arrs (m : gmap nat (list A)) (w : world) : world := World m (views w).
Definition set_views (m : gmap nat view) (w : world) : world := World (arrs w) m.

Global Instance arrays : Arrays world nat A := {
  extent b w := (λ l, Z.of_nat (length l)) <$> arrs w !! b;
  load b i := λ w,
    match arrs w !! b with
    | None => Stuck UseAfterFree
    | Some l =>
        if 0 <=? i then match l !! Z.to_nat i with Some v => Ok v w | None => Stuck OutOfBounds end
        else Stuck OutOfBounds
    end;
  store b i v := λ w,
    match arrs w !! b with
    | None => Stuck UseAfterFree
    | Some l =>
        if (0 <=? i) && (i <? Z.of_nat (length l)) then Ok tt (set_arrs (<[b:=<[Z.to_nat i:=v]> l]> (arrs w)) w)
        else Stuck OutOfBounds
    end;
}.
Definition get_view (x : nat) : M world view := λ w, match views w !! x with Some v => Ok v w | None => Stuck NoObject end.
Definition put_view (x : nat) (v : view) : M world unit := λ w, Ok tt (set_views (<[x:=v]> (views w)) w).
Definition del_view (x : nat) : M world unit := get_view x ;;; λ w, Ok tt (set_views (delete x (views w)) w).

(** the caller creates and destroys arrays *)
Definition new_arr (b : nat) (l : list A) : M world unit := λ w,
  match arrs w !! b with None => Ok tt (set_arrs (<[b:=l]> (arrs w)) w) | Some _ => Stuck LiveOverwritten end.
Definition del_arr (b : nat) : M world unit := λ w,
  match arrs w !! b with Some _ => Ok tt (set_arrs (delete b (arrs w)) w) | None => Stuck UseAfterFree end.
Definition init_world : world := World ∅ ∅.
End world.
Notation view := (pointer nat * pointer nat)%type.
Global Arguments world : clear implicits.

(** ** Integers *)
Section ints.
Context `{C : ViewCfg}.
(** a value converted to std::size_t *)
Definition to_size (z : Z) : Z := z `mod` 2 ^ wbits.
(** a std::size_t converted to std::ptrdiff_t *)
Definition to_diff (z : Z) : Z := if z <? 2 ^ (wbits - 1) then z else z - 2 ^ wbits.
(** the largest std::ptrdiff_t *)
Definition diff_max : Z := 2 ^ (wbits - 1) - 1.
End ints.
