(** Model of the iterator classes of PTL, of std::reverse_iterator and of loops over ranges.

    The class contiguous_iterator is written out in vector.hpp:92-187, string.hpp:140-235,
    array.hpp:71-163 and array_ref.hpp:63-155, and as [iterator] in string_ref.hpp:26-114; the
    five texts agree except that string_ref's has no conversion to a const iterator and those of
    vector and string have a private one back (MixModel.v). An
    iterator is a pointer into an array. The arrays belong to an arbitrary state [S]: [extent]
    tells how many elements an array has, [load] and [store] access an element.

    A member function working on *this takes the pointer and returns its new value; lines are
    those of array_ref.hpp (vector.hpp: plus 29, string.hpp: plus 77, array.hpp: plus 8,
    string_ref.hpp: minus 38, after line 127 minus 41).

    Simplified: subtracting or ordering pointers into different arrays is a fault; const and
    mutable iterators differ only in what the compiler accepts. *)
From stdpp Require Import prelude.
From Coq Require Import ZArith.
From Verif Require Import Cpp.
Local Open Scope Z_scope.

(** a pointer: null, or the [o]-th position of array [b], which may be one past its end *)
Inductive pointer (B : Type) := Null | At (b : B) (o : Z).
Global Arguments Null {B}.
Global Arguments At {B} b o.
Global Instance pointer_eq_dec `{EqDecision B} : EqDecision (pointer B).
Proof. solve_decision. Defined.

(** the arrays in a state *)
Class Arrays (S B A : Type) := {
  extent : B → S → option Z;
  load : B → Z → M S A;
  store : B → Z → A → M S unit;
}.

Section model.
Context {S B A : Type} `{EqDecision B} `{R : !Arrays S B A}.
Implicit Types p q : pointer B.

(** ** Pointers *)
(** p + n: must stay inside the array or one past its end *)
Definition padd p (n : Z) : M S (pointer B) := λ w,
  match p with
  | Null => if n =? 0 then Ok Null w else Stuck NullDeref
  | At b o =>
      match extent b w with
      | None => Stuck UseAfterFree
      | Some len => if (0 <=? o + n) && (o + n <=? len) then Ok (At b (o + n)) w else Stuck OutOfBounds
      end
  end.
(** p - q *)
Definition pdiff p q : M S Z := λ w,
  match p, q with
  | Null, Null => Ok 0 w
  | At b o, At b' o' =>
      if decide (b = b') then match extent b w with Some _ => Ok (o - o') w | None => Stuck UseAfterFree end
      else Stuck Precondition
  | _, _ => Stuck Precondition
  end.
(** p == q *)
Definition peq p q : M S bool := ret (bool_decide (p = q)).
(** p < q *)
Definition plt p q : M S bool := d <- pdiff p q ;; ret (d <? 0).
(** *p as a value, and assignment to it *)
Definition pread p : M S A := match p with Null => stuck NullDeref | At b o => load b o end.
Definition pwrite p (v : A) : M S unit := match p with Null => stuck NullDeref | At b o => store b o v end.
(** *p as a reference: there must be an element *)
Definition pderef p : M S (pointer B) := λ w,
  match p with
  | Null => Stuck NullDeref
  | At b o =>
      match extent b w with
      | None => Stuck UseAfterFree
      | Some len => if (0 <=? o) && (o <? len) then Ok p w else Stuck OutOfBounds
      end
  end.

(** ** contiguous_iterator *)
(** array_ref.hpp:72-73, 154 contiguous_iterator() *)
Definition it_default : pointer B := Null.
(** array_ref.hpp:75-76 operator++() *)
Definition it_inc p : M S (pointer B) := noexcept (padd p 1).
(** array_ref.hpp:77-82 operator++(int): the new value of *this and the result *)
Definition it_postinc p : M S (pointer B * pointer B) := noexcept (p' <- it_inc p ;; ret (p', p)).
(** array_ref.hpp:84-85 operator--() *)
Definition it_dec p : M S (pointer B) := noexcept (padd p (-1)).
(** array_ref.hpp:86-91 operator--(int) *)
Definition it_postdec p : M S (pointer B * pointer B) := noexcept (p' <- it_dec p ;; ret (p', p)).
(** array_ref.hpp:93-94 operator*() *)
Definition it_deref p : M S (pointer B) := noexcept (pderef p).
(** array_ref.hpp:95-96 operator->() *)
Definition it_arrow p : M S (pointer B) := noexcept (ret p).
(** array_ref.hpp:101-102 operator+= *)
Definition it_add_assign p (n : Z) : M S (pointer B) := noexcept (padd p n).
(** array_ref.hpp:103-108 operator+(iterator, difference_type) *)
Definition it_add p (n : Z) : M S (pointer B) := noexcept (it_add_assign p n).
(** array_ref.hpp:109-111 operator+(difference_type, iterator) *)
Definition it_add_l (n : Z) p : M S (pointer B) := noexcept (it_add p n).
(** array_ref.hpp:98-99 operator[] *)
Definition it_index p (n : Z) : M S (pointer B) := noexcept (q <- it_add p n ;; it_deref q).
(** array_ref.hpp:113-114 operator-= *)
Definition it_sub_assign p (n : Z) : M S (pointer B) := noexcept (padd p (- n)).
(** array_ref.hpp:115-120 operator-(iterator, difference_type) *)
Definition it_sub p (n : Z) : M S (pointer B) := noexcept (it_sub_assign p n).
(** array_ref.hpp:122-124 operator-(iterator, iterator) *)
Definition it_diff p q : M S Z := noexcept (pdiff p q).
(** array_ref.hpp:126-127 conversion to a const iterator, and vector.hpp:183-184,
    string.hpp:231-232 back *)
Definition it_const p : M S (pointer B) := noexcept (ret p).
(** array_ref.hpp:129-131 operator== *)
Definition it_eq p q : M S bool := noexcept (peq p q).
(** array_ref.hpp:132-134 operator!= *)
Definition it_ne p q : M S bool := noexcept (b <- it_eq p q ;; ret (negb b)).
(** array_ref.hpp:136-138 operator< *)
Definition it_lt p q : M S bool := noexcept (plt p q).
(** array_ref.hpp:139-141 operator> *)
Definition it_gt p q : M S bool := noexcept (it_lt q p).
(** array_ref.hpp:142-144 operator<= *)
Definition it_le p q : M S bool := noexcept (b <- it_gt p q ;; ret (negb b)).
(** array_ref.hpp:145-147 operator>= *)
Definition it_ge p q : M S bool := noexcept (b <- it_lt p q ;; ret (negb b)).

(** ** std::reverse_iterator over it, as in the standard: it holds the iterator after the element *)
Definition ri_inc p : M S (pointer B) := it_dec p.
Definition ri_dec p : M S (pointer B) := it_inc p.
Definition ri_deref p : M S (pointer B) := q <- it_dec p ;; it_deref q.
Definition ri_ne p q : M S bool := it_ne p q.

(** ** Loops *)
(** for(auto it = first; it != last; ++it) visit( *it): what is visited, as addresses and values;
    [None] if the loop runs for more than [fuel] rounds *)
Fixpoint loop (ne : pointer B → pointer B → M S bool) (star inc : pointer B → M S (pointer B))
    (fuel : nat) (first last : pointer B) : M S (option (list (pointer B * A))) :=
  b <- ne first last ;;
  if b then
    match fuel with
    | O => ret None
    | Datatypes.S fuel' =>
        r <- star first ;; v <- pread r ;; next <- inc first ;;
        l <- loop ne star inc fuel' next last ;;
        ret (cons (r, v) <$> l)
    end
  else ret (Some []).
Definition for_each : nat → pointer B → pointer B → M S (option (list (pointer B * A))) := loop it_ne it_deref it_inc.
Definition for_each_reverse : nat → pointer B → pointer B → M S (option (list (pointer B * A))) := loop ri_ne ri_deref ri_inc.
(** for(auto & e : range), and the same from rbegin() to rend() *)
Definition range_for (fuel : nat) (begin end_ : M S (pointer B)) : M S (option (list (pointer B * A))) :=
  first <- begin ;; last <- end_ ;; for_each fuel first last.
Definition range_for_reverse (fuel : nat) (rbegin rend : M S (pointer B)) : M S (option (list (pointer B * A))) :=
  first <- rbegin ;; last <- rend ;; for_each_reverse fuel first last.
End model.
