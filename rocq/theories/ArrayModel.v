(** Model of /repo/inc/ptl/array.hpp, for one element type and one Size.

    An array object is the list of its elements; the member [values] of an array of size 0
    is a null pointer (array.hpp:18-20). References and iterators are the pointers of
    IterModel.v, [At x i] being element i of array x. Every member function is a program over
    all array objects, so arguments may refer to elements of the array being modified.

    Simplified: Type's operations are value-like (a copy equals its source, a move leaves
    [moved v], self-move-assignment leaves [selfmove v]); a throwing copy assignment leaves
    [torn old new] in its target; swap(Type &, Type &) exchanges the values. Copy construction,
    value initialisation and copy assignment fail at the environment's pleasure ([fails k]
    for the k-th one). A constructor call that does not compile is a fault. The enable_if of
    the constructor (177) is in ArrayCtor.v, comparisons use OrderModel.v. *)
From stdpp Require Import prelude gmap.
From Coq Require Import ZArith.
From Verif Require Import Cpp IterModel OrderModel.
Local Open Scope Z_scope.

Class ArrCfg := {
  V : Type;
  Size : nat;
  moved : V → V;
  selfmove : V → V;
  torn : V → V → V;
  dflt : V;                (* Type() *)
  wbits : Z;               (* width of std::size_t *)
  fails : nat → bool;
}.

Section model.
Context `{C : ArrCfg}.

Record world := World { arrs : gmap nat (list V); nops : nat }.
Definition set_arrs (m : gmap nat (list V)) (w : world) : world := World m (nops w).

Global Instance array_arrays : Arrays world nat V := {
  extent x w := (λ l, Z.of_nat (length l)) <$> arrs w !! x;
  load x i := λ w,
    match arrs w !! x with
    | None => Stuck UseAfterFree
    | Some l =>
        if 0 <=? i then match l !! Z.to_nat i with Some v => Ok v w | None => Stuck OutOfBounds end
        else Stuck OutOfBounds
    end;
  store x i v := λ w,
    match arrs w !! x with
    | None => Stuck UseAfterFree
    | Some l =>
        if (0 <=? i) && (i <? Z.of_nat (length l)) then Ok tt (set_arrs (<[x:=<[Z.to_nat i:=v]> l]> (arrs w)) w)
        else Stuck OutOfBounds
    end;
}.
Definition get_arr (x : nat) : M world (list V) := λ w, match arrs w !! x with Some l => Ok l w | None => Stuck NoObject end.
Definition put_arr (x : nat) (l : list V) : M world unit := λ w, Ok tt (set_arrs (<[x:=l]> (arrs w)) w).
(** an operation of Type that may throw; if it does, [c] describes the damage *)
Definition may_throw (c : M world unit) : M world unit := λ w,
  let w' := World (arrs w) (S (nops w)) in
  if fails (nops w) then (c ;;; throw ElementThrow) w' else Ok tt w'.
(** a value converted to std::size_t, a std::size_t converted to std::ptrdiff_t *)
Definition to_size (z : Z) : Z := z `mod` 2 ^ wbits.
Definition to_diff (z : Z) : Z := if z <? 2 ^ (wbits - 1) then z else z - 2 ^ wbits.

(** ** Arguments: a value of the caller, or a reference to an element *)
Inductive ref := RVal (v : V) | RElem (p : pointer nat).
Definition rd_ref (r : ref) : M world V := match r with RVal v => ret v | RElem p => pread p end.
(** an lvalue (or something to convert), and an rvalue *)
Inductive arg := ACopy (r : ref) | AMove (r : ref).
(** the value of Type initialised with std::forward<Arg>(arg) *)
Definition new_value (a : arg) : M world V :=
  match a with
  | ACopy r => v <- rd_ref r ;; may_throw (ret tt) ;;; ret v
  | AMove (RVal v) => ret v
  | AMove (RElem p) => v <- pread p ;; pwrite p (moved v) ;;; ret v
  end.
(** *p = value for an lvalue *)
Definition copy_assign (p : pointer nat) (r : ref) : M world unit :=
  u <- rd_ref r ;; v <- pread p ;; may_throw (pwrite p (torn v u)) ;;; pwrite p u.
(** *p = std::move( *q) *)
Definition move_assign (p q : pointer nat) : M world unit :=
  v <- pread q ;;
  if decide (p = q) then pwrite p (selfmove v) else pread p ;;; pwrite p v ;;; pwrite q (moved v).
(** for each of [n] elements from [p] on: do something with it and its number *)
Fixpoint each (n : nat) (p : pointer nat) (k : nat) (f : pointer nat → nat → M world unit) : M world unit :=
  match n with
  | O => ret tt
  | S n' => q <- it_deref p ;; f q k ;;; p' <- it_inc p ;; each n' p' (S k) f
  end.
(** the distance of two iterators *)
Definition distance (first last : pointer nat) : M world nat := d <- it_diff last first ;; ret (Z.to_nat d).

(** ** Construction, destruction and assignment *)
(** initialisation of Type[n]: one element after the other, value initialisation when the
    arguments run out *)
Fixpoint init_all (args : list arg) (n : nat) : M world (list V) :=
  match n, args with
  | O, [] => ret []
  | O, _ :: _ => stuck Precondition
  | S n', [] => may_throw (ret tt) ;;; l <- init_all [] n' ;; ret (dflt :: l)
  | S n', a :: args' => v <- new_value a ;; l <- init_all args' n' ;; ret (v :: l)
  end.
(** array.hpp:177-179 array(Args &&...) *)
Definition arr_new (x : nat) (args : list arg) : M world unit := l <- init_all args Size ;; put_arr x l.
(** references to all elements *)
Definition elements (y : nat) : list ref := (λ k, RElem (At y (Z.of_nat k))) <$> seq 0 Size.
(** implicit copy and move constructor *)
Definition arr_new_copy (x y : nat) : M world unit :=
  get_arr y ;;; l <- init_all (ACopy <$> elements y) Size ;; put_arr x l.
Definition arr_new_move (x y : nat) : M world unit := noexcept (
  get_arr y ;;; l <- init_all (AMove <$> elements y) Size ;; put_arr x l).
(** implicit destructor *)
Definition arr_destroy (x : nat) : M world unit :=
  get_arr x ;;; λ w, Ok tt (set_arrs (delete x (arrs w)) w).

(** array.hpp:181-184 data *)
Definition arr_data (x : nat) : M world (pointer nat) := noexcept (
  get_arr x ;;; ret (if decide (Size = 0%nat) then Null else At x 0)).
(** array.hpp:185-187 size *)
Definition arr_size : Z := to_size (Z.of_nat Size).
(** array.hpp:188-191 empty *)
Definition arr_empty : bool := arr_size =? 0.
(** array.hpp:192-194 max_size *)
Definition arr_max_size : Z := to_size (Z.of_nat Size).

(** array.hpp:223-228 begin, cbegin *)
Definition arr_begin (x : nat) : M world (pointer nat) := noexcept (arr_data x).
(** array.hpp:229-234 end, cend *)
Definition arr_end (x : nat) : M world (pointer nat) := noexcept (p <- arr_begin x ;; it_add p (to_diff arr_size)).
(** array.hpp:235-240 rbegin, crbegin: the iterator inside *)
Definition arr_rbegin (x : nat) : M world (pointer nat) := noexcept (arr_end x).
(** array.hpp:241-246 rend, crend *)
Definition arr_rend (x : nat) : M world (pointer nat) := noexcept (arr_begin x).

(** implicit copy and move assignment: element by element *)
Definition arr_copy_assign (x y : nat) : M world unit :=
  p <- arr_data x ;; arr_data y ;;; each Size p 0 (λ q k, copy_assign q (RElem (At y (Z.of_nat k)))).
Definition arr_move_assign (x y : nat) : M world unit := noexcept (
  p <- arr_data x ;; arr_data y ;;; each Size p 0 (λ q k, move_assign q (At y (Z.of_nat k)))).

(** ** Access *)
(** array.hpp:205-208 operator[] *)
Definition arr_index (x : nat) (i : Z) : M world (pointer nat) := noexcept (p <- arr_data x ;; q <- padd p i ;; pderef q).
(** array.hpp:196-199 front *)
Definition arr_front (x : nat) : M world (pointer nat) := noexcept (arr_index x 0).
(** array.hpp:200-203 back *)
Definition arr_back (x : nat) : M world (pointer nat) := noexcept (arr_index x (to_size (arr_size - 1))).
(** array.hpp:209-218 at *)
Definition arr_at (x : nat) (i : Z) : M world (pointer nat) :=
  if arr_size <=? i then throw OutOfRange else arr_index x i.
(** array.hpp:42-69 get<Index>; the static_assert rejects other indices *)
Definition arr_get (i : nat) (x : nat) : M world (pointer nat) := noexcept (
  if (i <? Size)%nat then arr_index x (Z.of_nat i) else stuck Precondition).

(** array.hpp:220-221 fill, with std::fill *)
Definition arr_fill (x : nat) (r : ref) : M world unit :=
  first <- arr_begin x ;; last <- arr_end x ;; n <- distance first last ;; each n first 0 (λ q _, copy_assign q r).
(** std::swap_ranges; the ranges may not overlap *)
Definition swap_ranges (first last first2 : pointer nat) : M world unit :=
  n <- distance first last ;;
  if negb (n =? 0)%nat && bool_decide (first = first2) then stuck Precondition
  else each n first 0 (λ q k, q2 <- it_index first2 (Z.of_nat k) ;; a <- pread q ;; b <- pread q2 ;; pwrite q b ;;; pwrite q2 a).
(** array.hpp:248-252 swap *)
Definition arr_swap (x y : nat) : M world unit := noexcept (
  first <- arr_begin x ;; last <- arr_end x ;; first2 <- arr_begin y ;; swap_ranges first last first2).

(** ** Comparison *)
Section compare.
Context `{E : !EltCmp V}.
(** the k-th element after an iterator *)
Definition from (p : pointer nat) (k : nat) : M world V := q <- it_index p (Z.of_nat k) ;; pread q.
(** array.hpp:254-256 operator== *)
Definition arr_eq (x y : nat) : M world bool := noexcept (
  b1 <- arr_begin x ;; e1 <- arr_end x ;; b2 <- arr_begin y ;; e2 <- arr_end y ;;
  n1 <- distance b1 e1 ;; n2 <- distance b2 e2 ;; std_equal (from b1) n1 (from b2) n2).
(** array.hpp:257-259 operator!= *)
Definition arr_ne (x y : nat) : M world bool := noexcept (r <- arr_eq x y ;; ret (negb r)).
(** array.hpp:261-263 operator< *)
Definition arr_lt (x y : nat) : M world bool := noexcept (
  b1 <- arr_begin x ;; e1 <- arr_end x ;; b2 <- arr_begin y ;; e2 <- arr_end y ;;
  n1 <- distance b1 e1 ;; n2 <- distance b2 e2 ;; std_lexicographical_compare (from b1) n1 (from b2) n2).
(** array.hpp:264-266 operator> *)
Definition arr_gt (x y : nat) : M world bool := noexcept (arr_lt y x).
(** array.hpp:267-269 operator<= *)
Definition arr_le (x y : nat) : M world bool := noexcept (r <- arr_gt x y ;; ret (negb r)).
(** array.hpp:270-272 operator>= *)
Definition arr_ge (x y : nat) : M world bool := noexcept (r <- arr_lt x y ;; ret (negb r)).
End compare.

(** ** Calls and histories *)
Inductive aop :=
  | ANew (x : nat) (args : list arg) | ANewCopy (x y : nat) | ANewMove (x y : nat) | ADel (x : nat)
  | ACopyAssign (x y : nat) | AMoveAssign (x y : nat) | AFill (x : nat) (r : ref) | ASwap (x y : nat)
  | AData (x : nat) | ASize | AEmpty | AMaxSize | AFront (x : nat) | ABack (x : nat) | AIndex (x : nat) (i : Z) | AAt (x : nat) (i : Z)
  | AGet (i x : nat) | ARead (p : pointer nat) | AWrite (p : pointer nat) (v : V).
Inductive aobs := OUnit | ONum (n : Z) | OBool (b : bool) | OVal (v : V) | OPtr (p : pointer nat) | OThrew (e : exn).

Definition aexec (o : aop) : M world aobs :=
  match o with
  | ANew x args => arr_new x args ;;; ret OUnit
  | ANewCopy x y => arr_new_copy x y ;;; ret OUnit
  | ANewMove x y => arr_new_move x y ;;; ret OUnit
  | ADel x => arr_destroy x ;;; ret OUnit
  | ACopyAssign x y => arr_copy_assign x y ;;; ret OUnit
  | AMoveAssign x y => arr_move_assign x y ;;; ret OUnit
  | AFill x r => arr_fill x r ;;; ret OUnit
  | ASwap x y => arr_swap x y ;;; ret OUnit
  | AData x => p <- arr_data x ;; ret (OPtr p)
  | ASize => ret (ONum arr_size)
  | AEmpty => ret (OBool arr_empty)
  | AMaxSize => ret (ONum arr_max_size)
  | AFront x => p <- arr_front x ;; ret (OPtr p)
  | ABack x => p <- arr_back x ;; ret (OPtr p)
  | AIndex x i => p <- arr_index x i ;; ret (OPtr p)
  | AAt x i => p <- arr_at x i ;; ret (OPtr p)
  | AGet i x => p <- arr_get i x ;; ret (OPtr p)
  | ARead p => v <- pread p ;; ret (OVal v)
  | AWrite p v => pwrite p v ;;; ret OUnit
  end.
Inductive hist := Finished (rs : list aobs) (w : world) | Faulted (f : fault) | Aborted.
Fixpoint arun (os : list aop) (w : world) : hist :=
  match os with
  | [] => Finished [] w
  | o :: os' =>
      let go r w' := match arun os' w' with Finished rs w'' => Finished (r :: rs) w'' | h => h end in
      match aexec o w with
      | Ok r w' => go r w'
      | Exn e w' => go (OThrew e) w'
      | Stuck f => Faulted f
      | Terminated => Aborted
      end
  end.
Definition init_world : world := World ∅ 0.
End model.
