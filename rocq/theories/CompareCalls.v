(** Which element operators the comparisons of vector, array, tuple, optional and variant
    call, and what happens if one of them throws.

    The same functions as in OrderModel.v, ArrayModel.v, TupleModel.v, OptionalModel.v and
    VariantModel.v, but over the contents of the containers (that the functions read exactly
    these is proved there), with element operators that may throw, and recording every call
    of one of them.

    Simplified: all elements are of one universe [A]; operators of elements do not change
    them; std::equal_to<> and the like are the operators (they differ for pointers only). *)
From stdpp Require Import prelude.
From Verif Require Import Cpp.
Local Open Scope nat_scope.

Inductive op := OLt | OLe | OGt | OGe | OEq | ONe.
Global Instance op_eq_dec : EqDecision op.
Proof. solve_decision. Defined.

(** the operators of the element type; [None]: it throws *)
Class EltOps := { A : Type; elt_op : op → A → A → option bool }.

Section model.
Context `{C : EltOps}.

(** the calls of element operators so far: operator, left operand, right operand *)
Definition calls := list (op * A * A).
Definition ask (o : op) (a b : A) : M calls bool := λ s,
  match elt_op o a b with
  | Some r => Ok r (s ++ [(o, a, b)])
  | None => Exn ElementThrow (s ++ [(o, a, b)])
  end.

(** ** Sequences *)
Fixpoint equal_loop (a b : list A) : M calls bool :=
  match a, b with
  | x :: a', y :: b' => r <- ask OEq x y ;; if r then equal_loop a' b' else ret false
  | _, _ => ret true
  end.
(** std::equal(first1, last1, first2, last2) for random access iterators *)
Definition std_equal (a b : list A) : M calls bool :=
  if length a =? length b then equal_loop a b else ret false.
(** std::lexicographical_compare *)
Fixpoint std_lexicographical_compare (a b : list A) : M calls bool :=
  match a, b with
  | _, [] => ret false
  | [], _ :: _ => ret true
  | x :: a', y :: b' =>
      r <- ask OLt x y ;;
      if r then ret true
      else r' <- ask OLt y x ;; if r' then ret false else std_lexicographical_compare a' b'
  end.
(** vector.hpp:382, array.hpp:263 operator< *)
Definition seq_lt (a b : list A) : M calls bool := noexcept (std_lexicographical_compare a b).
(** vector.hpp:384, array.hpp:266 operator> *)
Definition seq_gt (a b : list A) : M calls bool := noexcept (seq_lt b a).
(** vector.hpp:386, array.hpp:269 operator<= *)
Definition seq_le (a b : list A) : M calls bool := noexcept (r <- seq_gt a b ;; ret (negb r)).
(** vector.hpp:388, array.hpp:272 operator>= *)
Definition seq_ge (a b : list A) : M calls bool := noexcept (r <- seq_lt a b ;; ret (negb r)).
(** vector.hpp:390, array.hpp:256 operator== *)
Definition seq_eq (a b : list A) : M calls bool := noexcept (std_equal a b).
(** vector.hpp:392, array.hpp:259 operator!= *)
Definition seq_ne (a b : list A) : M calls bool := noexcept (r <- seq_eq a b ;; ret (negb r)).

(** ** Tuples; both have the same number of components *)
(** tuple.hpp:69-70 equal, 35-37 for storage_t<> *)
Fixpoint st_equal (a b : list A) : M calls bool := noexcept (
  match a, b with
  | [], [] => ret true
  | x :: a', y :: b' => r <- ask OEq x y ;; if r then st_equal a' b' else ret false
  | _, _ => stuck Precondition
  end).
(** tuple.hpp:71-72 less, 38-40 for storage_t<> *)
Fixpoint st_less (a b : list A) : M calls bool := noexcept (
  match a, b with
  | [], [] => ret false
  | x :: a', y :: b' =>
      r <- ask OLt x y ;;
      if r then ret true
      else r' <- ask OLt y x ;; if negb r' then st_less a' b' else ret false
  | _, _ => stuck Precondition
  end).
(** tuple.hpp:113-131 *)
Definition tup_eq (a b : list A) : M calls bool := noexcept (st_equal a b).
Definition tup_ne (a b : list A) : M calls bool := noexcept (r <- tup_eq a b ;; ret (negb r)).
Definition tup_lt (a b : list A) : M calls bool := noexcept (st_less a b).
Definition tup_gt (a b : list A) : M calls bool := noexcept (tup_lt b a).
Definition tup_le (a b : list A) : M calls bool := noexcept (r <- tup_gt a b ;; ret (negb r)).
Definition tup_ge (a b : list A) : M calls bool := noexcept (r <- tup_lt a b ;; ret (negb r)).

(** ** Optionals *)
Notation full o := (match o with Some _ => true | None => false end).
(** *opt *)
Definition star (o : option A) : M calls A := match o with Some a => ret a | None => stuck DeadObject end.
Definition ask_star (o : op) (a b : M calls A) : M calls bool := x <- a ;; y <- b ;; ask o x y.
(** optional.hpp:193-197 *)
Definition oo_eq (l r : option A) : M calls bool := noexcept (
  if negb (Bool.eqb (full l) (full r)) then ret false else
  if Bool.eqb (full l) false then ret true else ask_star OEq (star l) (star r)).
(** optional.hpp:200-204 *)
Definition oo_ne (l r : option A) : M calls bool := noexcept (
  if negb (Bool.eqb (full l) (full r)) then ret true else
  if Bool.eqb (full l) false then ret false else ask_star ONe (star l) (star r)).
(** optional.hpp:208-212 *)
Definition oo_lt (l r : option A) : M calls bool := noexcept (
  if Bool.eqb (full r) false then ret false else
  if Bool.eqb (full l) false then ret true else ask_star OLt (star l) (star r)).
(** optional.hpp:215-219 *)
Definition oo_le (l r : option A) : M calls bool := noexcept (
  if Bool.eqb (full l) false then ret true else
  if Bool.eqb (full r) false then ret false else ask_star OLe (star l) (star r)).
(** optional.hpp:222-226 *)
Definition oo_gt (l r : option A) : M calls bool := noexcept (
  if Bool.eqb (full l) false then ret false else
  if Bool.eqb (full r) false then ret true else ask_star OGt (star l) (star r)).
(** optional.hpp:229-233 *)
Definition oo_ge (l r : option A) : M calls bool := noexcept (
  if Bool.eqb (full r) false then ret true else
  if Bool.eqb (full l) false then ret false else ask_star OGe (star l) (star r)).
(** optional.hpp:277-293 opt ? *opt @ value : otherwise *)
Definition ov (o : op) (l : option A) (v : A) : M calls bool := noexcept (
  if full l then ask_star o (star l) (ret v)
  else ret (match o with ONe | OLt | OLe => true | OEq | OGt | OGe => false end)).
(** optional.hpp:298-313 opt ? value @ *opt : otherwise *)
Definition vo (o : op) (v : A) (r : option A) : M calls bool := noexcept (
  if full r then ask_star o (ret v) (star r)
  else ret (match o with ONe | OGt | OGe => true | OEq | OLt | OLe => false end)).

(** ** Variants: index and value *)
(** variant.hpp:152-158 compare *)
Definition st_compare (o : op) (l r : nat * A) : M calls bool := noexcept (ask o l.2 r.2).
(** variant.hpp:325-328, 331-334 *)
Definition var_eq (l r : nat * A) : M calls bool := noexcept (
  if negb (l.1 =? r.1) then ret false else st_compare OEq l r).
Definition var_ne (l r : nat * A) : M calls bool := noexcept (
  if negb (l.1 =? r.1) then ret true else st_compare ONe l r).
(** variant.hpp:338-342, 345-349 *)
Definition var_lt (l r : nat * A) : M calls bool := noexcept (
  if l.1 <? r.1 then ret true else if r.1 <? l.1 then ret false else st_compare OLt l r).
Definition var_le (l r : nat * A) : M calls bool := noexcept (
  if l.1 <? r.1 then ret true else if r.1 <? l.1 then ret false else st_compare OLe l r).
(** variant.hpp:352-356, 359-363 *)
Definition var_gt (l r : nat * A) : M calls bool := noexcept (
  if r.1 <? l.1 then ret true else if l.1 <? r.1 then ret false else st_compare OGt l r).
Definition var_ge (l r : nat * A) : M calls bool := noexcept (
  if r.1 <? l.1 then ret true else if l.1 <? r.1 then ret false else st_compare OGe l r).

(** ** Comparisons as the caller writes them: which of the functions is selected *)
Inductive operands :=
  | Seqs (a b : list A)              (* two vectors, or two arrays *)
  | Tuples (a b : list A)
  | Opts (a b : option A) | OptVal (a : option A) (b : A) | ValOpt (a : A) (b : option A)
  | Vars (a b : nat * A).
Definition compare (o : op) (p : operands) : M calls bool :=
  match p with
  | Seqs a b => match o with OLt => seq_lt | OLe => seq_le | OGt => seq_gt | OGe => seq_ge | OEq => seq_eq | ONe => seq_ne end a b
  | Tuples a b => match o with OLt => tup_lt | OLe => tup_le | OGt => tup_gt | OGe => tup_ge | OEq => tup_eq | ONe => tup_ne end a b
  | Opts a b => match o with OLt => oo_lt | OLe => oo_le | OGt => oo_gt | OGe => oo_ge | OEq => oo_eq | ONe => oo_ne end a b
  | OptVal a b => ov o a b
  | ValOpt a b => vo o a b
  | Vars a b => match o with OLt => var_lt | OLe => var_le | OGt => var_gt | OGe => var_ge | OEq => var_eq | ONe => var_ne end a b
  end.
End model.

(** ** Which comparisons compile: result types of the element operators *)

(** the type of an expression, as far as it matters: bool (also const or by reference), another
    arithmetic type, or a class with (implicit, only explicit) conversion to bool and
    possibly with an implicit conversion from bool *)
Inductive ety := EBool | EArith | EClass (implicit explicit from_bool : bool).
(** return e; in a function that returns bool *)
Definition returns_bool (t : ety) : bool := match t with EBool | EArith => true | EClass i _ _ => i end.
(** if(e), e ? a : b, e || f, !e; no operators ! and || are overloaded *)
Definition tests (t : ety) : bool := match t with EBool | EArith => true | EClass i e _ => i || e end.
(** c ? e : b where b is of type bool, [expr.cond]: one operand is converted to the type of the
    other if that is possible in exactly one direction *)
Definition cond_bool (t : ety) : option ety :=
  match t with
  | EBool => Some EBool | EArith => Some EArith
  | EClass true _ false => Some EBool
  | EClass false e true => Some (EClass false e true)
  | EClass _ _ _ => None
  end.
(** +[](...) noexcept { return e; } converted to bool( * )(...) noexcept: the types must be the
    same *)
Definition points_to_bool (t : ety) : bool := match t with EBool => true | _ => false end.

(** the element types with the result types of their operators; [None]: no such operator *)
Class OpTypes := { T : Type; op_type : op → T → option ety }.

Section compiles.
Context `{OT : OpTypes}.
Definition uses (o : op) (t : T) (f : ety → bool) : bool := match op_type o t with Some e => f e | None => false end.
(** std::equal and std::lexicographical_compare: the standard requires a result convertible to
    bool; vector.hpp:382, 390, array.hpp:256, 263 *)
Definition c_seq_eq (t : T) : bool := uses OEq t returns_bool.
Definition c_seq_lt (t : T) : bool := uses OLt t returns_bool.
(** vector.hpp:384-392, array.hpp:259-272 *)
Definition c_seq (o : op) (t : T) : bool :=
  match o with OEq | ONe => c_seq_eq t | OLt | OGt | OLe | OGe => c_seq_lt t end.
(** tuple.hpp:69-72 equal, less; 113-131 *)
Fixpoint c_st_equal (ts : list T) : bool := match ts with [] => true | t :: ts' => uses OEq t tests && c_st_equal ts' end.
Fixpoint c_st_less (ts : list T) : bool := match ts with [] => true | t :: ts' => uses OLt t tests && c_st_less ts' end.
Definition c_tup (o : op) (ts : list T) : bool :=
  match o with OEq | ONe => c_st_equal ts | OLt | OGt | OLe | OGe => c_st_less ts end.
(** optional.hpp:193-233 return *lhs @ *rhs; *)
Definition c_opts (o : op) (t : T) : bool := uses o t returns_bool.
(** optional.hpp:277-313 return opt ? *opt @ value : b; *)
Definition c_optval (o : op) (t : T) : bool :=
  uses o t (λ e, match cond_bool e with Some e' => returns_bool e' | None => false end).
(** variant.hpp:152-158 the table has an entry for every alternative; 323-363 *)
Fixpoint c_table (o : op) (ts : list T) : bool := match ts with [] => true | t :: ts' => uses o t points_to_bool && c_table o ts' end.
Definition c_vars (o : op) (ts : list T) : bool := c_table o ts.

Inductive container := CSeq (t : T) | CTuple (ts : list T) | COpts (t : T) | COptVal (t : T) | CVars (ts : list T).
Definition compiles (o : op) (c : container) : bool :=
  match c with
  | CSeq t => c_seq o t | CTuple ts => c_tup o ts | COpts t => c_opts o t | COptVal t => c_optval o t | CVars ts => c_vars o ts
  end.
End compiles.
