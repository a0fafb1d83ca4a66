(** Model of exceptions inside functions that are noexcept: which operations of element types and of
    arguments they run. An exception that leaves such a function ends the program ([except.spec]).

    Simplified: only what may throw is there, the values are in the models of each header; comparisons are
    in CompareCalls.v, shrink_to_fit in VectorModel.v, calls of function_ref in FunctionArgs.v. *)
From stdpp Require Import prelude.

(** operations of types: whatever constructs a T from other arguments, T(T &&), a constructor of T that takes a std::initializer_list, operator=(T &&),
    ~T(), swap(T &, T &) as found by unqualified lookup; of arguments: std::data, std::size, the
    conversion to bool, operator* *)
Inductive kind := Construct | MoveCtor | ListCtor | MoveAssign | Destroy | SwapCall | Data | Size | ToBool | Deref.
(** which type (the number of the alternative for variants, 0 otherwise), and what *)
Record op := Op { op_type : nat; op_kind : kind }.

(** the types: [list_from_self i]: T{std::move(t)} takes a std::initializer_list constructor, which
    [over.match.list] prefers to the move constructor; [nothrow o]: [o] is noexcept *)
Class Types := { list_from_self : nat → bool; nothrow : op → bool }.
(** an execution: whether the n-th operation throws; those that are noexcept never do *)
Class World := { throws : nat → op → bool }.
Definition possible (T : Types) (W : World) : Prop := ∀ n o, throws n o = true → nothrow o = false.

Section model.
Context `{T : Types, W : World}.
Inductive outcome := Ok (n : nat) | Thrown (n : nat) | Terminated.
(** operations are numbered in the order of execution *)
Definition M := nat → outcome.
Definition ret : M := Ok.
Definition then_ (p q : M) : M := λ n, match p n with Ok n' => q n' | r => r end.
Notation "p ;;; q" := (then_ p q) (at level 100, right associativity).
Definition run (o : op) : M := λ n, if throws n o then Thrown (S n) else Ok (S n).
Definition noexcept (p : M) : M := λ n, match p n with Thrown _ => Terminated | r => r end.
Fixpoint times (k : nat) (p : M) : M := match k with 0 => ret | S k' => p ;;; times k' p end.

(** new(p) Type{std::move(x)} *)
Definition brace_move (i : nat) : M := run (Op i (if list_from_self i then ListCtor else MoveCtor)).
Definition destroy_at (i : nat) : M := run (Op i Destroy).
(** using std::swap; swap(x, y) *)
Definition swap_values (i : nat) : M := run (Op i SwapCall).

(** ** optional: whether there is a value *)
(** optional.hpp:150-155 reset() *)
Definition o_reset (x : bool) : M := noexcept (if x then destroy_at 0 else ret).
(** optional.hpp:52-55 operator=(std::nullopt_t); 94 ~optional() *)
Definition o_assign_null (x : bool) : M := noexcept (o_reset x).
Definition o_destroy (x : bool) : M := noexcept (o_reset x).
(** optional.hpp:39 optional(optional &&); 44 optional(Type &&) *)
Definition o_move (y : bool) : M := noexcept (if y then brace_move 0 else ret).
Definition o_from_value : M := noexcept (brace_move 0).
(** optional.hpp:84-91 operator=(Type &&) *)
Definition o_assign_value (x : bool) : M := noexcept (if x then run (Op 0 MoveAssign) else brace_move 0).
(** optional.hpp:66-72 operator=(optional &&), [same]: of the object itself *)
Definition o_move_assign (same x y : bool) : M :=
  noexcept (if same then ret else if y then o_assign_value x else o_reset x).
(** optional.hpp:169-186 swap *)
Definition o_swap (same x y : bool) : M := noexcept (
  if same then ret else
  match x, y with
  | false, false => ret
  | true, false => brace_move 0 ;;; destroy_at 0
  | false, true => brace_move 0 ;;; destroy_at 0
  | true, true => swap_values 0
  end).

(** ** variant: the number of its alternative *)
(** variant.hpp:133-143 assign<true>, 44-49 set *)
Definition var_assign (j : nat) : M := noexcept (brace_move j).
(** variant.hpp:146-150, 53-56 destroy *)
Definition var_destroy (i : nat) : M := noexcept (destroy_at i).
(** variant.hpp:208 variant(variant &&); 248 ~variant() *)
Definition var_move (j : nat) : M := noexcept (var_assign j).
Definition var_dtor (i : nat) : M := noexcept (var_destroy i).
(** variant.hpp:232-239 operator=(variant &&) *)
Definition var_move_assign (same : bool) (i j : nat) : M :=
  noexcept (if same then ret else var_destroy i ;;; var_assign j).
(** variant.hpp:223-231 operator=(const variant &); 241-246 operator=(T &&); 252-264 emplace. These are not
    noexcept, but after they have constructed a temporary variant they run functions that are *)
Definition var_copy_assign (same : bool) (i j : nat) : M :=
  if same then ret else run (Op j Construct) ;;; var_destroy i ;;; var_assign j ;;; var_dtor j.
Definition var_assign_value (i j : nat) : M := run (Op j Construct) ;;; var_move_assign false i j ;;; var_dtor j.
Definition var_emplace (nothrow_constructible : bool) (i j : nat) : M :=
  if nothrow_constructible then var_destroy i ;;; run (Op j Construct)
  else run (Op j Construct) ;;; var_move_assign false i j ;;; var_dtor j.
(** variant.hpp:315-319, 162-169 swap; std::swap moves by a third variant *)
Definition var_swap (same : bool) (i j : nat) : M := noexcept (
  if same then ret else if i =? j then noexcept (swap_values i) else
  var_move i ;;; var_move_assign false i j ;;; var_move_assign false j i ;;; var_dtor i).

(** ** vector: the number of elements *)
(** vector.hpp:70-74, 255 ~vector(); 56-68, 254 operator=(vector &&) *)
Definition vec_dtor (n : nat) : M := noexcept (times n (destroy_at 0)).
Definition vec_move_assign (same : bool) (n : nat) : M := noexcept (if same then ret else times n (destroy_at 0)).
(** vector.hpp:249, 54 vector(vector &&); 84-89, 376 swap *)
Definition vec_move : M := noexcept ret.
Definition vec_swap : M := noexcept ret.
(** vector.hpp:303-306 pop_back; 328-331 clear *)
Definition vec_pop_back : M := noexcept (destroy_at 0).
Definition vec_clear (n : nat) : M := noexcept (times n (destroy_at 0)).
(** vector.hpp:341-347 erase of [k] elements with [n] behind them *)
Definition vec_erase (k n : nat) : M := noexcept (times n (run (Op 0 MoveAssign)) ;;; times k (destroy_at 0)).

(** ** array, tuple *)
(** array.hpp:249 swap: std::swap_ranges *)
Definition arr_swap (n : nat) : M := noexcept (times n (swap_values 0)).
(** tuple.hpp:63-67, 108 swap, of components [i], [i + 1], ... *)
Fixpoint tup_swap_from (k i : nat) : M :=
  noexcept (match k with 0 => ret | S k' => swap_values i ;;; tup_swap_from k' (S i) end).
Definition tup_swap (k : nat) : M := noexcept (tup_swap_from k 0).

(** ** Views of arguments *)
(** array_ref.hpp:192 array_ref(ContiguousRange &&) *)
Definition ref_range : M := noexcept (run (Op 0 Data) ;;; run (Op 0 Size)).
(** optional_ref.hpp:83 optional_ref(Optional &), [has]: what the conversion to bool returns *)
Definition ref_optional (has : bool) : M := noexcept (run (Op 0 ToBool) ;;; if has then run (Op 0 Deref) else ret).

(** ** Requirements of the classes *)
(** std::is_nothrow_move_constructible_v, which is about T(std::move(t)) and the destructor, and the like *)
Definition nothrow_move_constructible (i : nat) : bool := nothrow (Op i MoveCtor) && nothrow (Op i Destroy).
(** variant.hpp:184-187 *)
Definition variant_asserts (i : nat) : bool :=
  nothrow_move_constructible i && nothrow (Op i Destroy) && nothrow (Op i SwapCall).
(** array.hpp:34-38, optional.hpp:20-24, vector.hpp:23-27, tuple.hpp:19-23 *)
Definition element_asserts (i : nat) : bool :=
  nothrow_move_constructible i && nothrow (Op i MoveAssign) && nothrow (Op i Destroy) && nothrow (Op i SwapCall).
End model.
Notation "p ;;; q" := (then_ p q) (at level 100, right associativity).
