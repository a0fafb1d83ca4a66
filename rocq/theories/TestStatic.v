(** The static_asserts of /repo/test, checked in the models: sizes, the types of get, what class template argument
    deduction deduces. They are a check of the models against what the authors expect of the code; the properties
    are in LayoutProps.v, BindingProps.v, GuideProps.v, ArrayRefCtorProps.v, OptionalRefCtorProps.v and
    FunctionRefCtorProps.v. *)
From stdpp Require Import prelude.
From Coq Require Import ZArith NArith.
From Verif Require LayoutModel BindingModel GuideModel GuideProps ArrayRefCtor OptionalRefCtor FunctionRefCtor.
Local Open Scope nat_scope.

(** ** Sizes on a 64-bit platform and on a 32-bit one *)
Import LayoutModel.
Definition size_tests (w : Target) : Prop :=
  let char := UChar in let short := Opaque 2 2 true in let int := Opaque 4 4 true in
  let long := Opaque word word true in let long_long := Opaque 8 8 true in
  (* test/array.cpp:10-11 *)
  sizeof (array_t int 10) = (10 * sizeof int)%N ∧ sizeof (array_t int 0) = sizeof Ptr
  (* test/optional.cpp:12-16 *)
  ∧ forallb (λ t, sizeof (optional_t t) =? sizeof t + sizeof char)%N [char; short; int; long; long_long] = true
  (* test/tuple.cpp:10-12 *)
  ∧ sizeof (tuple_t []) = sizeof char
  ∧ sizeof (tuple_t [char; int]) = (sizeof char + sizeof int)%N
  ∧ sizeof (tuple_t [long; char; int]) = (sizeof long + sizeof char + sizeof int)%N
  (* test/variant_ref.cpp:14, 29, 38 *)
  ∧ forallb (λ n, sizeof (variant_ref_t n) =? sizeof Ptr * 2)%N [3; 2; 2] = true
  (* test/function_ref.cpp:10-13 *)
  ∧ sizeof function_ref_t = (sizeof Ptr * 2)%N.
Example sizes_64 : size_tests {| word := 8%N; max_align := 16%N |}.
Proof. by vm_compute. Qed.
Example sizes_32 : size_tests {| word := 4%N; max_align := 8%N |}.
Proof. by vm_compute. Qed.

(** ** test/tuple.cpp:14-21 the types of get of tuple<int, float> *)
Inductive num := Int | Float | Bool.
#[local] Instance num_dec : EqDecision num.
Proof. solve_decision. Defined.
#[local] Instance bind : BindingModel.BindLang :=
  { BindingModel.B := num; BindingModel.bool_ := Bool; BindingModel.copies := λ _ _ _, true;
    BindingModel.V := Z; BindingModel.moved := id }.
Definition got (const : bool) (c : BindingModel.category) (i : nat) : option (BindingModel.ety num * BindingModel.category) :=
  (λ e, (BindingModel.g_ty e, BindingModel.g_cat e)) <$>
  BindingModel.get (L := bind) (BindingModel.CTuple [BindingModel.Ety Int false; BindingModel.Ety Float false]) const c i.
Example tuple_get_types :
  got false BindingModel.LValue 0 = Some (BindingModel.Ety Int false, BindingModel.LValue)
  ∧ got true BindingModel.LValue 0 = Some (BindingModel.Ety Int true, BindingModel.LValue)
  ∧ got false BindingModel.XValue 0 = Some (BindingModel.Ety Int false, BindingModel.XValue)
  ∧ got true BindingModel.XValue 0 = Some (BindingModel.Ety Int true, BindingModel.XValue)
  ∧ got false BindingModel.LValue 1 = Some (BindingModel.Ety Float false, BindingModel.LValue)
  ∧ got true BindingModel.LValue 1 = Some (BindingModel.Ety Float true, BindingModel.LValue)
  ∧ got false BindingModel.XValue 1 = Some (BindingModel.Ety Float false, BindingModel.XValue)
  ∧ got true BindingModel.XValue 1 = Some (BindingModel.Ety Float true, BindingModel.XValue).
Proof. by vm_compute. Qed.

(** ** Deduction of array, tuple and optional; the program's types are int, double (Char) and bool (Size) *)
Import GuideModel GuideProps.
Definition prv (t : ex) : GuideModel.expr ex := Expr (Plain t) false RValue.
(** test/array.cpp:12-13, 71-76 "array ctad" *)
Example array_ctad :
  array_deduce [prv Int; prv Int; prv Int; prv Int] = Some (Array (Plain Int) 4)
  ∧ array_deduce [prv Char; prv Char; prv Char] = Some (Array (Plain Char) 3)
  ∧ array_deduce [prv Int] = Some (Array (Plain Int) 1) ∧ array_deduce [prv Int; prv Int] = Some (Array (Plain Int) 2).
Proof. by vm_compute. Qed.
(** test/tuple.cpp:76-85 "tuple ctad" *)
Example tuple_ctad :
  tuple_deduce [] = Some (Tuple []) ∧ tuple_deduce [prv Int] = Some (Tuple [Plain Int])
  ∧ tuple_deduce [prv Int; prv Char] = Some (Tuple [Plain Int; Plain Char])
  ∧ tuple_deduce [prv Int; prv Char; prv Size] = Some (Tuple [Plain Int; Plain Char; Plain Size]).
Proof. by vm_compute. Qed.
(** test/optional.cpp:116-119 "optional ctad" *)
Example optional_ctad : optional_deduce [prv Int] = Some (Optional (Plain Int)).
Proof. by vm_compute. Qed.

(** ** test/array_ref.cpp:67-85 "array_ref ctad": raw arrays of int and vectors of int *)
#[local] Instance views : ArrayRefCtor.ViewLang :=
  { ArrayRefCtor.cls := unit; ArrayRefCtor.size_of := λ _, 4%Z; ArrayRefCtor.base := λ _ _, None }.
Definition int_ptr (c : bool) : ArrayRefCtor.pty views := ArrayRefCtor.Pty (tt : @ArrayRefCtor.cls views) c.
Definition raw (c : bool) : ArrayRefCtor.range views :=
  ArrayRefCtor.Range (Some (int_ptr c)) (Some (int_ptr true)) None 0 1.
Definition vec : ArrayRefCtor.range views :=
  ArrayRefCtor.Range (Some (int_ptr false)) (Some (int_ptr true)) (Some (tt : @ArrayRefCtor.cls views)) 0 1.
Example array_ref_ctad :
  fst <$> ArrayRefCtor.construct_deduced (ArrayRefCtor.Arg (raw false) false ArrayRefCtor.LValue) = Some (int_ptr false)
  ∧ fst <$> ArrayRefCtor.construct_deduced (ArrayRefCtor.Arg (raw true) true ArrayRefCtor.LValue) = Some (int_ptr true)
  ∧ fst <$> ArrayRefCtor.construct_deduced (ArrayRefCtor.Arg vec false ArrayRefCtor.LValue) = Some (int_ptr false)
  ∧ fst <$> ArrayRefCtor.construct_deduced (ArrayRefCtor.Arg vec true ArrayRefCtor.LValue) = Some (int_ptr true).
Proof. by vm_compute. Qed.

(** ** test/optional_ref.cpp:62-86 "optional_ref ctad" *)
Inductive rt := RInt | RNullopt | RPtr (c : bool) | ROpt | RRef (c : bool).
#[local] Instance rt_dec : EqDecision rt.
Proof. solve_decision. Defined.
Import OptionalRefCtor.
(** int, std::nullopt_t, int * or const int *, std::optional<int>, and optional_ref<int> or
    optional_ref<const int> *)
Definition pointee (t : cty rt) : option (cty rt) :=
  match base t with
  | RPtr c | RRef c => Some (Cty RInt c)
  | ROpt => Some (Cty RInt (cst t))
  | RInt | RNullopt => None
  end.
#[local] Instance refs : RefLang := {
  OptionalRefCtor.T := rt; nullopt_t := RNullopt;
  oref := λ u, RRef (cst u); oref_of := λ t, match t with RRef c => Some (Cty RInt c) | _ => None end;
  star := λ t, LRef <$> pointee t; star_rvalue := pointee;
  to_bool := λ t, match base t with RNullopt => false | _ => true end;
  ptr_converts := λ u v, bool_decide (base u = base v) && (negb (cst u) || cst v);
  derived := λ a b, bool_decide (a = b); converts := λ _ _ _, false }.
Definition named (t : rt) (c : bool) : expr := Expr (Cty (t : @OptionalRefCtor.T refs) c) OptionalRefCtor.LValue.
Definition to_int (c : bool) : cty (@OptionalRefCtor.T refs) := Cty (RInt : @OptionalRefCtor.T refs) c.
Example optional_ref_ctad :
  deduced_select (named RInt false) = Some (to_int false, FromObject Direct)
  ∧ deduced_select (named RInt true) = Some (to_int true, FromObject Direct)
  ∧ deduced_select (named (RPtr false) false) = Some (to_int false, FromOptional)
  ∧ deduced_select (named (RPtr true) false) = Some (to_int true, FromOptional)
  ∧ deduced_select (named ROpt false) = Some (to_int false, FromOptional)
  ∧ deduced_select (named ROpt true) = Some (to_int true, FromOptional).
Proof. by vm_compute. Qed.

(** ** test/function_ref.cpp:25-28, 69, 72: func1 and func2, the pointers to them, and the four classes *)
Inductive callable := Fun (noex : bool) | FunPtr (noex : bool) | Class (k noex : bool).
#[local] Instance calls : FunctionRefCtor.CallLang := {
  FunctionRefCtor.C := callable; FunctionRefCtor.R := unit;
  FunctionRefCtor.kind_of := λ t, match t with
    Fun _ => FunctionRefCtor.Function | FunPtr n => FunctionRefCtor.Pointer (Fun n) | Class _ _ => FunctionRefCtor.Object end;
  FunctionRefCtor.invoke := λ t k, match t with Class c _ => if k && negb c then None else Some tt | _ => Some tt end;
  FunctionRefCtor.nothrow := λ t _, match t with Fun n | FunPtr n | Class _ n => n end;
  FunctionRefCtor.is_void := λ _, false; FunctionRefCtor.converts := λ _ _, true;
  FunctionRefCtor.nothrow_converts := λ _ _, true; FunctionRefCtor.decay := id; FunctionRefCtor.decays := λ _, true }.
Definition signature (t : callable) : FunctionRefCtor.sig unit :=
  FunctionRefCtor.Sig tt false (match t with Fun n | FunPtr n | Class _ n => n end).
Definition deduced_sig (t : callable) : option (FunctionRefCtor.sig unit) :=
  FunctionRefCtor.deduce (L := calls) signature t.
Example function_ref_deduction :
  deduced_sig (Fun false) = Some (FunctionRefCtor.Sig tt false false)
  ∧ deduced_sig (FunPtr false) = Some (FunctionRefCtor.Sig tt false false)
  ∧ deduced_sig (Fun true) = Some (FunctionRefCtor.Sig tt false true)
  ∧ deduced_sig (FunPtr true) = Some (FunctionRefCtor.Sig tt false true).
Proof. by vm_compute. Qed.
(** for each signature, const or not and noexcept or not, the class with operator() const or not and noexcept or
    not: whether a function_ref can be constructed; the test asserts the last two *)
Definition constructible (gk gn ck cn : bool) : bool :=
  FunctionRefCtor.compiles (L := calls) (FunctionRefCtor.Sig (tt : @FunctionRefCtor.R calls) gk gn)
    (Class ck cn : @FunctionRefCtor.C calls) false.
Example function_ref_constructible :
  constructible false false true false = true ∧ constructible true false true false = true
  ∧ constructible false true true true = true ∧ constructible true true true true = true
  ∧ constructible false false false false = true ∧ constructible false true false true = true
  ∧ constructible true false false false = false ∧ constructible true true false true = false.
Proof. by vm_compute. Qed.
