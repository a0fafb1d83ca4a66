(** C101: functions that are noexcept do not end the program. *)
From stdpp Require Import prelude.
From Verif Require Import NoexceptModel.

Local Instance kind_eq : EqDecision kind. Proof. solve_decision. Defined.
Local Instance op_eq : EqDecision op. Proof. solve_decision. Defined.

(** ** Specification *)
(** the calls of a program, with what decides their course *)
Inductive call :=
| OReset (x : bool) | OAssignNull (x : bool) | ODestroy (x : bool) | OMove (y : bool) | OFromValue
| OAssignValue (x : bool) | OMoveAssign (same x y : bool) | OSwap (same x y : bool)
| VarMove (j : nat) | VarDestroy (i : nat) | VarMoveAssign (same : bool) (i j : nat)
| VarCopyAssign (same : bool) (i j : nat) | VarAssignValue (i j : nat)
| VarEmplace (nothrow_constructible : bool) (i j : nat) | VarSwap (same : bool) (i j : nat)
| VecMove | VecDestroy (n : nat) | VecMoveAssign (same : bool) (n : nat) | VecSwap | VecPopBack
| VecClear (n : nat) | VecErase (k n : nat)
| ArrSwap (n : nat) | TupSwap (k : nat)
| RefRange | RefOptional (has : bool).

Definition execute `{Types, World} (c : call) : M :=
  match c with
  | OReset x => o_reset x | OAssignNull x => o_assign_null x | ODestroy x => o_destroy x
  | OMove y => o_move y | OFromValue => o_from_value | OAssignValue x => o_assign_value x
  | OMoveAssign s x y => o_move_assign s x y | OSwap s x y => o_swap s x y
  | VarMove j => var_move j | VarDestroy i => var_dtor i | VarMoveAssign s i j => var_move_assign s i j
  | VarCopyAssign s i j => var_copy_assign s i j | VarAssignValue i j => var_assign_value i j
  | VarEmplace b i j => var_emplace b i j | VarSwap s i j => var_swap s i j
  | VecMove => vec_move | VecDestroy n => vec_dtor n | VecMoveAssign s n => vec_move_assign s n
  | VecSwap => vec_swap | VecPopBack => vec_pop_back | VecClear n => vec_clear n | VecErase k n => vec_erase k n
  | ArrSwap n => arr_swap n | TupSwap k => tup_swap k
  | RefRange => ref_range | RefOptional b => ref_optional b
  end.

(** the static_asserts of the class hold for its types *)
Definition accepted `{Types} (c : call) : Prop :=
  match c with
  | VarMove _ | VarDestroy _ | VarMoveAssign _ _ _ | VarCopyAssign _ _ _ | VarAssignValue _ _
  | VarEmplace _ _ _ | VarSwap _ _ _ => ∀ i, variant_asserts i = true
  | TupSwap _ => ∀ i, element_asserts i = true
  | RefRange | RefOptional _ => True
  | _ => element_asserts 0 = true
  end.

(** operations that run inside a noexcept function and that no static_assert is about *)
Definition braced `{Types} (i : nat) : list op := if list_from_self i then [Op i ListCtor] else [].
Definition unchecked `{Types} (c : call) : list op :=
  match c with
  | OMove true | OFromValue | OAssignValue false | OMoveAssign false false true
  | OSwap false true false | OSwap false false true => braced 0
  | VarMove j | VarMoveAssign false _ j | VarCopyAssign false _ j | VarAssignValue _ j
  | VarEmplace false _ j => braced j
  | VarSwap false i j => if decide (i = j) then [] else braced i ++ braced j
  | RefRange => [Op 0 Data; Op 0 Size]
  | RefOptional has => Op 0 ToBool :: if has then [Op 0 Deref] else []
  | _ => []
  end.
(** some execution of the call ends the program *)
Definition can_terminate (T : Types) (c : call) : Prop := ∃ W n, possible T W ∧ execute c n = Terminated.

(** ** Proofs *)
Section proofs.
Context {T : Types} {W : World}.
Definition safe (p : M) : Prop := ∀ n, ∃ n', p n = Ok n'.

Lemma safe_ret : safe ret. Proof. intros n. by exists n. Qed.
Lemma safe_run o : possible T W → nothrow o = true → safe (run o).
Proof.
  intros Hp Ho n. unfold run. destruct (throws n o) eqn:E; [|by eexists].
  apply Hp in E. congruence.
Qed.
Lemma safe_then p q : safe p → safe q → safe (then_ p q).
Proof. intros Hp Hq n. unfold then_. destruct (Hp n) as [n' ->]. apply Hq. Qed.
Lemma safe_noexcept p : safe p → safe (noexcept p).
Proof. intros Hp n. unfold noexcept. destruct (Hp n) as [n' ->]. by eexists. Qed.
Lemma safe_times k p : safe p → safe (times k p).
Proof. intros Hp. induction k as [|k IH]; [apply safe_ret|]. by apply safe_then. Qed.
Lemma safe_not p : safe p → ∀ n, p n ≠ Terminated.
Proof. intros Hp n. destruct (Hp n) as [n' ->]. done. Qed.
Lemma run_then_not o q : safe q → ∀ n, then_ (run o) q n ≠ Terminated.
Proof. intros Hq n. unfold then_, run. destruct (throws n o); [done|]. by apply safe_not. Qed.
Lemma then_run_not o q : safe q → ∀ n, then_ q (run o) n ≠ Terminated.
Proof. intros Hq n. unfold then_, run. destruct (Hq n) as [n' ->]. by destruct (throws n' o). Qed.

Lemma variant_ops i : variant_asserts i = true →
  nothrow (Op i MoveCtor) = true ∧ nothrow (Op i Destroy) = true ∧ nothrow (Op i SwapCall) = true.
Proof. unfold variant_asserts, nothrow_move_constructible. rewrite !andb_true_iff. tauto. Qed.
Lemma element_ops i : element_asserts i = true →
  nothrow (Op i MoveCtor) = true ∧ nothrow (Op i MoveAssign) = true
  ∧ nothrow (Op i Destroy) = true ∧ nothrow (Op i SwapCall) = true.
Proof. unfold element_asserts, nothrow_move_constructible. rewrite !andb_true_iff. tauto. Qed.

Lemma safe_brace i : possible T W → nothrow (Op i MoveCtor) = true →
  (∀ o, o ∈ braced i → nothrow o = true) → safe (brace_move i).
Proof.
  intros Hp Hm Hb. apply safe_run; [done|]. unfold braced in Hb. destruct (list_from_self i); [|done].
  apply Hb. left.
Qed.

Lemma safe_tup_swap k : ∀ i, possible T W → (∀ j, nothrow (Op j SwapCall) = true) → safe (tup_swap_from k i).
Proof.
  induction k as [|k IH]; intros i Hp Hs; cbn [tup_swap_from]; apply safe_noexcept; [apply safe_ret|].
  apply safe_then; [by apply safe_run|by apply IH].
Qed.

Ltac safety := repeat first
  [ apply safe_ret | apply safe_noexcept | apply safe_then | apply safe_times
  | apply safe_brace; [done|done|done] | apply safe_run; [done|done] ].

Lemma checked_not c n : possible T W → accepted c → (∀ o, o ∈ unchecked c → nothrow o = true) →
  execute c n ≠ Terminated.
Proof.
  intros Hp Ha Hu.
  destruct c; cbn [accepted execute unchecked] in *;
    try (apply element_ops in Ha as (? & ? & ? & ?)).
  1-8: apply safe_not; unfold o_assign_null, o_destroy, o_move, o_from_value, o_move_assign, o_swap, o_assign_value, o_reset,
      destroy_at, swap_values;
    repeat match goal with b : bool |- _ => destruct b end; safety.
  1-7: match type of Ha with ∀ i, variant_asserts i = true =>
      pose proof (λ i, proj1 (variant_ops i (Ha i))) as Hm;
      pose proof (λ i, proj1 (proj2 (variant_ops i (Ha i)))) as Hd;
      pose proof (λ i, proj2 (proj2 (variant_ops i (Ha i)))) as Hs end.
  - apply safe_not. unfold var_move, var_assign. safety.
  - apply safe_not. unfold var_dtor, var_destroy, destroy_at. safety.
  - apply safe_not. unfold var_move_assign, var_destroy, var_assign, destroy_at. destruct same; safety.
  - unfold var_copy_assign. destruct same; [apply safe_not, safe_ret|].
    apply run_then_not. unfold var_dtor, var_destroy, var_assign, destroy_at. safety.
  - unfold var_assign_value. apply run_then_not.
    unfold var_move_assign, var_dtor, var_destroy, var_assign, destroy_at. safety.
  - unfold var_emplace. destruct nothrow_constructible.
    + apply then_run_not. unfold var_destroy, destroy_at. safety.
    + apply run_then_not. unfold var_move_assign, var_dtor, var_destroy, var_assign, destroy_at. safety.
  - apply safe_not. unfold var_swap. destruct same; [safety|].
    destruct (decide (i = j)) as [<-|Hij].
    + rewrite Nat.eqb_refl. unfold swap_values. safety.
    + rewrite (proj2 (Nat.eqb_neq i j)) by done.
      assert (safe (brace_move i)).
      { apply safe_brace; [done|done|]. intros o Ho. apply Hu, elem_of_app. by left. }
      assert (safe (brace_move j)).
      { apply safe_brace; [done|done|]. intros o Ho. apply Hu, elem_of_app. by right. }
      unfold var_move, var_move_assign, var_dtor, var_destroy, var_assign, destroy_at.
      repeat first [apply safe_noexcept | apply safe_then | done | apply safe_run; [done|done]].
  - apply safe_not. unfold vec_move. safety.
  - apply safe_not. unfold vec_dtor, destroy_at. safety.
  - apply safe_not. unfold vec_move_assign, destroy_at. destruct same; safety.
  - apply safe_not. unfold vec_swap. safety.
  - apply safe_not. unfold vec_pop_back, destroy_at. safety.
  - apply safe_not. unfold vec_clear, destroy_at. safety.
  - apply safe_not. unfold vec_erase, destroy_at. safety.
  - apply safe_not. unfold arr_swap, swap_values. safety.
  - apply safe_not. unfold tup_swap. apply safe_noexcept, safe_tup_swap; [done|].
    intros j. by destruct (element_ops j (Ha j)) as (? & ? & ? & ?).
  - apply safe_not. unfold ref_range.
    apply safe_noexcept, safe_then; (apply safe_run; [done|]); apply Hu; [left|right; left].
  - apply safe_not. unfold ref_optional.
    apply safe_noexcept, safe_then; [apply safe_run; [done|apply Hu; left]|].
    destruct has; [|safety]. apply safe_run; [done|]. apply Hu. right. left.
Qed.
End proofs.

(** the execution in which exactly [o] throws *)
Definition only (o : op) : World := {| throws := λ _ o', bool_decide (o' = o) |}.
Lemma only_possible (T : Types) o : nothrow o = false → possible T (only o).
Proof. intros Ho n o'. cbn. by case_bool_decide; subst. Qed.

Lemma run_only `{T : Types} o o' n : run (W := only o) o' n = if decide (o' = o) then Thrown (S n) else Ok (S n).
Proof. unfold run. cbn [throws only]. by case_bool_decide; [rewrite decide_True|rewrite decide_False]. Qed.
Lemma brace_only `{T : Types} i j n : list_from_self i = true →
  brace_move (W := only (Op i ListCtor)) j n = if decide (j = i) then Thrown (S n) else Ok (S n).
Proof.
  intros Hi. unfold brace_move. rewrite run_only.
  destruct (decide (j = i)) as [->|Hne]; [by rewrite Hi, decide_True|].
  rewrite decide_False; [done|]. by intros [=].
Qed.

Ltac brace_case Ho :=
  match type of Ho with
  | _ ∈ braced ?i => unfold braced in Ho; destruct (list_from_self i) eqn:?; [|by apply elem_of_nil in Ho];
      apply elem_of_list_singleton in Ho as ->
  end.
Ltac runs := unfold noexcept, then_;
  repeat first [ rewrite brace_only by done | rewrite run_only | rewrite decide_True by done
               | rewrite decide_False by done ]; try done.

Lemma unchecked_terminates (T : Types) c o n : o ∈ unchecked c →
  execute (H0 := only o) c n = Terminated.
Proof.
  intros Ho. destruct c; cbn [unchecked execute] in *;
    repeat match goal with b : bool |- _ => destruct b end; try (by apply elem_of_nil in Ho);
    try (brace_case Ho).
  1-6: unfold o_move, o_from_value, o_assign_value, o_move_assign, o_swap, o_assign_value; runs.
  - unfold var_move, var_assign. runs.
  - unfold var_move_assign, var_destroy, var_assign, destroy_at. runs.
  - unfold var_copy_assign, var_destroy, var_assign, destroy_at. runs.
  - unfold var_assign_value, var_move_assign, var_destroy, var_assign, destroy_at. runs.
  - unfold var_emplace, var_move_assign, var_destroy, var_assign, destroy_at. runs.
  - destruct (decide (i = j)) as [<-|Hij]; [by apply elem_of_nil in Ho|].
    unfold var_swap. rewrite (proj2 (Nat.eqb_neq i j)) by done.
    unfold var_move, var_move_assign, var_dtor, var_destroy, var_assign, destroy_at.
    apply elem_of_app in Ho as [Ho|Ho]; brace_case Ho; runs.
  - unfold ref_range. apply elem_of_cons in Ho as [->|Ho]; [runs|].
    apply elem_of_list_singleton in Ho as ->. runs.
  - unfold ref_optional. apply elem_of_cons in Ho as [->|Ho]; [runs|].
    apply elem_of_list_singleton in Ho as ->. runs.
  - unfold ref_optional. apply elem_of_list_singleton in Ho as ->. runs.
Qed.

(** ** C101 *)
(** If what the static_asserts leave open does not throw, no call ends the program: neither those of noexcept
    functions nor those of others that run noexcept functions. *)
Theorem C101_partial (T : Types) (W : World) (c : call) (n : nat) :
  possible T W → accepted c → (∀ o, o ∈ unchecked c → nothrow o = true) → execute c n ≠ Terminated.
Proof. apply checked_not. Qed.

(** And exactly then: each operation that may throw and that no static_assert forbids ends the program when it does. *)
Theorem C101_exact_partial (T : Types) (c : call) : accepted c →
  can_terminate T c ↔ ∃ o, o ∈ unchecked c ∧ nothrow o = false.
Proof.
  intros Ha. split.
  - intros (W & n & Hp & Ht).
    destruct (decide (Exists (λ o, nothrow o = false) (unchecked c))) as [He|He].
    + by apply Exists_exists in He.
    + exfalso. apply (checked_not c n Hp Ha); [|done]. intros o Ho.
      destruct (nothrow o) eqn:E; [done|]. exfalso. apply He, Exists_exists. by exists o.
  - intros (o & Ho & Hn). exists (only o), 0. split; [by apply only_possible|by apply unchecked_terminates].
Qed.

(** Vectors, arrays and tuples need no more than their static_asserts. *)
Theorem C101_containers (T : Types) (c : call) :
  accepted c → match c with VecMove | VecDestroy _ | VecMoveAssign _ _ | VecSwap | VecPopBack | VecClear _
    | VecErase _ _ | ArrSwap _ | TupSwap _ => True | _ => False end →
  ¬ can_terminate T c.
Proof.
  intros Ha Hc. rewrite (C101_exact_partial T c Ha). intros (o & Ho & _).
  destruct c; try done; by apply elem_of_nil in Ho.
Qed.

(** Exceptions of constructors that run outside of noexcept functions reach the caller. *)
Theorem C101_reach (T : Types) (W : World) (i j n : nat) :
  throws n (Op j Construct) = true →
  execute (VarCopyAssign false i j) n = Thrown (S n) ∧ execute (VarAssignValue i j) n = Thrown (S n)
  ∧ execute (VarEmplace false i j) n = Thrown (S n).
Proof.
  intros Ht. cbn [execute]. unfold var_copy_assign, var_assign_value, var_emplace, then_, run. by rewrite Ht.
Qed.

(** a type like std::vector<std::any>: the move constructor, the assignment, the destructor and swap are
    noexcept, but T{std::move(t)} makes a vector of one std::any, which allocates *)
Definition any_vector : Types :=
  {| list_from_self := λ _, true;
     nothrow := λ o, match op_kind o with ListCtor | Construct => false | _ => true end |}.
(** a range whose size() and an optional whose conversion to bool are not noexcept *)
Definition checked_view : Types :=
  {| list_from_self := λ _, false;
     nothrow := λ o, match op_kind o with Size | ToBool => false | _ => true end |}.

(** The full claim, that accepted calls never end the program, is false: of moving and swapping optionals and
    variants, of assigning variants by functions that may throw, and of constructing the views. *)
Theorem C101_refuted : ∃ T : Types,
  (accepted (OMove true) ∧ can_terminate T (OMove true))
  ∧ (accepted (OSwap false true false) ∧ can_terminate T (OSwap false true false))
  ∧ (accepted (VarMoveAssign false 0 1) ∧ can_terminate T (VarMoveAssign false 0 1))
  ∧ (accepted (VarCopyAssign false 0 1) ∧ can_terminate T (VarCopyAssign false 0 1))
  ∧ (accepted (VarSwap false 0 1) ∧ can_terminate T (VarSwap false 0 1)).
Proof.
  exists any_vector. repeat match goal with |- _ ∧ _ => split end; try done;
    (apply C101_exact_partial; [done|]).
  1-2: exists (Op 0 ListCtor); split; [left|done].
  1-2: exists (Op 1 ListCtor); split; [left|done].
  exists (Op 0 ListCtor). split; [left|done].
Qed.
Theorem C101_views_refuted : ∃ T : Types,
  (accepted RefRange ∧ can_terminate T RefRange)
  ∧ (∀ has, accepted (RefOptional has) ∧ can_terminate T (RefOptional has)).
Proof.
  exists checked_view. split; [|intros has]; (split; [done|]); (apply C101_exact_partial; [done|]).
  - exists (Op 0 Size). split; [right; left|done].
  - exists (Op 0 ToBool). split; [left|done].
Qed.

(** ** Examples *)
(** an execution with a type whose move constructor is what T{std::move(t)} takes *)
Definition plain : Types :=
  {| list_from_self := λ _, false; nothrow := λ o, match op_kind o with Construct => false | _ => true end |}.
Definition third : World := {| throws := λ n o, (n =? 2) && bool_decide (op_kind o = Construct) |}.
Example C101_partial_case :
  possible plain third ∧ accepted (H := plain) (VarSwap false 0 1)
  ∧ execute (H := plain) (H0 := third) (VarSwap false 0 1) 0 = Ok 6
  ∧ execute (H := plain) (H0 := third) (VarCopyAssign false 0 1) 2 = Thrown 3
  ∧ execute (H := plain) (H0 := third) (VecErase 2 3) 0 = Ok 5.
Proof.
  split; [|done]. intros n o. cbn. rewrite andb_true_iff, bool_decide_eq_true. by intros [_ ->].
Qed.
Example C101_exact_case :
  execute (H := any_vector) (H0 := only (Op 1 ListCtor)) (VarSwap false 0 1) 0 = Terminated
  ∧ execute (H := any_vector) (H0 := only (Op 1 ListCtor)) (VarSwap false 0 2) 0 = Ok 6
  ∧ execute (H := any_vector) (H0 := only (Op 0 ListCtor)) (OMoveAssign false true true) 0 = Ok 1
  ∧ execute (H := any_vector) (H0 := only (Op 0 ListCtor)) (OMoveAssign false false true) 0 = Terminated.
Proof. done. Qed.
Example C101_containers_case :
  accepted (H := any_vector) (VecErase 2 3)
  ∧ execute (H := any_vector) (H0 := only (Op 0 ListCtor)) (VecErase 2 3) 7 = Ok 12.
Proof. done. Qed.
Example C101_reach_case : execute (H := plain) (H0 := third) (VarEmplace false 0 1) 2 = Thrown 3.
Proof. apply (C101_reach plain third 0 1 2). done. Qed.

Print Assumptions C101_partial.
Print Assumptions C101_exact_partial.
Print Assumptions C101_containers.
Print Assumptions C101_reach.
Print Assumptions C101_refuted.
Print Assumptions C101_views_refuted.
