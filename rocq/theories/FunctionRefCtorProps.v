(** C82: which callables a function_ref accepts. *)
From stdpp Require Import prelude.
From Verif Require Import FunctionRefCtor.
Local Open Scope nat_scope.

Section props.
Context `{L : CallLang}.

(** what C++ guarantees: pointers refer to functions and are invoked like these, functions are
    not const *)
Record lang_ok : Prop := {
  pointer_function : ∀ t f, kind_of t = Pointer f → kind_of f = Function;
  pointer_invoke : ∀ t f k, kind_of t = Pointer f → invoke t k = invoke f false ∧ nothrow t k = nothrow f false;
  function_invoke : ∀ t k, kind_of t = Function → invoke t k = invoke t false ∧ nothrow t k = nothrow t false;
}.
Context (Hok : lang_ok).

(** a callable fits a signature: called as const if the signature or the callable is, it returns
    what the signature says, without exceptions if that is promised *)
Definition fits (g : sig R) (t : C) (k : bool) : Prop :=
  ∃ r, invoke t (s_const g || k) = Some r ∧ (is_void (s_result g) = true ∨ converts r (s_result g) = true) ∧
    (s_noexcept g = true → nothrow t (s_const g || k) = true ∧ (is_void (s_result g) = true ∨ nothrow_converts r (s_result g) = true)).

Lemma invocable_using_iff g t k :
  is_invocable_using g t k = true ↔
  ∃ r, invoke t k = Some r ∧ (is_void (s_result g) = true ∨ converts r (s_result g) = true) ∧
    (s_noexcept g = true → nothrow t k = true ∧ (is_void (s_result g) = true ∨ nothrow_converts r (s_result g) = true)).
Proof.
  unfold is_invocable_using, is_nothrow_invocable_r, is_invocable_r.
  destruct (invoke t k) as [r|]; [|destruct (s_noexcept g); naive_solver].
  destruct (s_noexcept g); rewrite ?andb_true_iff, ?orb_true_iff, ?andb_true_iff.
  - split; [intros (? & [?|[? ?]]); exists r; naive_solver|].
    intros (? & [= <-] & H1 & H2). destruct (H2 eq_refl) as [? H3]. split; [done|]. destruct (is_void (s_result g)); [by left|].
    right. naive_solver.
  - naive_solver.
Qed.
Lemma invocable_using_ext g t u k j : invoke t k = invoke u j → nothrow t k = nothrow u j →
  is_invocable_using g t k = is_invocable_using g u j.
Proof. intros H1 H2. unfold is_invocable_using, is_nothrow_invocable_r, is_invocable_r. by rewrite H1, H2. Qed.
Lemma fits_function g t f k : kind_of t = Pointer f ∨ (kind_of t = Function ∧ f = t) →
  fits g t k ↔ is_invocable_using g f false = true.
Proof.
  intros H. unfold fits. rewrite <-invocable_using_iff. destruct H as [H|[H ->]].
  - destruct (pointer_invoke Hok t f (s_const g || k) H). by erewrite invocable_using_ext.
  - destruct (function_invoke Hok t (s_const g || k) H). by erewrite invocable_using_ext.
Qed.

(** a function_ref is constructible from exactly the callables that fit, which are not pointers to
    members, and from function_refs of its type *)
Theorem C82_constructible g t k :
  select g t k ≠ NoConstructor ↔ kind_of t = Own ∨ (kind_of t ≠ MemberPointer ∧ kind_of t ≠ Own ∧ fits g t k).
Proof.
  unfold select, pointer_viable, object_viable. destruct (kind_of t) as [|f| | | |] eqn:Hk.
  - destruct (is_invocable_using g t false) eqn:E.
    + apply (fits_function g t t k) in E; [|auto]. split; auto.
    + assert (¬ fits g t k) as Hn by (rewrite fits_function; [|by right]; by rewrite E).
      destruct (is_invocable_using g t (s_const g || k)) eqn:E2; [by apply invocable_using_iff in E2|].
      split; [done|]. by intros [?|(_ & _ & ?)].
  - destruct (is_invocable_using g f false) eqn:E.
    + apply (fits_function g t f k) in E; [|auto]. split; auto.
    + assert (¬ fits g t k) as Hn by (rewrite fits_function; [|by left]; by rewrite E).
      destruct (is_invocable_using g t (s_const g || k)) eqn:E2; [by apply invocable_using_iff in E2|].
      split; [done|]. by intros [?|(_ & _ & ?)].
  - split; [done|]. by intros [?|(? & _)].
  - split; auto.
  - destruct (is_invocable_using g t (s_const g || k)) eqn:E; [apply invocable_using_iff in E; split; auto|].
    split; [done|]. intros [?|(_ & _ & H)]; [done|]. apply invocable_using_iff in H. congruence.
  - destruct (is_invocable_using g t (s_const g || k)) eqn:E; [apply invocable_using_iff in E; split; auto|].
    split; [done|]. intros [?|(_ & _ & H)]; [done|]. apply invocable_using_iff in H. congruence.
Qed.
(** what it refers to: functions, also if given by a pointer variable, otherwise the object *)
Theorem C82_target g t k :
  match select g t k with
  | Copied => kind_of t = Own
  | ToFunction f => kind_of t = Pointer f ∨ (kind_of t = Function ∧ f = t)
  | ToObject u j => u = t ∧ j = k ∧ (kind_of t = Object ∨ kind_of t = OtherSignature)
  | NoConstructor => True
  end.
Proof.
  unfold select, pointer_viable, object_viable. destruct (kind_of t) as [|f| | | |] eqn:Hk; try done.
  - destruct (is_invocable_using g t false) eqn:E; [auto|].
    destruct (is_invocable_using g t (s_const g || k)) eqn:E2; [|done]. exfalso.
    destruct (function_invoke Hok t (s_const g || k) Hk). by erewrite invocable_using_ext in E2; [rewrite E in E2| |].
  - destruct (is_invocable_using g f false) eqn:E; [auto|].
    destruct (is_invocable_using g t (s_const g || k)) eqn:E2; [|done]. exfalso.
    destruct (pointer_invoke Hok t f (s_const g || k) Hk). by erewrite invocable_using_ext in E2; [rewrite E in E2| |].
  - destruct (is_invocable_using g t (s_const g || k)); auto.
  - destruct (is_invocable_using g t (s_const g || k)); auto.
Qed.

(** the full claim: every function_ref that is constructible also compiles and keeps the promise of
    its signature. It holds if the call is resolved as it was checked (the signature is not const,
    or the callable has no other overload for it) and the callable returns by value or the
    result's value is asked for *)
Theorem C82_compiles_partial g t k :
  select g t k ≠ NoConstructor →
  (s_const g = false ∨ (invoke t true = invoke t false ∧ nothrow t true = nothrow t false) ∨ k = true) →
  (∀ r j, invoke t j = Some r → is_void (s_result g) = true ∨ (decays r = true ∧ (converts r (s_result g) = true → converts (decay r) (s_result g) = true))) →
  compiles g t k = true ∧ may_terminate g t k = false.
Proof.
  intros Hs Hc Hd. apply C82_constructible in Hs as [Hs|(Hm & Ho & Hf)].
  { unfold compiles, may_terminate, select. rewrite Hs. by rewrite andb_false_r. }
  pose proof (C82_target g t k) as Ht.
  assert (Hsel : select g t k ≠ NoConstructor) by (apply C82_constructible; auto).
  assert (Hx : ∀ u j, is_invocable_using g u j = true → (∀ r, invoke u j = Some r → ∃ i, invoke t i = Some r) →
    functor_compiles g u j = true ∧ s_noexcept g && negb (is_nothrow_invocable_r (s_result g) u j) = false).
  { intros u j Hu Hi. split.
    - apply invocable_using_iff in Hu as (r & Hr & Hv & _). unfold functor_compiles, is_invocable_r. rewrite Hr.
      destruct (Hi _ Hr) as [i Hri]. destruct (Hd _ _ Hri) as [Hv'|[Hd1 Hd2]]; [by rewrite Hv'|].
      destruct (is_void (s_result g)); [done|]. destruct Hv as [Hv|Hv]; [done|]. by rewrite Hv, Hd1, (Hd2 Hv).
    - unfold is_invocable_using in Hu. destruct (s_noexcept g); [|done]. by rewrite Hu. }
  unfold compiles, may_terminate. destruct (select g t k) as [|f|u j|] eqn:Hsl; [|..|done].
  - by rewrite andb_false_r.
  - apply (fits_function g t f k Ht) in Hf. apply Hx; [done|]. intros r Hr. exists false.
    destruct Ht as [Ht|[_ ->]]; [|done]. destruct (pointer_invoke Hok t f false Ht) as [-> _]. done.
  - destruct Ht as (-> & -> & Hk). apply Hx; [|eauto]. apply invocable_using_iff in Hf.
    destruct Hc as [Hc|[[Hc1 Hc2]| ->]]; [by rewrite Hc in Hf| |by rewrite orb_true_r in Hf].
    destruct (s_const g || k), k; try done; by erewrite invocable_using_ext.
Qed.
(** signatures that return a reference to a mutable object: constructible, but the call returns a
    temporary copy, which does not bind. So function_ref<T &()> cannot be used at all *)
Theorem C82_reference_result_refuted g t k :
  kind_of t ≠ Own → is_void (s_result g) = false → (∀ r, converts (decay r) (s_result g) = false) →
  compiles g t k = false.
Proof.
  intros Hk Hv Hd. unfold compiles, functor_compiles. destruct (select g t k) as [|f|u j|] eqn:E; [|..|done].
  - pose proof (C82_target g t k) as Ht. by rewrite E in Ht.
  - destruct (invoke f false) as [r|]; [|by rewrite andb_false_r]. by rewrite Hv, Hd, !andb_false_r.
  - destruct (invoke u j) as [r|]; [|by rewrite andb_false_r]. by rewrite Hv, Hd, !andb_false_r.
Qed.
(** callables that return a reference to something that cannot be copied *)
Theorem C82_copy_result_refuted g t k r :
  kind_of t = Object → s_const g = false → is_void (s_result g) = false →
  invoke t k = Some r → converts r (s_result g) = true → s_noexcept g = false → decays r = false →
  select g t k = ToObject t k ∧ compiles g t k = false.
Proof.
  intros Hk Hc Hv Hi Hr Hn Hd.
  assert (Hs : select g t k = ToObject t k).
  { unfold select, pointer_viable, object_viable. rewrite Hk, Hc. cbn [orb].
    unfold is_invocable_using, is_invocable_r. by rewrite Hn, Hi, Hv, Hr. }
  split; [done|]. unfold compiles. rewrite Hs. unfold functor_compiles. by rewrite Hi, Hv, Hd, !andb_false_r.
Qed.
(** a const signature is checked with the const overload but calls the other one of a mutable
    callable: that may not return what is needed, *)
Theorem C82_const_result_refuted g t :
  kind_of t = Object → s_const g = true → fits g t false → is_invocable_r (s_result g) t false = false →
  select g t false = ToObject t false ∧ compiles g t false = false.
Proof.
  intros Hk Hc Hf Hi.
  assert (Hs : select g t false = ToObject t false).
  { unfold select, pointer_viable, object_viable. rewrite Hk. unfold fits in Hf. by rewrite <-invocable_using_iff in Hf; rewrite Hf. }
  split; [done|]. unfold compiles. rewrite Hs. unfold functor_compiles. by rewrite Hi.
Qed.
(** or throw although the signature is noexcept *)
Theorem C82_const_noexcept_refuted g t :
  kind_of t = Object → s_const g = true → s_noexcept g = true → fits g t false → nothrow t false = false →
  select g t false = ToObject t false ∧ may_terminate g t false = true.
Proof.
  intros Hk Hc Hn Hf Hi.
  assert (Hs : select g t false = ToObject t false).
  { unfold select, pointer_viable, object_viable. rewrite Hk. unfold fits in Hf. by rewrite <-invocable_using_iff in Hf; rewrite Hf. }
  split; [done|]. unfold may_terminate. rewrite Hs, Hn. unfold is_nothrow_invocable_r. rewrite Hi. by destruct (invoke t false).
Qed.
(** a function_ref with another signature is not copied but referred to, as any other object: the
    new one follows its assignments and dangles when it is gone *)
Theorem C82_other_function_ref_refuted g t k :
  kind_of t = OtherSignature → fits g t k → select g t k = ToObject t k.
Proof.
  intros Hk Hf. pose proof (C82_target g t k) as Ht.
  assert (select g t k ≠ NoConstructor) by (apply C82_constructible; rewrite Hk; auto).
  destruct (select g t k) as [|f|u j|]; [|destruct Ht as [?|[? _]]|destruct Ht as (-> & -> & _)|]; congruence.
Qed.

(** assignment rebinds to the same as construction would, for function_refs and functions, and is
    rejected for all objects, which might be temporaries *)
Theorem C82_assignment g t k :
  (kind_of t = Own ∧ assign g t k = Rebinds Copied) ∨
  ((kind_of t = Function ∨ ∃ f, kind_of t = Pointer f) ∧
    ((fits g t k ∧ ∃ f, select g t k = ToFunction f ∧ assign g t k = Rebinds (ToFunction f)) ∨ (¬ fits g t k ∧ assign g t k = NoAssignment))) ∨
  ((kind_of t = Object ∨ kind_of t = OtherSignature ∨ kind_of t = MemberPointer) ∧ assign g t k = Deleted).
Proof.
  pose proof (C82_target g t k) as Ht. pose proof (C82_constructible g t k) as Hc.
  unfold assign, deleted_viable. destruct (kind_of t) as [|f| | | |] eqn:Hk; [right; left|right; left|right; right; split; auto| |right; right; split; auto|right; right; split; auto].
  - split; [auto|]. destruct (select g t k) as [|f'|u j|] eqn:E; [done| |by destruct Ht as (_ & _ & [?|?])|].
    + left. destruct (proj1 Hc) as [?|(_ & _ & ?)]; [done..|]. eauto.
    + right. split; [|done]. intros Hf. apply Hc; auto.
  - split; [eauto|]. destruct (select g t k) as [|f'|u j|] eqn:E; [done| |by destruct Ht as (_ & _ & [?|?])|].
    + left. destruct (proj1 Hc) as [?|(_ & _ & ?)]; [done..|]. eauto.
    + right. split; [|done]. intros Hf. apply Hc; auto.
  - left. split; [done|]. unfold select. by rewrite Hk.
Qed.
(** deduction from a function or a pointer to it gives the function's signature, and the
    construction is that of a reference to this function, if functions fit their own signature *)
Theorem C82_deduced signature t f k :
  (kind_of t = Pointer f ∨ (kind_of t = Function ∧ f = t)) → fits (signature f) f false →
  deduce signature t = Some (signature f) ∧ select (signature f) t k = ToFunction f.
Proof.
  intros H Hf. split; [unfold deduce; by destruct H as [-> |[-> ->]]|].
  assert (Hi : is_invocable_using (signature f) f false = true).
  { apply (fits_function (signature f) f f false); [|done]. right. split; [|done]. destruct H as [H|[H ->]]; [by eapply (pointer_function Hok)|done]. }
  unfold select, pointer_viable. destruct H as [->|[-> ->]]; by rewrite Hi.
Qed.
End props.

(** ** Examples: functions int() and int() noexcept, a pointer to the first, a member pointer,
    lambdas returning int and int &, a class with int operator()() const noexcept and
    void operator()(), one where the latter returns int, a function_ref<int() noexcept> and one
    with the signature itself, and a class returning a reference to something that cannot be copied *)
Inductive ex_type := F | FN | PF | MP | Lambda | LambdaRef | Two | Two2 | OtherRef | OwnRef | Unique.
Inductive ex_result := Void | Int | IntRef | UniqueCRef | UniqueV.
Global Instance ex_result_eq_dec : EqDecision ex_result.
Proof. solve_decision. Defined.
Definition ex_lang : CallLang := {|
  C := ex_type; R := ex_result;
  kind_of t := match t with F | FN => Function | PF => Pointer F | MP => MemberPointer | OwnRef => Own | OtherRef => OtherSignature | _ => Object end;
  invoke t k := match t with
    | F | FN | PF | OtherRef | OwnRef | Two2 => Some Int | MP => None | LambdaRef => Some IntRef
    | Lambda => Some Int | Two => Some (if k then Int else Void) | Unique => Some UniqueCRef end;
  nothrow t k := match t with FN | OtherRef => true | Two | Two2 => k | _ => false end;
  is_void r := match r with Void => true | _ => false end;
  converts r s := bool_decide (r = s) || match r, s with IntRef, Int => true | _, _ => false end;
  nothrow_converts r s := true;
  decay r := match r with IntRef => Int | UniqueCRef => UniqueV | r => r end;
  decays r := match r with UniqueCRef => false | _ => true end;
|}.
Lemma ex_ok : @lang_ok ex_lang.
Proof. split; cbn; intros t; destruct t; intros; simplify_eq; done. Qed.
Definition int_s : sig ex_result := Sig Int false false.
Definition int_ns : sig ex_result := Sig Int false true.
Definition int_cs : sig ex_result := Sig Int true false.
Definition int_cns : sig ex_result := Sig Int true true.
Local Existing Instance ex_lang.
Definition sel (g : sig ex_result) (t : ex_type) : selected := select (L := ex_lang) g t false.
Example C82_case :
  sel int_s F = ToFunction F ∧ sel int_s PF = ToFunction F ∧ sel int_ns F = NoConstructor ∧ sel int_ns FN = ToFunction FN ∧
  sel int_s MP = NoConstructor ∧ sel int_s OwnRef = Copied ∧ sel int_s OtherRef = ToObject OtherRef false ∧
  sel int_cs Lambda = ToObject Lambda false ∧ @compiles ex_lang int_cs Lambda true = true ∧
  sel int_s Two = NoConstructor ∧ sel int_cs Two = ToObject Two false ∧ @compiles ex_lang int_cs Two false = false ∧
  @compiles ex_lang int_cs Two true = true ∧
  sel int_cns Two2 = ToObject Two2 false ∧ @compiles ex_lang int_cns Two2 false = true ∧ @may_terminate ex_lang int_cns Two2 false = true ∧
  sel (Sig IntRef false false) LambdaRef = ToObject LambdaRef false ∧ @compiles ex_lang (Sig IntRef false false) LambdaRef false = false ∧
  @compiles ex_lang int_s LambdaRef false = true ∧
  sel (Sig UniqueCRef false false) Unique = ToObject Unique false ∧ @compiles ex_lang (Sig UniqueCRef false false) Unique false = false ∧
  @compiles ex_lang (Sig Void false false) Unique false = true.
Proof. by vm_compute. Qed.
Example C82_assign_case :
  @assign ex_lang int_s F false = Rebinds (ToFunction F) ∧ @assign ex_lang int_s Lambda false = Deleted ∧
  @assign ex_lang int_s OwnRef true = Rebinds Copied ∧ @assign ex_lang int_ns PF false = NoAssignment ∧
  @assign ex_lang int_s OtherRef false = Deleted ∧
  @deduce ex_lang (λ t, match t with FN => int_ns | _ => int_s end) PF = Some int_s.
Proof. by vm_compute. Qed.
Example C82_ok_case : @lang_ok ex_lang ∧ @fits ex_lang int_cns Two2 false ∧ @fits ex_lang int_cs Two false ∧ @fits ex_lang int_s F false.
Proof. split; [apply ex_ok|]. split_and!; exists Int; cbn; naive_solver. Qed.

Print Assumptions C82_constructible.
Print Assumptions C82_target.
Print Assumptions C82_compiles_partial.
Print Assumptions C82_reference_result_refuted.
Print Assumptions C82_copy_result_refuted.
Print Assumptions C82_const_result_refuted.
Print Assumptions C82_const_noexcept_refuted.
Print Assumptions C82_other_function_ref_refuted.
Print Assumptions C82_assignment.
Print Assumptions C82_deduced.
