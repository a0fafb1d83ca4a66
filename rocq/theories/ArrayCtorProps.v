(** Property C67: which argument lists an array can be constructed from. *)
From stdpp Require Import prelude.
From Verif Require Import ArrayCtor.

Section props.
Context `{L : Lang}.

(** what C++ and the static_asserts of array (28-36) guarantee about the conversions *)
Record lang_ok : Prop := {
  (* the element type can be copied and moved *)
  element_copies : ∀ c k, converts (Expr Type_ c k) Type_ = true;
  (* only non-const lvalues bind to a non-const lvalue reference to their type *)
  binds_same : ∀ b c k, binds (Expr b c k) b = true ↔ c = false ∧ k = LValue;
  (* an array is not an element, nor converts to one or to a reference to another array *)
  arr_other : Arr ≠ Type_;
  arr_element : ∀ c k, converts (Expr Arr c k) Type_ = false;
  element_binds_arr : binds (Expr Type_ false RValue) Arr = false;
  (* an element converts to an array by the constructor template *)
  element_arr : ∀ c k, converts (Expr Type_ c k) Arr = template_viable [Expr Type_ c k];
}.
Context (Hok : lang_ok).

(** the intention: at most Size expressions that initialise elements, or an array to copy *)
Definition good_args (args : list (expr T)) : Prop :=
  (length args ≤ Size ∧ ∀ e, e ∈ args → converts e Type_ = true) ∨ ∃ c k, args = [Expr Arr c k].

Lemma element_convertible c : is_convertible Type_ (Plain Type_ c) = true.
Proof. cbn [is_convertible]. apply (element_copies Hok). Qed.
Lemma template_viable_spec args : template_viable args = true ↔ ∀ e, e ∈ args → is_convertible Type_ (deduce e) = true.
Proof. unfold template_viable. rewrite forallb_forall. by setoid_rewrite elem_of_list_In. Qed.
Lemma body_spec args : body_compiles args = true ↔ length args ≤ Size ∧ ∀ e, e ∈ args → converts e Type_ = true.
Proof.
  unfold body_compiles. rewrite andb_true_iff, Nat.leb_le, forallb_forall. by setoid_rewrite elem_of_list_In.
Qed.
Lemma arr_convertible c : is_convertible Type_ (Plain Arr c) = true.
Proof. cbn [is_convertible]. unfold declval. rewrite (element_arr Hok). apply template_viable_spec. intros e ->%elem_of_list_singleton. apply element_convertible. Qed.
Lemma element_lvalue_rejected args : Expr Type_ false LValue ∈ args → template_viable args = false.
Proof.
  intros Hin. apply not_true_iff_false. rewrite template_viable_spec. intros H. specialize (H _ Hin). cbn in H. by apply (binds_same Hok) in H as [_ ?].
Qed.

(** the intended meaning is not that of the code: a variable of the element type is not accepted
    as initialiser, whatever the element type, whatever the other arguments *)
Theorem C67_lvalue_argument_refuted args :
  Expr Type_ false LValue ∈ args → compiles args = false ∧ is_constructible args = false.
Proof.
  intros Hin. pose proof (element_lvalue_rejected _ Hin) as Hf.
  assert (resolve args = NoConstructor) as Hr.
  { unfold resolve. destruct args as [|e [|e' args]]; [by apply elem_of_nil in Hin| |by rewrite Hf].
    apply elem_of_list_singleton in Hin as <-. unfold resolve1. cbn [ty]. rewrite decide_False by (intros E; by apply (arr_other Hok)).
    rewrite Hf. by rewrite (element_arr Hok), Hf. }
  unfold compiles, is_constructible. by rewrite Hr.
Qed.
(** a const rvalue array cannot be copied: the template is chosen and its body does not compile *)
Theorem C67_const_rvalue_array_refuted :
  resolve [Expr Arr true RValue] = Template ∧ is_constructible [Expr Arr true RValue] = true ∧ compiles [Expr Arr true RValue] = false.
Proof.
  assert (resolve [Expr Arr true RValue] = Template) as Hr.
  { unfold resolve, resolve1. cbn [ty cat is_const]. rewrite decide_True by done.
    assert (template_viable [Expr Arr true RValue] = true) as ->; [|done]. apply template_viable_spec. intros e ->%elem_of_list_singleton. apply arr_convertible. }
  split; [done|]. unfold is_constructible, compiles. rewrite Hr. split; [done|]. apply not_true_iff_false. rewrite body_spec. intros [_ H].
  specialize (H _ (elem_of_list_here _ _)). by rewrite (arr_element Hok) in H.
Qed.
(** too many arguments are not rejected by the constraint but in the body *)
Theorem C67_too_many_arguments_refuted n :
  Size < n → 2 ≤ n → is_constructible (replicate n (Expr Type_ false RValue)) = true ∧ compiles (replicate n (Expr Type_ false RValue)) = false.
Proof.
  intros Hn H2.
  assert (resolve (replicate n (Expr Type_ false RValue)) = Template) as Hr.
  { destruct n as [|[|n]]; [lia..|]. unfold resolve. cbn [replicate].
    change (Expr Type_ false RValue :: Expr Type_ false RValue :: replicate n (Expr Type_ false RValue)) with (replicate (S (S n)) (Expr Type_ false RValue)).
    assert (template_viable (replicate (S (S n)) (Expr Type_ false RValue)) = true) as ->; [|done].
    apply template_viable_spec. intros e [-> _]%elem_of_replicate. apply element_convertible. }
  unfold is_constructible, compiles. rewrite Hr. split; [done|]. apply not_true_iff_false. rewrite body_spec, replicate_length. lia.
Qed.
(** what holds: every call that compiles is meant to *)
Theorem C67_only_good_partial args : compiles args = true → good_args args ∨ ∃ e, args = [e] ∧ converts e Arr = true.
Proof.
  unfold compiles. destruct (resolve args) eqn:Hr; [| | |done].
  - intros Hb. left. left. by apply body_spec.
  - intros _. unfold resolve in Hr. destruct args as [|e [|e' args]]; [by destruct (template_viable [])| |by destruct (template_viable (e :: e' :: args))].
    unfold resolve1 in Hr. case_decide as E.
    + left. right. exists (is_const e), (cat e). destruct e as [b c k]. cbn in *. by subst.
    + destruct (template_viable [e]); [done|]. destruct (converts e Arr) eqn:Hc; [|done]. right. by exists e.
  - intros _. unfold resolve in Hr. destruct args as [|e [|e' args]]; [by destruct (template_viable [])| |by destruct (template_viable (e :: e' :: args))].
    unfold resolve1 in Hr. case_decide as E; [|by destruct (template_viable [e]), (converts e Arr)].
    left. right. exists (is_const e), (cat e). destruct e as [b c k]. cbn in *. by subst.
Qed.
(** and good arguments are accepted if they are rvalues or constants of a type that the element
    type converts to, in particular of the element type *)
Theorem C67_rvalues_partial args :
  length args ≤ Size → (∀ e, e ∈ args → converts e Type_ = true ∧ converts (Expr Type_ false RValue) (ty e) = true ∧ (cat e = LValue → is_const e = true)) →
  compiles args = true.
Proof.
  intros Hl Ha.
  assert (template_viable args = true) as Hv.
  { apply template_viable_spec. intros e He. destruct (Ha e He) as (_ & Hc & Hk). unfold deduce. destruct (cat e); cbn [is_convertible]; [|done].
    rewrite Hk by done. unfold declval. by rewrite Hc. }
  assert (body_compiles args = true) as Hb by (apply body_spec; split; [done|]; intros e He; by destruct (Ha e He)).
  unfold compiles, resolve. destruct args as [|e [|e' args]]; [by rewrite Hv, Hb| |by rewrite Hv, Hb].
  unfold resolve1. rewrite Hv. case_decide as E; [|by rewrite Hb].
  destruct (Ha e (elem_of_list_here _ _)) as (Hc & _). destruct e as [b c k]. cbn in E. subst b. by rewrite (arr_element Hok) in Hc.
Qed.
(** the element type itself *)
Theorem C67_elements_partial args :
  length args ≤ Size → (∀ e, e ∈ args → ty e = Type_ ∧ (cat e = LValue → is_const e = true)) → compiles args = true.
Proof.
  intros Hl Ha. apply C67_rvalues_partial; [done|]. intros e He. destruct (Ha e He) as [Ht Hk]. destruct e as [b c k]. cbn in *. subst b.
  split; [apply (element_copies Hok)|]. split; [apply (element_copies Hok)|done].
Qed.
(** arrays that are not const rvalues are copied or moved *)
Theorem C67_copy_move_partial c k : (c = true → k = LValue) →
  resolve [Expr Arr c k] = (if k then Copy else Move) ∧ compiles [Expr Arr c k] = true.
Proof.
  intros Hck. assert (resolve [Expr Arr c k] = if k then Copy else Move) as Hr; [|split; [done|unfold compiles; rewrite Hr; by destruct k]].
  unfold resolve, resolve1. cbn [ty cat is_const]. rewrite decide_True by done. destruct k, c; try done; [|by specialize (Hck eq_refl)].
  assert (template_viable [Expr Arr false LValue] = false) as ->; [|done]. apply not_true_iff_false. rewrite template_viable_spec. intros H.
  specialize (H _ (elem_of_list_here _ _)). cbn in H. unfold declval in H. by rewrite (element_binds_arr Hok) in H.
Qed.
End props.

(** int, double, a string class that converts from literals, literals, and arrays of 3 elements *)
Inductive ex_type := Int | Double | Str | Literal | ArrOf.
Global Instance ex_type_eq : EqDecision ex_type.
Proof. solve_decision. Defined.
Definition ex_lang (elem : ex_type) : Lang := {|
  T := ex_type; Type_ := elem; Arr := ArrOf; Size := 3;
  converts e b :=
    bool_decide (ty e = b) || match ty e, b with
    | Int, Double | Literal, Str => true
    | t, ArrOf => bool_decide (t = elem) && negb (bool_decide (cat e = LValue) && negb (is_const e))
    | _, _ => false
    end;
  binds e b := bool_decide (ty e = b) && negb (is_const e) && match cat e with LValue => true | RValue => false end;
|}.
Lemma ex_ok elem : elem ≠ ArrOf → elem = Int ∨ elem = Str → @lang_ok (ex_lang elem).
Proof.
  intros _ He. split; destruct He as [-> | ->]; try done.
  all: try (intros b c k; destruct b, c, k; cbn; naive_solver).
  all: try (intros c k; destruct c, k; by vm_compute).
Qed.
(** array<int, 3>{i, 2, 3}; array<int, 3>{1, 2, 3}; four elements; a const array moved from;
    array<string, 3>{"a"} *)
Example C67_cases :
  let L := ex_lang Int in
  @compiles L [Expr Int false LValue; declval Int; declval Int] = false ∧
  @compiles L [declval Int; declval Int; Expr Int true LValue] = true ∧
  @is_constructible L (replicate 4 (declval Int)) = true ∧
  @compiles L [Expr ArrOf false LValue] = true ∧ @compiles L [Expr ArrOf true RValue] = false ∧
  @converts (ex_lang Str) (Expr Literal true LValue) Str = true ∧ @compiles (ex_lang Str) [Expr Literal true LValue] = false.
Proof. by vm_compute. Qed.
Example C67_ok_case : @lang_ok (ex_lang Int) ∧ @lang_ok (ex_lang Str).
Proof. split; apply ex_ok; auto. Qed.

Print Assumptions C67_lvalue_argument_refuted.
Print Assumptions C67_const_rvalue_array_refuted.
Print Assumptions C67_too_many_arguments_refuted.
Print Assumptions C67_only_good_partial.
Print Assumptions C67_rvalues_partial.
Print Assumptions C67_elements_partial.
Print Assumptions C67_copy_move_partial.
