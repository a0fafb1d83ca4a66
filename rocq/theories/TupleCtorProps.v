(** Property C68: how tuples are constructed. *)
From stdpp Require Import prelude.
From Verif Require Import ArrayCtor TupleCtor.

Section props.
Context `{L : TupLang}.
Notation N := (length Comps).

Lemma storage_spec types args : storage_compiles types args = true ↔ Forall2 (λ t e, inits e t = true) types args.
Proof.
  revert args. induction types as [|t types IH]; intros [|e args]; cbn [storage_compiles].
  - split; [constructor|done].
  - split; [done|intros H; inversion H].
  - split; [done|intros H; inversion H].
  - rewrite andb_true_iff, IH. split; [intros [? ?]; by constructor|intros H; by inversion H].
Qed.
Lemma viable_spec args : tup_viable args = true ↔ length args = N ∨ length args = 0.
Proof. unfold tup_viable. by rewrite orb_true_iff, !Nat.eqb_eq. Qed.

(** tuples of one component are not copied if the source is a variable or a const rvalue: the
    constructor for components is chosen, which initialises the component with the whole tuple,
    or does not compile *)
Theorem C68_one_component_refuted h c k :
  Comps = [h] → (c = false ∧ k = LValue) ∨ (c = true ∧ k = RValue) →
  tup_resolve [Expr Tup c k] = Template ∧ tup_constructible [Expr Tup c k] = true ∧
  tup_compiles [Expr Tup c k] = inits (Expr Tup c k) h.
Proof.
  intros Hh Hck. assert (tup_resolve [Expr Tup c k] = Template) as Hr.
  { unfold tup_resolve. cbn [ty cat is_const]. rewrite decide_True by done. assert (tup_viable [Expr Tup c k] = true) as -> by (apply viable_spec; left; by rewrite Hh).
    by destruct Hck as [[-> ->]|[-> ->]]. }
  split; [done|]. unfold tup_constructible, tup_compiles. rewrite Hr. split; [done|]. by rewrite Hh.
Qed.
(** tuples claim to be default constructible, but only the empty one is *)
Theorem C68_default_refuted : tup_constructible [] = true ∧ (tup_compiles [] = true ↔ Comps = []).
Proof.
  assert (tup_resolve [] = Template) as Hr by (unfold tup_resolve; by rewrite (proj2 (viable_spec []) (or_intror eq_refl))).
  unfold tup_constructible, tup_compiles. rewrite Hr. split; [done|]. by destruct Comps.
Qed.
(** all other tuples can be copied and moved from any expression, *)
Theorem C68_copy_partial c k : N ≠ 1 →
  tup_resolve [Expr Tup c k] = (if decide (c = false ∧ k = RValue) then Move else Copy) ∧ tup_compiles [Expr Tup c k] = true.
Proof.
  intros HN. assert (tup_viable [Expr Tup c k] = false) as Hv.
  { apply not_true_iff_false. rewrite viable_spec. cbn [length]. intros [?|?]; lia. }
  assert (tup_resolve [Expr Tup c k] = (if decide (c = false ∧ k = RValue) then Move else Copy)) as Hr.
  { unfold tup_resolve. cbn [ty cat is_const]. rewrite decide_True by done. rewrite Hv. destruct c, k; case_decide; naive_solver. }
  split; [done|]. unfold tup_compiles. rewrite Hr. by case_decide.
Qed.
(** tuples of one component from const lvalues and from rvalues *)
Theorem C68_copy_const_partial :
  tup_resolve [Expr Tup true LValue] = Copy ∧ tup_resolve [Expr Tup false RValue] = Move.
Proof. unfold tup_resolve. cbn [ty cat is_const]. by rewrite !decide_True. Qed.
(** arguments other than a single tuple: accepted if and only if each initialises its component *)
Theorem C68_components args : args ≠ [] → (∀ c k, args ≠ [Expr Tup c k]) →
  tup_compiles args = true ↔ Forall2 (λ t e, inits e t = true) Comps args.
Proof.
  intros Hne Hnt.
  assert (tup_resolve args = if tup_viable args then Template else NoConstructor) as Hr.
  { unfold tup_resolve. destruct args as [|e [|e' args]]; [done| |done]. rewrite decide_False; [done|]. intros E. apply (Hnt (is_const e) (cat e)). destruct e as [b c k]. cbn in *. by subst. }
  unfold tup_compiles. rewrite Hr. destruct (tup_viable args) eqn:Hv; [apply storage_spec|]. split; [done|]. intros H.
  apply Forall2_length in H. apply not_true_iff_false in Hv. exfalso. apply Hv, viable_spec. by left.
Qed.
(** what std::is_constructible says: the number of arguments is right or zero, whatever they are,
    or the argument is a tuple *)
Theorem C68_constructible_partial args :
  tup_constructible args = true ↔ length args = N ∨ args = [] ∨ ∃ c k, args = [Expr Tup c k].
Proof.
  assert (Hz : length args = 0 ↔ args = []) by (split; [apply nil_length_inv|by intros ->]).
  unfold tup_constructible, tup_resolve. destruct args as [|e [|e' args]].
  - assert (tup_viable [] = true) as -> by (apply viable_spec; by right). naive_solver.
  - case_decide as E.
    + split; [intros _|by intros _; destruct (cat e), (is_const e), (tup_viable [e])].
      right. right. exists (is_const e), (cat e). destruct e as [b c k]. cbn in *. by subst.
    + destruct (tup_viable [e]) eqn:Hv; [apply viable_spec in Hv; naive_solver|].
      apply not_true_iff_false in Hv. rewrite viable_spec in Hv. split; [done|].
      intros [H|[H|(c & k & [= ->])]]; [naive_solver|done|done].
  - destruct (tup_viable (e :: e' :: args)) eqn:Hv; [apply viable_spec in Hv; naive_solver|].
    apply not_true_iff_false in Hv. rewrite viable_spec in Hv. split; [done|].
    intros [H|[H|(c & k & H)]]; [naive_solver|done|done].
Qed.
End props.

(** int, a type that can be constructed from anything, and the tuple *)
Inductive ex_type := Int | Any | TupOf.
Global Instance ex_type_eq : EqDecision ex_type.
Proof. solve_decision. Defined.
Definition ex_lang (comps : list ex_type) : TupLang := {|
  TT := ex_type; Comps := comps; Tup := TupOf; inits e t := bool_decide (t = Any) || bool_decide (ty e = t) |}.
(** tuple<int> a{1}; auto b{a}; does not compile, for tuple<Any> it wraps the tuple; tuple<int, int> *)
Example C68_cases :
  @tup_compiles (ex_lang [Int]) [Expr Int false RValue] = true ∧
  @tup_constructible (ex_lang [Int]) [Expr TupOf false LValue] = true ∧ @tup_compiles (ex_lang [Int]) [Expr TupOf false LValue] = false ∧
  @tup_resolve (ex_lang [Any]) [Expr TupOf false LValue] = Template ∧ @tup_compiles (ex_lang [Any]) [Expr TupOf false LValue] = true ∧
  @tup_compiles (ex_lang [Int; Int]) [Expr TupOf true RValue] = true ∧ @tup_compiles (ex_lang [Int; Any]) [Expr Int false LValue; Expr TupOf true LValue] = true ∧
  @tup_compiles (ex_lang [Int; Any]) [Expr Int false RValue] = false ∧ @tup_constructible (ex_lang [Int; Any]) [Expr Int false RValue] = false ∧
  @tup_compiles (ex_lang []) [] = true ∧ @tup_constructible (ex_lang [Int]) [] = true ∧ @tup_compiles (ex_lang [Int]) [] = false.
Proof. by vm_compute. Qed.

Print Assumptions C68_one_component_refuted.
Print Assumptions C68_default_refuted.
Print Assumptions C68_copy_partial.
Print Assumptions C68_copy_const_partial.
Print Assumptions C68_components.
Print Assumptions C68_constructible_partial.
