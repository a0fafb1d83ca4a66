(** C80, C81: which arguments an optional_ref is constructed from, and what is deduced. *)
From stdpp Require Import prelude.
From Verif Require Import OptionalRefCtor.
Local Open Scope nat_scope.

Section props.
Context `{L : RefLang}.
Notation const t := (Cty t true).
Notation mut t := (Cty t false).

(** what C++ guarantees about these types, and the members of optional_ref itself *)
Record lang_ok : Prop := {
  derived_refl : ∀ t, derived t t = true;
  (* pointer conversions: identity, adding const, never removing it *)
  ptr_refl : ∀ u, ptr_converts u u = true;
  ptr_const : ∀ u v, ptr_converts u v = true → cst u = true → cst v = true;
  (* std::nullopt_t cannot be dereferenced *)
  nullopt_star : ∀ c, star (Cty nullopt_t c) = None;
  (* optional_ref<U>: is a class of its own, not a base class, operator* gives U & and there is
     an operator bool, all of them const (optional_ref.hpp:87-92) *)
  oref_of_iff : ∀ t u, oref_of t = Some u ↔ t = oref u;
  oref_nullopt : ∀ u, oref u ≠ nullopt_t;
  oref_final : ∀ u t, derived (oref u) t = true → t = oref u;
  oref_star : ∀ u c, star (Cty (oref u) c) = Some (LRef u);
  oref_star_rvalue : ∀ u c, star_rvalue (Cty (oref u) c) = Some u;
  oref_bool : ∀ u c, to_bool (Cty (oref u) c) = true;
}.
Context (Hok : lang_ok).

(** an optional: *x is an lvalue of type U and x is a condition *)
Definition optional_like (o u : cty T) : Prop := star o = Some (LRef u) ∧ to_bool (const (base o)) = true.
(** types whose operator* returns by value *)
Definition star_by_value (o : cty T) : Prop := ∃ u, star o = Some (Other u).
(** an optional whose value a pointer to [r] can refer to *)
Definition optional_of (r o : cty T) : Prop := ∃ u, optional_like o u ∧ ptr_converts u r = true.
(** an lvalue that an [r &] can refer to *)
Definition object_of (r : cty T) (e : expr) : Prop :=
  derived (base (ty e)) (base r) = true ∧ (cst (ty e) = true → cst r = true).

Lemma oref_inj u v : oref u = oref v → u = v.
Proof. intros H. assert (oref_of (oref u) = Some v) as E by (by apply (oref_of_iff Hok)). pose proof (proj2 (oref_of_iff Hok (oref u) u) eq_refl). congruence. Qed.
Lemma compatible_true r o : is_compatible_optional r o = Some true ↔ optional_of r o.
Proof.
  unfold is_compatible_optional, optional_of, optional_like. destruct (star o) as [[u|u]|]; [|naive_solver..].
  split.
  - intros [= [H1 H2]%andb_true_iff]. naive_solver.
  - intros (v & [[= <-] H1] & H2). by rewrite H1, H2.
Qed.
Lemma compatible_none r o : is_compatible_optional r o = None ↔ star_by_value o.
Proof. unfold is_compatible_optional, star_by_value. destruct (star o) as [[u|u]|]; naive_solver. Qed.
Lemma compatible_false r o : is_compatible_optional r o = Some false ↔ ¬ star_by_value o ∧ ¬ optional_of r o.
Proof.
  rewrite <-(compatible_none r), <-compatible_true. destruct (is_compatible_optional r o) as [[]|]; naive_solver.
Qed.
Lemma binds_template_iff e : binds_template e = true ↔ cat e = LValue ∨ cst (ty e) = true.
Proof. unfold binds_template. rewrite orb_true_iff, bool_decide_eq_true. done. Qed.
Lemma identical_iff r e : identical r e = true ↔ ty e = r.
Proof.
  unfold identical. rewrite andb_true_iff, bool_decide_eq_true, eqb_true_iff. destruct e as [[t c] k], r as [s d]. cbn. naive_solver.
Qed.
Lemma direct_iff r e : binds_object r e = Some Direct ↔ object_of r e ∧ (cat e = LValue ∨ cst r = true).
Proof.
  unfold binds_object, object_of. destruct (derived _ _), (cst (ty e)), (cst r), (cat e); cbn; try naive_solver.
  all: destruct (converts _ _ _); naive_solver.
Qed.
Lemma temporary_iff r e : binds_object r e = Some Temporary ↔
  cst r = true ∧ derived (base (ty e)) (base r) = false ∧ converts (ty e) (cat e) (base r) = true.
Proof.
  unfold binds_object. destruct (derived _ _), (cst (ty e)), (cst r), (cat e); cbn; try naive_solver.
  all: destruct (converts _ _ _); naive_solver.
Qed.

(** ** C80: construction *)
(** what each constructor is selected for, and when there is none (optional_ref<std::nullopt_t>,
    where the first two constructors are ambiguous, is not covered) *)
Theorem C80_behaviour r e : base r ≠ nullopt_t →
  match select r e with
  | HardError => star_by_value (ty e)
  | FromNullopt => base (ty e) = nullopt_t
  | Copied | Moved => base (ty e) = oref r
  | FromObject Direct => object_of r e ∧ (cat e = LValue ∨ cst r = true)
  | FromObject Temporary => cst r = true ∧ derived (base (ty e)) (base r) = false ∧ converts (ty e) (cat e) (base r) = true
  | FromOptional => optional_of r (ty e) ∧ (cat e = LValue ∨ cst (ty e) = true)
  | NoConstructor =>
      ¬ star_by_value (ty e) ∧ base (ty e) ≠ nullopt_t ∧ base (ty e) ≠ oref r ∧
      ¬ (object_of r e ∧ (cat e = LValue ∨ cst r = true)) ∧
      ¬ (optional_of r (ty e) ∧ (cat e = LValue ∨ cst (ty e) = true))
  end.
Proof.
  intros _. unfold select. destruct (is_compatible_optional r (ty e)) as [b|] eqn:Hc; [|by apply compatible_none in Hc].
  case_decide as Hn; [done|]. case_decide as Ho.
  - destruct (cat e) eqn:Hk, (cst (ty e)) eqn:Hcst; try done. destruct (b && binds_template e) eqn:Hb; [|done].
    apply andb_true_iff in Hb as [-> Hb]. apply compatible_true in Hc. auto.
  - destruct (b && binds_template e) eqn:Hb.
    + apply andb_true_iff in Hb as [-> Hb]. apply compatible_true in Hc. apply binds_template_iff in Hb.
      destruct (binds_object r e) as [[]|] eqn:Hd; [| |done].
      * destruct (identical r e); [by apply direct_iff in Hd|done].
      * destruct (identical r e); [by apply temporary_iff in Hd|done].
    + destruct (binds_object r e) as [[]|] eqn:Hd; [by apply direct_iff in Hd|by apply temporary_iff in Hd|].
      split; [|split; [done|split; [done|split]]].
      * rewrite <-(compatible_none r). congruence.
      * rewrite <-direct_iff. congruence.
      * rewrite <-compatible_true, <-binds_template_iff. intros [E1 E2]. rewrite Hc in E1. injection E1 as ->. by rewrite E2 in Hb.
Qed.
(** so constness is never lost: what an optional_ref to a mutable object refers to is mutable *)
Theorem C80_const_correct r e : base r ≠ nullopt_t → cst r = false →
  match select r e with
  | FromObject _ => cat e = LValue ∧ cst (ty e) = false
  | FromOptional => ∃ u, star (ty e) = Some (LRef u) ∧ cst u = false
  | _ => True
  end.
Proof.
  intros Hr Hm. pose proof (C80_behaviour r e Hr) as H. destruct (select r e) as [|[]| | | | |]; try done.
  - destruct H as [[_ H1] [H2|H2]]; [|congruence]. split; [done|]. destruct (cst (ty e)); [|done]. naive_solver.
  - destruct H as [H _]. congruence.
  - destruct H as [(u & [H1 _] & H2) _]. exists u. split; [done|]. destruct (cst u) eqn:E; [|done]. apply (ptr_const Hok _ _ H2) in E. congruence.
Qed.
(** the full claim for objects: a variable of type R (or derived from it) is what the
    optional_ref<R> refers to. It holds unless the type of the variable can be dereferenced: by
    value, or to something a pointer to R refers to *)
Theorem C80_object_partial r e :
  base (ty e) ≠ nullopt_t → base (ty e) ≠ oref r → cat e = LValue → object_of r e →
  ¬ star_by_value (ty e) → (optional_of r (ty e) → ty e = r) → select r e = FromObject Direct.
Proof.
  intros Hn Ho Hk Hob Hs Hopt. unfold select.
  assert (binds_object r e = Some Direct) as Hd by (apply direct_iff; auto).
  assert (binds_template e = true) as Hb by (apply binds_template_iff; auto).
  destruct (is_compatible_optional r (ty e)) as [b|] eqn:Hc; [|by apply compatible_none in Hc].
  rewrite decide_False, decide_False, Hd, Hb by done. rewrite andb_true_r. destruct b; [|done].
  apply compatible_true, Hopt in Hc. by rewrite (proj2 (identical_iff r e) Hc).
Qed.
(** a type with an operator* by value does not compile as argument, not even as object of the
    optional_ref's own type *)
Theorem C80_star_by_value_refuted r e :
  cat e = LValue → ty e = r → star_by_value r → object_of r e ∧ select r e = HardError.
Proof.
  intros Hk Ht Hs. split; [split; rewrite Ht; [apply (derived_refl Hok)|done]|].
  unfold select. rewrite Ht. by rewrite (proj2 (compatible_none r r) Hs).
Qed.
(** an optional_ref<const R> to a variable of type R refers to the dereferenced variable if R has
    an operator* to R & *)
Theorem C80_self_reference_refuted t :
  t ≠ nullopt_t → optional_like (mut t) (mut t) → ptr_converts (mut t) (const t) = true → t ≠ oref (const t) →
  let e := Expr (mut t) LValue in
  object_of (const t) e ∧ select (const t) e = FromOptional ∧ select (mut t) e = (if decide (t = oref (mut t)) then FromOptional else FromObject Direct).
Proof.
  intros Hn [Hs Hb] Hp Ho e. split; [split; [apply (derived_refl Hok)|done]|].
  assert (is_compatible_optional (const t) (mut t) = Some true) as Hc by (apply compatible_true; exists (mut t); done).
  assert (is_compatible_optional (mut t) (mut t) = Some true) as Hc' by (apply compatible_true; exists (mut t); split; [done|apply (ptr_refl Hok)]).
  assert (Hd : ∀ c, binds_object (Cty t c) e = Some Direct).
  { intros c. apply direct_iff. split; [|by left]. split; [apply (derived_refl Hok)|done]. }
  unfold select. cbn [ty e base cst cat]. rewrite Hc, Hc', !(decide_False (P := t = nullopt_t)), !Hd by done. split.
  - rewrite decide_False by done. cbn [andb]. assert (binds_template e = true) as -> by (apply binds_template_iff; by left).
    destruct (identical (const t) e) eqn:E; [|done]. by apply identical_iff in E.
  - assert (binds_template e = true) as -> by (apply binds_template_iff; by left). case_decide; [done|].
    by rewrite (proj2 (identical_iff (mut t) e) eq_refl).
Qed.
(** the full claim for optionals: every expression of an optional type whose values a pointer to R
    can refer to is accepted. It holds for lvalues, *)
Theorem C80_optional_partial r e :
  base (ty e) ≠ nullopt_t → (cat e = LValue ∨ cst (ty e) = true) → optional_of r (ty e) →
  derived (base (ty e)) (base r) = false →
  select r e = FromOptional ∨ (base (ty e) = oref r ∧ select r e = Copied).
Proof.
  intros Hn Hk Ho Hd. unfold select. rewrite (proj2 (compatible_true _ _) Ho), (proj2 (binds_template_iff e) Hk), decide_False by done.
  case_decide as E.
  - destruct (cat e), (cst (ty e)); auto. destruct Hk; congruence.
  - destruct (binds_object r e) as [b|] eqn:Hb; [|auto]. destruct (identical r e) eqn:Hi; [|auto].
    apply identical_iff in Hi. exfalso. rewrite Hi, (derived_refl Hok) in Hd. done.
Qed.
(** but not for rvalues: an optional_ref<U> returned from a function does not convert to an
    optional_ref<R>, as variables of that type do. In particular for R = const U *)
Theorem C80_rvalue_refuted u r :
  u ≠ r → ptr_converts u r = true → base r ≠ oref u → converts (mut (oref u)) RValue (base r) = false →
  select r (Expr (mut (oref u)) RValue) = NoConstructor ∧ select r (Expr (mut (oref u)) LValue) = FromOptional.
Proof.
  intros Hu Hp Hr Hcv.
  assert (Ho : optional_of r (mut (oref u))).
  { exists u. split; [|done]. split; [apply (oref_star Hok)|apply (oref_bool Hok)]. }
  assert (Hd : derived (oref u) (base r) = false).
  { destruct (derived (oref u) (base r)) eqn:E; [|done]. by apply (oref_final Hok) in E. }
  split.
  - unfold select. cbn [ty base cst cat]. rewrite (proj2 (compatible_true _ _) Ho), !decide_False by (intros E; by apply (oref_nullopt Hok) in E || by apply oref_inj in E).
    assert (binds_object r (Expr (mut (oref u)) RValue) = None) as ->.
    { unfold binds_object. cbn [ty base cst cat]. rewrite Hd, Hcv. cbn [andb negb]. by rewrite andb_false_r. }
    done.
  - destruct (C80_optional_partial r (Expr (mut (oref u)) LValue)) as [H|[H _]]; cbn [ty base cat]; auto; [apply (oref_nullopt Hok)|].
    by apply oref_inj in H.
Qed.
(** copies of the optional_ref itself are always possible *)
Theorem C80_copy r c k :
  select r (Expr (Cty (oref r) c) k) = match k, c with LValue, false => FromOptional | RValue, false => Moved | _, true => Copied end.
Proof.
  unfold select. cbn [ty base cst cat].
  assert (Ho : optional_of r (Cty (oref r) c)).
  { exists r. split; [|apply (ptr_refl Hok)]. split; [apply (oref_star Hok)|apply (oref_bool Hok)]. }
  rewrite (proj2 (compatible_true _ _) Ho), decide_False, decide_True by (done || intros E; by apply (oref_nullopt Hok) in E).
  by destruct k, c.
Qed.
(** an optional_ref<const R> is accepted for whatever converts to R and then refers to a temporary
    object, which is gone after the full expression (also in an assignment) *)
Theorem C80_temporary_refuted t e :
  base (ty e) ≠ nullopt_t → base (ty e) ≠ oref (const t) → star (ty e) = None →
  derived (base (ty e)) t = false → converts (ty e) (cat e) t = true → select (const t) e = FromObject Temporary.
Proof.
  intros Hn Ho Hs Hd Hc. unfold select, is_compatible_optional. rewrite Hs, !decide_False by done.
  assert (binds_object (const t) e = Some Temporary) as ->; [|done]. by apply temporary_iff.
Qed.

(** ** C81: deduction *)
(** the full claim: optional_ref{x} refers to what *x is, const if and only if that is. It holds
    for variables that are not const, *)
Theorem C81_variable_partial t u :
  (∀ v, t ≠ oref v) → t ≠ nullopt_t → optional_like (mut t) u → star_rvalue (mut t) = Some u → derived t (base u) = false →
  deduced_select (Expr (mut t) LValue) = Some (u, FromOptional).
Proof.
  intros Ht Hn Ho Hs Hd. unfold deduced_select, deduce. cbn [ty base cst].
  destruct (oref_of t) as [v|] eqn:E; [apply (oref_of_iff Hok) in E; by apply Ht in E|].
  unfold guide. cbn [ty]. rewrite (proj2 (binds_template_iff (Expr (mut t) LValue)) (or_introl eq_refl)), Hs.
  destruct (C80_optional_partial u (Expr (mut t) LValue)) as [->|[E' _]]; cbn [ty base cat]; auto; [|by apply Ht in E'].
  exists u. split; [done|apply (ptr_refl Hok)].
Qed.
(** for constants whose value is const, too (std::optional), *)
Theorem C81_constant_partial t u :
  (∀ v, t ≠ oref v) → t ≠ nullopt_t → optional_like (const t) (const u) → star_rvalue (mut t) = Some (mut u) ∨ star_rvalue (mut t) = Some (const u) →
  derived t u = false →
  deduced_select (Expr (const t) LValue) = Some (const u, FromOptional).
Proof.
  intros Ht Hn Ho Hs Hd. unfold deduced_select, deduce. cbn [ty base cst].
  destruct (oref_of t) as [v|] eqn:E; [apply (oref_of_iff Hok) in E; by apply Ht in E|].
  assert (guide_const (Expr (const t) LValue) = Some (const u)) as -> by (unfold guide_const; cbn [ty base]; by destruct Hs as [-> | ->]).
  destruct (C80_optional_partial (const u) (Expr (const t) LValue)) as [->|[E' _]]; cbn [ty base cat]; auto; [|by apply Ht in E'].
  exists (const u). split; [done|apply (ptr_refl Hok)].
Qed.
(** and for optional_refs *)
Theorem C81_optional_ref_partial u c k :
  ∃ s, deduced_select (Expr (Cty (oref u) c) k) = Some (u, s) ∧ s ≠ NoConstructor ∧ s ≠ HardError.
Proof.
  unfold deduced_select, deduce. cbn [ty base]. rewrite (proj2 (oref_of_iff Hok _ _) eq_refl), C80_copy.
  destruct k, c; eauto.
Qed.
(** but not for a const pointer to a mutable object (T * const, const std::unique_ptr<T>): the
    optional_ref deduced refers to const, although the object is mutable *)
Theorem C81_pointer_refuted t u :
  (∀ v, t ≠ oref v) → t ≠ nullopt_t → optional_like (const t) (mut u) → star_rvalue (mut t) = Some (mut u) → derived t u = false →
  ptr_converts (mut u) (const u) = true →
  deduced_select (Expr (const t) LValue) = Some (const u, FromOptional) ∧ select (mut u) (Expr (const t) LValue) = FromOptional.
Proof.
  intros Ht Hn Ho Hs Hd Hp. split.
  - unfold deduced_select, deduce. cbn [ty base cst].
    destruct (oref_of t) as [v|] eqn:E; [apply (oref_of_iff Hok) in E; by apply Ht in E|].
    assert (guide_const (Expr (const t) LValue) = Some (const u)) as -> by (unfold guide_const; cbn [ty base]; by rewrite Hs).
    destruct (C80_optional_partial (const u) (Expr (const t) LValue)) as [->|[E' _]]; cbn [ty base cat]; auto; [|by apply Ht in E'].
    by exists (mut u).
  - destruct (C80_optional_partial (mut u) (Expr (const t) LValue)) as [->|[E' _]]; cbn [ty base cat]; auto; [|by apply Ht in E'].
    exists (mut u). split; [done|apply (ptr_refl Hok)].
Qed.
(** objects that cannot be dereferenced are referred to themselves *)
Theorem C81_object t c :
  (∀ v, t ≠ oref v) → t ≠ nullopt_t → star (Cty t c) = None → (∀ d, star_rvalue (Cty t d) = None) →
  deduced_select (Expr (Cty t c) LValue) = Some (Cty t c, FromObject Direct).
Proof.
  intros Ht Hn Hs Hr. unfold deduced_select, deduce. cbn [ty base cst].
  destruct (oref_of t) as [v|] eqn:E; [apply (oref_of_iff Hok) in E; by apply Ht in E|].
  unfold guide_const, guide, guide_object, binds_template. cbn [ty base cst cat]. rewrite bool_decide_eq_true_2 by done. cbn [orb].
  rewrite !Hr. cbn [fmap option_fmap option_map].
  assert (select (Cty t c) (Expr (Cty t c) LValue) = FromObject Direct) as Hsel.
  { apply C80_object_partial; cbn [ty base cat]; auto.
    - split; [apply (derived_refl Hok)|done].
    - intros [u Hu]. congruence. }
  destruct c; by rewrite Hsel.
Qed.
(** nothing is deduced that refers into a temporary optional *)
Theorem C81_rvalue t r s :
  (∀ v, t ≠ oref v) → t ≠ nullopt_t → (∀ v, v ≠ t → converts (mut t) RValue v = false ∧ derived t v = false) →
  star_rvalue (mut t) ≠ Some (mut t) → star_rvalue (mut t) ≠ Some (const t) →
  deduced_select (Expr (mut t) RValue) = Some (r, s) → s = NoConstructor ∨ s = HardError.
Proof.
  intros Ht Hn Hcv Hs1 Hs2. unfold deduced_select, deduce. cbn [ty base cst].
  destruct (oref_of t) as [v|] eqn:E; [apply (oref_of_iff Hok) in E; by apply Ht in E|].
  unfold guide, guide_object, binds_template. cbn [ty cst cat]. rewrite bool_decide_eq_false_2 by done. cbn [orb].
  unfold guide_const. cbn [ty base]. destruct (star_rvalue (mut t)) as [[u c]|] eqn:Hu; cbn [fmap option_fmap option_map]; [|done].
  intros [= <- <-]. assert (u ≠ t) by (destruct c; congruence).
  unfold select. cbn [ty base cst cat]. destruct (is_compatible_optional _ _) as [b|]; [|by right]. left.
  rewrite !decide_False by (by try apply Ht).
  assert (binds_object (const u) (Expr (mut t) RValue) = None) as ->.
  { unfold binds_object. cbn [ty base cst cat]. destruct (Hcv u) as [-> ->]; done. }
  by rewrite andb_false_r.
Qed.
End props.

(** ** Examples *)
(** int, std::optional<int>, int *, const int *, an iterator with operator* by value, a class with
    Node & operator*() and operator bool, long, and optional_ref<...> *)
Inductive ex_type := Null | Int | OptInt | PInt | PCInt | Gen | Node | Long | Ref (u : ex_type) (c : bool).
Global Instance ex_type_eq_dec : EqDecision ex_type.
Proof. solve_decision. Defined.
Definition ex_lang : RefLang := {|
  T := ex_type; nullopt_t := Null; oref u := Ref (base u) (cst u);
  oref_of t := match t with Ref u c => Some (Cty u c) | _ => None end;
  star o := match base o with
    | OptInt => Some (LRef (Cty Int (cst o))) | PInt => Some (LRef (Cty Int false)) | PCInt => Some (LRef (Cty Int true))
    | Gen => Some (Other (Cty Int false)) | Node => Some (LRef (Cty Node (cst o))) | Ref u c => Some (LRef (Cty u c))
    | _ => None end;
  star_rvalue o := match base o with
    | OptInt => Some (Cty Int (cst o)) | PInt => Some (Cty Int false) | PCInt => Some (Cty Int true)
    | Gen => Some (Cty Int false) | Node => Some (Cty Node (cst o)) | Ref u c => Some (Cty u c)
    | _ => None end;
  to_bool o := match base o with Null | Gen => false | _ => true end;
  ptr_converts u v := bool_decide (base u = base v) && (negb (cst u) || cst v);
  derived t u := bool_decide (t = u);
  converts e k t := match base e, t with Int, Long | Long, Int => true | _, _ => false end;
|}.
Lemma ex_ok : @lang_ok ex_lang.
Proof.
  split; cbn; intros; try done.
  all: try (by apply bool_decide_eq_true_2).
  - rewrite bool_decide_eq_true_2 by done. by destruct u as [? []].
  - destruct u as [? []], v as [? []]; cbn in *; try done. by rewrite andb_false_r in *.
  - destruct t, u; naive_solver.
  - apply bool_decide_eq_true_1 in H. done.
  - by destruct u.
  - by destruct u.
Qed.
Definition lv (t : ex_type) (c : bool) : @expr ex_lang := @Expr ex_lang (Cty t c) LValue.
Definition rv (t : ex_type) (c : bool) : @expr ex_lang := @Expr ex_lang (Cty t c) RValue.
(** the lines of test/optional_ref.cpp:10-42, const optionals to mutable references, a function
    returning optional_ref<int>, optional_ref<const int>{5L} *)
Example C80_case :
  let sel r e := @select ex_lang r e in
  sel (Cty Int false) (lv Int false) = FromObject Direct ∧ sel (Cty Int true) (lv Int false) = FromObject Direct ∧
  sel (Cty Int true) (lv Int true) = FromObject Direct ∧ sel (Cty Int false) (lv Int true) = NoConstructor ∧
  sel (Cty Int false) (lv OptInt false) = FromOptional ∧ sel (Cty Int true) (lv OptInt true) = FromOptional ∧
  sel (Cty Int false) (lv OptInt true) = NoConstructor ∧ sel (Cty Int true) (rv OptInt false) = NoConstructor ∧
  sel (Cty Int false) (lv PInt true) = FromOptional ∧ sel (Cty Int false) (rv PInt false) = NoConstructor ∧
  sel (Cty Int false) (lv Null true) = FromNullopt ∧ sel (Cty Int true) (lv (Ref Int false) true) = FromOptional ∧
  sel (Cty Int true) (rv (Ref Int false) false) = NoConstructor ∧ sel (Cty Int true) (rv (Ref Int true) false) = Moved ∧
  sel (Cty Gen false) (lv Gen false) = HardError ∧ sel (Cty Node true) (lv Node false) = FromOptional ∧
  sel (Cty Node false) (lv Node false) = FromObject Direct ∧ sel (Cty Int true) (rv Long false) = FromObject Temporary.
Proof. by vm_compute. Qed.
(** the lines of test/optional_ref.cpp:62-86, and int * const *)
Example C81_case :
  let ded e := @deduced_select ex_lang e in
  ded (lv Int false) = Some (Cty Int false, FromObject Direct) ∧ ded (lv Int true) = Some (Cty Int true, FromObject Direct) ∧
  ded (lv PInt false) = Some (Cty Int false, FromOptional) ∧ ded (lv PCInt false) = Some (Cty Int true, FromOptional) ∧
  ded (lv OptInt false) = Some (Cty Int false, FromOptional) ∧ ded (lv OptInt true) = Some (Cty Int true, FromOptional) ∧
  ded (lv PInt true) = Some (Cty Int true, FromOptional) ∧ ded (lv (Ref Int false) true) = Some (Cty Int false, Copied) ∧
  ded (rv OptInt false) = Some (Cty Int true, NoConstructor) ∧ ded (rv Int false) = None.
Proof. by vm_compute. Qed.
Example C80_ok_case : @lang_ok ex_lang ∧ @star_by_value ex_lang (Cty Gen false) ∧
  @optional_like ex_lang (Cty OptInt true) (Cty Int true) ∧ @optional_like ex_lang (Cty PInt true) (Cty Int false) ∧
  @optional_of ex_lang (Cty Int true) (Cty PInt true) ∧ @object_of ex_lang (Cty Int true) (lv Int false).
Proof. split; [apply ex_ok|]. repeat split; try done; eexists; split; done. Qed.

Print Assumptions C80_behaviour.
Print Assumptions C80_const_correct.
Print Assumptions C80_object_partial.
Print Assumptions C80_star_by_value_refuted.
Print Assumptions C80_self_reference_refuted.
Print Assumptions C80_optional_partial.
Print Assumptions C80_rvalue_refuted.
Print Assumptions C80_copy.
Print Assumptions C80_temporary_refuted.
Print Assumptions C81_variable_partial.
Print Assumptions C81_constant_partial.
Print Assumptions C81_optional_ref_partial.
Print Assumptions C81_pointer_refuted.
Print Assumptions C81_object.
Print Assumptions C81_rvalue.
