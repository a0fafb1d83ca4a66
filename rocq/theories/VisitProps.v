(** Properties of visit (C73), for any program ([VisitLang]) whose types convert to themselves
    and whose overload resolution does not depend on the order of declarations ([lang_ok]). *)
From stdpp Require Import prelude.
From Verif Require Import VisitModel Overload.
Local Open Scope nat_scope.

Section spec.
Context `{L : VisitLang}.
Definition lang_ok : Prop :=
  (∀ R, convert R R = Some id) ∧
  (∀ ops ops' c e, ops ≡ₚ ops' → select ops c e = select ops' c e).
(** several visitors act like one object with the call operators of all *)
Definition operators (fs : list (visitor L)) : list op := concat (vs_ops <$> fs).
Definition object_const (fs : list (visitor L)) : bool := match fs with [f] => vs_const f | _ => false end.
Definition selected (fs : list (visitor L)) (e : expr) : option op := select (operators fs) (object_const fs) e.
(** every alternative has a matching call operator, all with the same result type *)
Definition agree (fs : list (visitor L)) (args : list expr) (R : rty) : Prop :=
  ∀ e, e ∈ args → ∃ o, selected fs e = Some o ∧ ret o e = R.
(** one visitor, or several temporaries of different classes that can be derived from *)
Definition usable (fs : list (visitor L)) : Prop :=
  (∃ f, fs = [f]) ∨
  (1 < length fs ∧ NoDup (vs_class <$> fs) ∧
   ∀ f, f ∈ fs → vs_lvalue f = false ∧ vs_base f = true ∧ vs_ops f ≠ []).
End spec.

Section props.
Context `{L : VisitLang}.

Lemma combinable_iff fs : combinable fs = true ↔
  NoDup (vs_class <$> fs) ∧ ∀ f, f ∈ fs → vs_lvalue f = false ∧ vs_base f = true ∧ vs_ops f ≠ [].
Proof.
  unfold combinable. rewrite andb_true_iff, forallb_forall, bool_decide_eq_true. split.
  - intros [H ?]. split; [done|]. intros f Hf. apply elem_of_list_In in Hf. apply H in Hf.
    rewrite !andb_true_iff, !negb_true_iff, bool_decide_eq_false in Hf. destruct Hf as [[? ?] Hn]. repeat split; try done.
    intros E. by rewrite E in Hn.
  - intros [? H]. split; [|done]. intros f Hf. apply elem_of_list_In in Hf. apply H in Hf as (-> & -> & Hn).
    cbn [negb andb]. rewrite bool_decide_eq_false_2; [done|]. by destruct (vs_ops f).
Qed.
(** visit is visit with one object that has all call operators *)
Lemma visit_selected args fs : usable fs →
  visit args fs = match args with
    | [] => None
    | e0 :: _ => match selected fs e0 with
        | Some o => match mapM (λ e, match selected fs e with
              | Some o' => match convert (ret o' e) (ret o e0) with Some g => Some (o', e, g) | None => None end
              | None => None end) args with Some t => Some (ret o e0, t) | None => None end
        | None => None end
    end.
Proof.
  intros [[f ->]|(Hl & Hc)].
  - unfold selected, operators, object_const. cbn [fmap list_fmap concat visit]. rewrite app_nil_r.
    destruct args; reflexivity.
  - destruct fs as [|f [|f' fs]]; [cbn in Hl; lia..|]. unfold visit.
    rewrite (proj2 (combinable_iff (f :: f' :: fs)) Hc). destruct args; reflexivity.
Qed.
Lemma usable_em fs : usable fs ∨ ¬ usable fs.
Proof.
  destruct fs as [|f [|f' fs]].
  - right. intros [[f ?]|[? _]]; [done|cbn in *; lia].
  - left. left. by exists f.
  - destruct (combinable (f :: f' :: fs)) eqn:E.
    + left. right. apply combinable_iff in E. split; [cbn; lia|done].
    + right. intros [[g ?]|[_ H]]; [done|]. apply combinable_iff in H. congruence.
Qed.
Lemma visit_unusable args fs : ¬ usable fs → visit args fs = None.
Proof.
  intros H. destruct fs as [|f [|f' fs]]; [done|exfalso; apply H; left; by exists f|].
  unfold visit. destruct (combinable _) eqn:E; [|done]. exfalso. apply H. right.
  apply combinable_iff in E as [? ?]. split; [cbn; lia|done].
Qed.

(** ** C73 *)
(** exactly when visit compiles, and what it does then *)
Theorem C73_visit_behaviour args fs R :
  (is_Some (visit args fs) ↔
    usable fs ∧ ∃ e0 o0, head args = Some e0 ∧ selected fs e0 = Some o0 ∧
      ∀ e, e ∈ args → ∃ o, selected fs e = Some o ∧ is_Some (convert (ret o e) (ret o0 e0))) ∧
  (∀ t, visit args fs = Some (R, t) →
    (∃ e0 o0, head args = Some e0 ∧ selected fs e0 = Some o0 ∧ R = ret o0 e0) ∧
    (∀ type, args !! type = None → ∀ v, run t type v = None) ∧
    ∀ type e v, args !! type = Some e → ∃ o g, selected fs e = Some o ∧ convert (ret o e) R = Some g ∧
      run t type v = Some (o, e, v, g (result o e v))).
Proof.
  destruct (usable_em fs) as [Hu|Hu].
  2:{ rewrite (visit_unusable _ _ Hu). split; [|done]. split; [by intros [? ?]|by intros [? _]]. }
  rewrite (visit_selected _ _ Hu). destruct args as [|e0 args0].
  { split; [|done]. split; [by intros [? ?]|]. intros (_ & e0 & o0 & ? & _). done. }
  set (args := e0 :: args0). destruct (selected fs e0) as [o0|] eqn:E0.
  2:{ split; [|done]. split; [by intros [? ?]|]. intros (_ & e & o & [= <-] & E & _). congruence. }
  set (F := λ e : expr, match selected fs e with
              | Some o' => match convert (ret o' e) (ret o0 e0) with Some g => Some (o', e, g) | None => None end
              | None => None end).
  split.
  - split.
    + intros [p Hp]. destruct (mapM F args) as [t|] eqn:Et; [|done]. split; [done|]. exists e0, o0. split; [done|].
      split; [done|]. intros e He. apply mapM_Some in Et. apply elem_of_list_lookup in He as [i Hi].
      destruct (Forall2_lookup_l _ _ _ _ _ Et Hi) as (y & _ & Hy). unfold F in Hy.
      destruct (selected fs e) as [o|]; [|done]. exists o. split; [done|].
      destruct (convert _ _); [by eexists|done].
    + intros (_ & e0' & o0' & [= <-] & E & H). rewrite E0 in E. injection E as <-.
      assert (is_Some (mapM F args)) as [t ->]; [|by eexists].
      apply mapM_is_Some, Forall_forall. intros e He. destruct (H e He) as (o & Ho & [g Hg]). unfold compose, F. rewrite Ho, Hg.
      by eexists.
  - intros t. destruct (mapM F args) as [t'|] eqn:Et; [|done]. intros [= <- <-]. apply mapM_Some in Et.
    split; [by exists e0, o0|]. split.
    + intros ty Hty v. unfold run. rewrite (proj2 (lookup_ge_None t' ty)); [done|].
      apply lookup_ge_None in Hty. by rewrite <-(Forall2_length _ _ _ Et).
    + intros ty e v Hty. destruct (Forall2_lookup_l _ _ _ _ _ Et Hty) as (y & Hy & Hf). unfold F in Hf.
      destruct (selected fs e) as [o|]; [|done]. destruct (convert (ret o e) (ret o0 e0)) as [g|] eqn:Hg; [|done].
      injection Hf as <-. exists o, g. split; [done|]. split; [done|]. unfold run. by rewrite Hy.
Qed.

(** the full claim has no condition on the value category and the result types of the visitors *)
Theorem C73_visit_partial args fs R :
  lang_ok → args ≠ [] → usable fs → agree fs args R →
  ∃ t, visit args fs = Some (R, t) ∧
    ∀ type e v, args !! type = Some e → ∃ o, selected fs e = Some o ∧ ret o e = R ∧
      run t type v = Some (o, e, v, result o e v).
Proof.
  intros [Hid _] Hne Hu Ha. destruct args as [|e0 args0]; [done|]. set (args := e0 :: args0) in *.
  destruct (Ha e0) as (o0 & Eo0 & ER); [by left|].
  destruct (proj1 (C73_visit_behaviour args fs R)) as [_ Hc].
  destruct Hc as [[R' t] Hv].
  { split; [done|]. exists e0, o0. split; [done|]. split; [done|]. intros e He. destruct (Ha e He) as (o & ? & E).
    exists o. split; [done|]. rewrite E, ER, Hid. by eexists. }
  destruct (proj2 (C73_visit_behaviour args fs R') _ Hv) as ((e1 & o1 & He1 & Ho1 & HR) & _ & H).
  injection He1 as <-. rewrite Eo0 in Ho1. injection Ho1 as <-. rewrite HR, ER in *.
  exists t. split; [done|]. intros ty e v Hty. destruct (H ty e v Hty) as (o & g & Ho & Hg & Hr).
  destruct (Ha e) as (o' & Ho' & Er); [by eapply elem_of_list_lookup_2|]. rewrite Ho in Ho'. injection Ho' as <-.
  exists o. split; [done|]. split; [done|]. rewrite Er, Hid in Hg. injection Hg as <-. done.
Qed.
Lemma variant_args_lookup n const move type : type < n →
  variant_args n const move !! type = Some (Expr type const (if move then XValue else LValue)).
Proof. intros H. unfold variant_args. rewrite list_lookup_fmap, lookup_seq_lt by done. done. Qed.
(** variant: the overload of visit decides constness and value category of the argument *)
Theorem C73_variant_visit_partial n const move fs R :
  lang_ok → 0 < n → usable fs → agree fs (variant_args n const move) R →
  ∃ t, variant_visit n const move fs = Some (R, t) ∧
    ∀ type v, type < n →
      let e := Expr type const (if move then XValue else LValue) in
      ∃ o, selected fs e = Some o ∧ run t type v = Some (o, e, v, result o e v).
Proof.
  intros HL Hn Hu Ha. assert (Hne : variant_args n const move ≠ []) by (unfold variant_args; destruct n; [lia|done]).
  destruct (C73_visit_partial _ _ _ HL Hne Hu Ha) as (t & Ht & H).
  exists t. split; [done|]. intros ty v Hty e. destruct (H ty e v) as (o & ? & _ & ?); [by apply variant_args_lookup|].
  by exists o.
Qed.
(** variant_ref: always lvalues, const as the type is *)
Theorem C73_variant_ref_visit_partial cs fs R :
  lang_ok → cs ≠ [] → usable fs → agree fs (variant_ref_args cs) R →
  ∃ t, variant_ref_visit cs fs = Some (R, t) ∧
    ∀ type c v, cs !! type = Some c →
      ∃ o, selected fs (Expr type c LValue) = Some o ∧
           run t type v = Some (o, Expr type c LValue, v, result o (Expr type c LValue) v).
Proof.
  intros HL Hn Hu Ha. assert (Hne : variant_ref_args cs ≠ []) by (by destruct cs).
  destruct (C73_visit_partial _ _ _ HL Hne Hu Ha) as (t & Ht & H).
  exists t. split; [done|]. intros ty c v Hty. destruct (H ty (Expr ty c LValue) v) as (o & ? & _ & ?).
  { unfold variant_ref_args. rewrite list_lookup_imap, Hty. done. }
  by exists o.
Qed.
(** the order in which the visitors are listed does not matter *)
Theorem C73_visitor_order args fs fs' : lang_ok → fs ≡ₚ fs' → visit args fs = visit args fs'.
Proof.
  intros [_ HP] Hp.
  assert (Hs : ∀ e, selected fs e = selected fs' e).
  { intros e. unfold selected. replace (object_const fs') with (object_const fs).
    - apply HP. unfold operators. rewrite Hp. done.
    - destruct fs as [|f [|f' fs]], fs' as [|g [|g' fs']]; try done;
        try (by apply Permutation_length in Hp). apply Permutation_singleton_inj in Hp. by subst. }
  assert (Hu : usable fs ↔ usable fs').
  { unfold usable. split; (intros [[f Hf]|(Hl & Hn & Hf)]; [left|right]).
    - subst. apply Permutation_singleton_l in Hp. by exists f.
    - split; [by rewrite <-Hp|]. split; [by rewrite <-Hp|]. intros f Hi. apply Hf. by rewrite Hp.
    - subst. apply Permutation_singleton_r in Hp. by exists f.
    - split; [by rewrite Hp|]. split; [by rewrite Hp|]. intros f Hi. apply Hf. by rewrite <-Hp. }
  destruct (usable_em fs) as [H|H].
  - rewrite !visit_selected by tauto. destruct args as [|e0 args0]; [done|]. rewrite Hs.
    destruct (selected fs' e0); [|done]. erewrite (mapM_ext _ _ (e0 :: args0)); [done|]. intros e. by rewrite Hs.
  - rewrite !visit_unusable by tauto. done.
Qed.
(** several visitors must be temporaries: variables are not accepted *)
Theorem C73_lvalue_visitors_refuted args fs f :
  1 < length fs → f ∈ fs → vs_lvalue f = true → visit args fs = None.
Proof.
  intros Hl Hf Hv. apply visit_unusable. intros [[g ->]|(_ & _ & H)]; [cbn in Hl; lia|].
  apply H in Hf as [? _]. congruence.
Qed.
End props.

(** ** Examples, with the overload resolution of Overload.v *)
Lemma lang_is_ok : @lang_ok lang.
Proof. split; [apply conv_refl|]. intros ops ops' c e. apply best_permutation. Qed.
(** a lambda [n]: temporary of its own class with one call operator; its result is [n] *)
Definition lam (n : nat) (ty : nat) (k : kind) : visitor lang :=
  @Visitor lang n true false false [CallOp false ty k false (λ _, 1) (λ _ _, Z.of_nat n)].
(** the eight lambdas of test/variant.cpp:65-74 *)
Definition eight : list (visitor lang) :=
  [lam 1 0 LRef; lam 2 1 LRef; lam 3 0 CLRef; lam 4 1 CLRef; lam 5 0 RRef; lam 6 1 RRef; lam 7 0 CRRef; lam 8 1 CRRef].
(** what visit of variant<int, double> returns *)
Definition visited (const move : bool) (fs : list (visitor lang)) (type : nat) (v : Z) : option (nat * Z) :=
  r ← @variant_visit lang 2 const move fs; o ← @run lang r.2 type v; Some (r.1, o.2).
Notation ret1 n := (Some (1, n%Z)).
Example C73_case :
  (λ p : bool * bool, (visited p.1 p.2 eight 0 7%Z, visited p.1 p.2 eight 1 150%Z)) <$>
    [(false, false); (true, false); (false, true); (true, true)]
  = [(ret1 1, ret1 2); (ret1 3, ret1 4); (ret1 5, ret1 6); (ret1 7, ret1 8)].
Proof. by vm_compute. Qed.
Example C73_hypotheses_case : @usable lang eight ∧ @agree lang eight (variant_args 2 true false) 1.
Proof.
  split.
  - right. split; [by apply Nat.ltb_lt|]. apply (@combinable_iff lang). by vm_compute.
  - intros e He. unfold variant_args in He. cbn [fmap list_fmap seq] in He.
    apply elem_of_cons in He as [->|He]; [|apply elem_of_list_singleton in He as ->]; eexists; by vm_compute.
Qed.
Example C73_order_case : visited false true (rev eight) 1 5 = ret1 6 ∧ visited true false (rev eight) 0 5 = ret1 3.
Proof. by vm_compute. Qed.
Example C73_variant_ref_case :
  let r := @variant_ref_visit lang [true; false] eight in
  (t ← r; o ← @run lang t.2 0 7%Z; Some o.2) = Some 3%Z ∧ (t ← r; o ← @run lang t.2 1 7%Z; Some o.2) = Some 2%Z.
Proof. by vm_compute. Qed.
(** [](auto v) { return v; }: what is returned has the type of the first alternative *)
Definition identity : visitor lang := @Visitor lang 1 true false false [CallOp true 0 ByValue false S (λ _ v, v)].
Theorem C73_result_type_refuted v :
  @selected lang [identity] (Expr 1 false LValue) = Some (CallOp true 0 ByValue false S (λ _ v, v)) ∧
  visited false false [identity] 1 v = Some (1, Z.quot v 100).
Proof. split; by vm_compute. Qed.
(** the value 1.5 of a variant<int, double> becomes 1 *)
Example C73_result_type_case : visited false false [identity] 1 150 = Some (1, 1%Z).
Proof. by vm_compute. Qed.
(** a visitor that returns nothing for one alternative, and one that is ambiguous, do not compile *)
Example C73_ill_formed_case :
  visited false false [@Visitor lang 1 true false false [CallOp true 0 ByValue false id (λ _ v, v)]] 0 1 = None ∧
  visited false false [lam 1 0 LRef; lam 2 0 ByValue; lam 3 1 LRef] 0 1 = None ∧
  visited true true [lam 1 0 LRef; lam 2 1 LRef] 1 1 = None ∧
  visited false false [lam 1 0 CLRef; @Visitor lang 2 true true false (vs_ops (lam 2 1 CLRef))] 0 1 = None.
Proof. by vm_compute. Qed.

Print Assumptions C73_visit_behaviour.
Print Assumptions C73_visit_partial.
Print Assumptions C73_variant_visit_partial.
Print Assumptions C73_variant_ref_visit_partial.
Print Assumptions C73_visitor_order.
Print Assumptions C73_lvalue_visitors_refuted.
Print Assumptions C73_result_type_refuted.
