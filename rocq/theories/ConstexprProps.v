(** C97: functions marked constexpr can be used in constant expressions. *)
From stdpp Require Import prelude.
From Verif Require Import ConstexprModel.

Scheme constant_mut := Minimality for constant Sort Prop with constant_steps_mut := Minimality for constant_steps Sort Prop.

Section props.
Context `{P : Program}.

(** ** Specification *)
(** the function is marked constexpr *)
Definition marked (t : ty) (f : fn) : Prop := fn_body t f ≠ None.
(** The operations of the elements that a function of an array exists for; None: it is one that C++17
    leaves to run time (the algorithms became constexpr in C++20) *)
Definition array_needs (f : fn) : option (list fn) :=
  match f with
  | f_default => Some [f_default]
  | f_construct => Some [f_construct]
  | f_construct_fewer => Some [f_construct; f_default]
  | f_copy => Some [f_copy] | f_move => Some [f_move] | f_assign => Some [f_assign]
  | f_fill | f_swap | f_friend_swap | f_eq | f_ne | f_lt | f_gt | f_le | f_ge => None
  | _ => Some []
  end.
(** the functions of a bitset that handle single bits or shift *)
Definition bitwise (f : fn) : Prop :=
  match f with
  | f_all | f_any | f_none | f_operator_bool | f_count | f_and_assign | f_or_assign | f_xor_assign | f_and | f_or | f_xor
  | f_compl | f_set | f_reset | f_flip | f_swap | f_friend_swap | f_eq | f_ne => False
  | _ => True
  end.
(** the functions of a bitset that take an index, which must be less than the size *)
Definition indexed (f : fn) : Prop :=
  match f with f_at | f_at_const | f_test | f_set_index | f_reset_index | f_flip_index => True | _ => False end.
(** array<array<...>> of the given sizes *)
Fixpoint nest (ns : list nat) (b : base) : ty := match ns with [] => Base b | n :: ns => Arr (nest ns b) n end.

(** ** Lemmas *)
Lemma marked_inv t f steps : fn_body t f = Some steps → constant t f ↔ literal t = true ∧ constant_steps t steps.
Proof.
  intros H. split.
  - inversion 1 as [b g Hb|t' g steps' H1 H2 H3]; subst; [done|]. rewrite H in H1. injection H1 as ->. done.
  - intros [H1 H2]. by eapply constant_call.
Qed.
Lemma steps_nil t : constant_steps t [] ↔ True.
Proof. split; [done|constructor]. Qed.
Lemma steps_call t g l : constant_steps t (Call g :: l) ↔ constant t g ∧ constant_steps t l.
Proof. split; [by inversion 1|intros [??]; by constructor]. Qed.
Lemma steps_elem t g l : constant_steps t (Elem g :: l) ↔ (∀ u, u ∈ operands t → constant u g) ∧ constant_steps t l.
Proof. split; [by inversion 1|intros [??]; by constructor]. Qed.
Lemma steps_std t g l : constant_steps t (Std g :: l) ↔ std_constexpr g = true ∧ constant_steps t l.
Proof. split; [by inversion 1|intros [??]; by constructor]. Qed.
Lemma steps_not t l : constant_steps t (NotConstexpr :: l) ↔ False.
Proof. split; [by inversion 1|done]. Qed.
Lemma steps_new t l : constant_steps t (PlacementNew :: l) ↔ False.
Proof. split; [by inversion 1|done]. Qed.
Lemma steps_throw t l : constant_steps t (Throw :: l) ↔ False.
Proof. split; [by inversion 1|done]. Qed.
Lemma not_literal t f : (∀ b, t ≠ Base b) → literal t = false → ¬ constant t f.
Proof. intros Ht Hl. inversion 1; [by edestruct Ht|congruence]. Qed.


(** what a sequence of steps needs of the elements, found out by following the calls *)
Inductive verdict := Needs (l : list fn) | Never | Unknown.
Definition both (a b : verdict) : verdict :=
  match a, b with
  | Never, _ | _, Never => Never
  | Needs l, Needs l' => Needs (l ++ l')
  | _, _ => Unknown
  end.
Fixpoint check (k : nat) (body : fn → option (list step)) (steps : list step) : verdict :=
  match k with
  | 0 => Unknown
  | S k =>
      match steps with
      | [] => Needs []
      | s :: steps =>
          both match s with
               | Call g => match body g with Some l => check k body l | None => Never end
               | Elem g => Needs [g]
               | Std g => if std_constexpr g then Needs [] else Never
               | _ => Never
               end (check k body steps)
      end
  end.
Definition holds (t : ty) (v : verdict) (C : Prop) : Prop :=
  match v with
  | Needs l => C ↔ ∀ g, g ∈ l → ∀ u, u ∈ operands t → constant u g
  | Never => ¬ C
  | Unknown => True
  end.
Lemma holds_both t v v' C C' : holds t v C → holds t v' C' → holds t (both v v') (C ∧ C').
Proof.
  destruct v, v'; cbn; try tauto. intros -> ->. setoid_rewrite elem_of_app. naive_solver.
Qed.
Lemma check_holds t k steps : literal t = true → (∀ b, t ≠ Base b) → holds t (check k (fn_body t) steps) (constant_steps t steps).
Proof.
  intros Hl Ht. revert steps. induction k as [|k IH]; intros steps; [done|]. cbn [check].
  destruct steps as [|s steps].
  { cbn. rewrite steps_nil. split; [|done]. intros _ g Hg. by apply elem_of_nil in Hg. }
  assert (∀ v C, holds t v C → (constant_steps t (s :: steps) ↔ C ∧ constant_steps t steps) →
    holds t (both v (check k (fn_body t) steps)) (constant_steps t (s :: steps))) as Hstep.
  { intros v C Hv Hiff. pose proof (holds_both _ _ _ _ _ Hv (IH steps)) as H.
    destruct (both _ _); cbn in *; [by rewrite Hiff|by rewrite Hiff|done]. }
  destruct s.
  - eapply (Hstep _ (constant t f)); [|apply steps_call].
    destruct (fn_body t f) as [l|] eqn:Hb.
    + pose proof (IH l) as H. pose proof (marked_inv _ _ _ Hb) as Hi.
      destruct (check k (fn_body t) l) as [l0| |]; cbn [holds] in *; [| |exact I].
      * rewrite Hi, <-H. tauto.
      * rewrite Hi. tauto.
    + cbn. inversion 1; subst; [by edestruct Ht|congruence].
  - eapply (Hstep _ (∀ u, u ∈ operands t → constant u f)); [|apply steps_elem].
    cbn. setoid_rewrite elem_of_list_singleton. naive_solver.
  - eapply (Hstep _ (std_constexpr f = true)); [|apply steps_std].
    destruct (std_constexpr f); cbn; [|done]. split; [|done]. intros _ g Hg. by apply elem_of_nil in Hg.
  - eapply (Hstep _ False); [cbn; tauto|]. rewrite steps_not. tauto.
  - eapply (Hstep _ False); [cbn; tauto|]. rewrite steps_new. tauto.
  - eapply (Hstep _ False); [cbn; tauto|]. rewrite steps_throw. tauto.
Qed.
Lemma call_holds t f k : literal t = true → (∀ b, t ≠ Base b) → holds t (check (S (S k)) (fn_body t) [Call f]) (constant t f).
Proof.
  intros Hl Ht. pose proof (check_holds t (S (S k)) [Call f] Hl Ht) as H. revert H.
  destruct (check _ _ _); cbn [holds]; rewrite ?steps_call, ?steps_nil; tauto.
Qed.

(** ** Theorems *)
(** Views: all functions, whatever the elements are *)
Theorem C97_views t f : (marked (ARef t) f → constant (ARef t) f) ∧ (marked SRef f → constant SRef f).
Proof.
  assert (∀ u l, (∀ b, u ≠ Base b) → literal u = true → check 12 (fn_body u) [Call f] = Needs l → l = [] → constant u f) as H.
  { intros u l Hu Hl Hc ->. pose proof (call_holds u f 10 Hl Hu) as H. rewrite Hc in H. apply H.
    intros g Hg. by apply elem_of_nil in Hg. }
  split; intros Hm; eapply H; try done; destruct f; try (by destruct (Hm eq_refl)); reflexivity.
Qed.
(** optional_ref: value_or needs a copy *)
Theorem C97_optional_ref t f : marked (ORef t) f →
  constant (ORef t) f ↔ (f = f_value_or → constant t f_copy ∧ constant t f_construct).
Proof.
  intros Hm. pose proof (call_holds (ORef t) f 10 eq_refl ltac:(done)) as H.
  destruct f; try (by destruct (Hm eq_refl)); cbn in H; rewrite H; clear.
  all: setoid_rewrite elem_of_list_singleton; set_unfold; naive_solver.
Qed.
(** Arrays: exactly the functions that use no algorithm *)
Theorem C97_array_partial t n f : marked (Arr t n) f →
  constant (Arr t n) f ↔ (n = 0 ∨ literal t = true) ∧
    ∃ needs, array_needs f = Some needs ∧ (n = 0 ∨ ∀ g, g ∈ needs → constant t g).
Proof.
  intros Hm. destruct (decide (literal (Arr t n) = true)) as [Hl|Hl].
  2: { split; [intros Hc; exfalso; revert Hc; apply not_literal; [done|by destruct (literal _)]|].
       intros [H _]. exfalso. apply Hl. cbn [literal]. rewrite orb_true_iff, Nat.eqb_eq. tauto. }
  pose proof (call_holds (Arr t n) f 10 Hl ltac:(done)) as H.
  assert (n = 0 ∨ literal t = true) as Hl' by (cbn [literal] in Hl; by rewrite orb_true_iff, Nat.eqb_eq in Hl).
  clear Hl. destruct n as [|n].
  - destruct f; try (by destruct (Hm eq_refl)); cbn in H; cbn [array_needs].
    all: try (rewrite H; clear; split; [intros _; split; [by left|eauto]|intros _ g Hg; by apply elem_of_nil in Hg]).
    all: split; [done|intros [_ (?&?&_)]; done].
  - destruct f; try (by destruct (Hm eq_refl)); cbn in H; cbn [array_needs].
    all: try (split; [done|intros [_ (?&?&_)]; done]).
    all: rewrite H; clear -Hl'; (split; [intros H; split; [done|]; eexists; split; [reflexivity|]; right; intros g Hg; apply (H g Hg t); set_solver
           |intros [_ (l&[= <-]&[?|Hn])] g Hg u Hu; [done|]; apply elem_of_list_singleton in Hu as ->; by apply Hn]).
Qed.
(** Bitsets: exactly the functions that handle single bits or shift *)
Theorem C97_bitset_partial n f : n ≠ 0 → marked (Bits n) f → constant (Bits n) f ↔ bitwise f.
Proof.
  intros Hn Hm. pose proof (call_holds (Bits n) f 10 eq_refl ltac:(done)) as H. destruct n as [|n]; [done|].
  destruct f; try (by destruct (Hm eq_refl)); cbn in H; cbn [bitwise].
  all: try (rewrite H; split; [done|intros _ g Hg; by apply elem_of_nil in Hg]).
  all: tauto.
Qed.
Theorem C97_bitset_empty f : marked (Bits 0) f → constant (Bits 0) f ↔ ¬ indexed f.
Proof.
  intros Hm. pose proof (call_holds (Bits 0) f 10 eq_refl ltac:(done)) as H.
  destruct f; try (by destruct (Hm eq_refl)); cbn in H; cbn [indexed].
  all: try (rewrite H; split; [tauto|intros _ g Hg; by apply elem_of_nil in Hg]).
  all: tauto.
Qed.
(** Bits of a variable: they can be changed, but not read *)
Theorem C97_bit_reference n f : marked (BitRef n) f →
  constant (BitRef n) f ↔ f = f_copy ∨ n ≠ 0 ∧ (f = f_assign_ref_bool ∨ f = f_flip).
Proof.
  assert (¬ constant (BitRef n) f_bool) as Hbool.
  { intros H. assert (∀ t g, constant t g → t = BitRef n → g ≠ f_bool) as Hi; [|by apply (Hi _ _ H)].
    clear H. apply (constant_mut _ (λ t g, t = BitRef n → g ≠ f_bool) (λ t steps, t = BitRef n → Call f_bool ∉ steps)); try done.
    - intros t g steps Hb _ _ IH -> ->. cbn in Hb. injection Hb as <-. specialize (IH eq_refl). set_solver.
    - intros t _. set_solver.
    - intros t g steps _ IH1 _ IH2 ->. specialize (IH1 eq_refl). specialize (IH2 eq_refl). set_solver.
    - intros t g steps _ _ _ IH ->. specialize (IH eq_refl). set_solver.
    - intros t g steps _ _ IH ->. specialize (IH eq_refl). set_solver. }
  assert (∀ g, constant (Bits n) g ∧ (g = f_set_index ∨ g = f_flip_index) ↔ n ≠ 0 ∧ (g = f_set_index ∨ g = f_flip_index)) as Hb.
  { intros g. destruct (decide (n = 0)) as [->|Hn].
    - split; [|tauto]. intros [H [->| ->]]; by apply C97_bitset_empty in H.
    - split; [tauto|]. intros [_ [->| ->]]; split; try tauto; by apply C97_bitset_partial. }
  assert (∀ u, u ∈ operands (BitRef n) ↔ u = Bits n) as Ho by (intros u; apply elem_of_list_singleton).
  intros Hm. destruct (fn_body (BitRef n) f) as [steps|] eqn:E; [|done]. rewrite (marked_inv _ _ _ E).
  assert (constant (BitRef n) f_assign_ref_bool ↔ n ≠ 0) as Hset.
  { erewrite (marked_inv (BitRef n) f_assign_ref_bool) by reflexivity. rewrite steps_elem, steps_nil. setoid_rewrite Ho.
    specialize (Hb f_set_index). cbn [literal]. split.
    - intros (_&H&_). apply Hb. split; [by apply H|tauto].
    - intros H. split; [done|]. split; [|done]. intros u ->. apply Hb. tauto. }
  assert (¬ constant (BitRef n) f_swap) as Hswap.
  { erewrite (marked_inv (BitRef n) f_swap) by reflexivity. rewrite steps_call. tauto. }
  assert (∀ g, g = f_set_index ∨ g = f_flip_index →
    (∀ u, u ∈ operands (BitRef n) → constant u g) ↔ n ≠ 0) as He.
  { intros g Hg. setoid_rewrite Ho. specialize (Hb g). split.
    - intros H. apply Hb. split; [by apply H|done].
    - intros H u ->. by apply Hb. }
  destruct f; try discriminate E; cbn in E; injection E as <-; cbn [literal];
    rewrite ?steps_call, ?steps_elem, ?steps_call, ?steps_nil; rewrite ?He by tauto.
  all: split; [intros H|intros [H|[H [H'|H']]]]; try discriminate; try tauto; try (by left); try (right; tauto).
Qed.

(** So the claim is false: no object of an optional, a variant, a variant_ref or a tuple can even exist
    in a constant expression, and no function_ref can be called *)
Theorem C97_refuted t ts f :
  ¬ constant (Opt t) f ∧ ¬ constant (Var ts) f ∧ ¬ constant (VRef ts) f ∧ (ts ≠ [] → ¬ constant (Tup ts) f) ∧
  ¬ constant FRef f_invoke ∧ (f_invoke ≠ f → marked FRef f → constant FRef f).
Proof.
  split; [by apply not_literal|]. split; [by apply not_literal|]. split; [by apply not_literal|].
  split; [intros Hts; apply not_literal; [done|by destruct ts]|].
  split; [apply (call_holds FRef f_invoke 10 eq_refl ltac:(done))|].
  intros Hf Hm. pose proof (call_holds FRef f 10 eq_refl ltac:(done)) as H.
  destruct f; try (by destruct (Hm eq_refl)); try done; cbn in H; apply H; intros g Hg; by apply elem_of_nil in Hg.
Qed.
(** the empty tuple is an exception *)
Theorem C97_tuple_empty f : marked (Tup []) f → constant (Tup []) f ↔ f ≠ f_construct.
Proof.
  intros Hm. pose proof (call_holds (Tup []) f 10 eq_refl ltac:(done)) as H.
  destruct f; try (by destruct (Hm eq_refl)); cbn in H.
  all: try (rewrite H; split; [done|intros _ g Hg u Hu; by apply elem_of_nil in Hu]).
  tauto.
Qed.
(** arrays nested to any depth: if the type of the program can be used in constant expressions, the
    array can be made, copied and read there, but not compared *)
Theorem C97_nested ns b f : base_literal b = true → (∀ g, base_constant b g = true) → ns ≠ [] → marked (nest ns b) f →
  constant (nest ns b) f ↔ array_needs f ≠ None.
Proof.
  intros Hb Hc Hne Hm.
  assert (∀ ms, literal (nest ms b) = true) as Hl.
  { induction ms as [|m ms IH]; [done|]. cbn [nest literal]. by rewrite IH, orb_true_r. }
  revert f Hm. induction ns as [|n ns IH]; [done|]. intros f Hm. cbn [nest] in *.
  rewrite C97_array_partial by done. split.
  - intros [_ (l&->&_)]. done.
  - intros Hn. split; [by right|]. destruct (array_needs f) as [l|] eqn:E; [|done]. exists l. split; [done|].
    right. intros g Hg. destruct ns as [|m ns]; [by constructor|]. apply IH; [done|..].
    + destruct f; cbn in E; try discriminate E; injection E as <-; set_unfold in Hg; destruct_or?; subst; done.
    + destruct f; cbn in E; try discriminate E; injection E as <-; set_unfold in Hg; destruct_or?; subst; done.
Qed.
End props.

(** ** Examples: int, and a class that can be copied but not compared in constant expressions *)
Inductive ex := Int | Class | Text.
Global Instance ex_program : Program := {|
  base := ex; base_literal := λ b, match b with Text => false | _ => true end;
  base_constant := λ b f, match b with Int => true | Class => match f with f_copy | f_move => true | _ => false end | Text => false end |}.
Definition ex_int : ty := @Base ex_program Int.
(** array<array<int, 2>, 3>: made and read, not compared *)
Example C97_nested_case :
  constant (nest [3; 2] Int) f_construct ∧ constant (nest [3; 2] Int) f_at ∧ constant (nest [3; 2] Int) f_crbegin ∧
  ¬ constant (nest [3; 2] Int) f_eq.
Proof. split; [|split; [|split]]; try (by apply C97_nested). intros H. by apply C97_nested in H. Qed.
Example C97_array_case :
  constant (Arr (Base Class) 4) f_copy ∧ ¬ constant (Arr (Base Class) 4) f_default ∧ constant (Arr (Base Text) 0) f_default ∧
  ¬ constant (Arr (Base Text) 1) f_size ∧ ¬ constant (Arr (Opt (Base Int)) 1) f_default.
Proof.
  split; [apply C97_array_partial; [done|]; split; [by right|]; eexists; split; [done|]; right; intros g Hg;
    apply elem_of_list_singleton in Hg as ->; by constructor|].
  split; [intros H; apply C97_array_partial in H as [_ (?&[= <-]&[?|H])]; [done| |done];
    specialize (H f_default ltac:(set_solver)); inversion H; done|].
  split; [apply C97_array_partial; [done|]; split; [by left|]; eexists; split; [done|]; by left|].
  split; intros H; apply C97_array_partial in H as [[H'|H'] _]; done.
Qed.
Example C97_bitset_case :
  constant (Bits 12) f_value ∧ constant (Bits 12) f_shl ∧ ¬ constant (Bits 12) f_count ∧ constant (Bits 0) f_count ∧
  constant (BitRef 12) f_flip ∧ ¬ constant (BitRef 12) f_compl.
Proof.
  split; [by apply C97_bitset_partial|]. split; [by apply C97_bitset_partial|].
  split; [intros H; by apply C97_bitset_partial in H|]. split; [apply C97_bitset_empty; [done|by intros ?]|].
  split; [apply C97_bit_reference; [done|]; auto|]. intros H. apply C97_bit_reference in H; [|done]. naive_solver.
Qed.
Example C97_view_case :
  constant SRef f_lt ∧ constant (ARef (Base Text)) f_subrange ∧ constant (ORef (Base Int)) f_value_or ∧
  ¬ constant (ORef (Base Class)) f_value_or ∧ constant (Tup []) f_eq ∧ ¬ constant (Tup [Base Int]) f_get.
Proof.
  split; [by apply (C97_views ex_int)|]. split; [by apply C97_views|].
  split; [apply C97_optional_ref; [done|]; split; by constructor|].
  split; [intros H; apply C97_optional_ref in H as [_ H]; [inversion H|..]; done|].
  split; [by apply C97_tuple_empty|]. by apply (C97_refuted ex_int).
Qed.

Print Assumptions C97_views.
Print Assumptions C97_optional_ref.
Print Assumptions C97_array_partial.
Print Assumptions C97_bitset_partial.
Print Assumptions C97_bitset_empty.
Print Assumptions C97_bit_reference.
Print Assumptions C97_refuted.
Print Assumptions C97_tuple_empty.
Print Assumptions C97_nested.
