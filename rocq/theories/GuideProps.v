(** C96: class template argument deduction. *)
From stdpp Require Import prelude.
From Verif Require Import GuideModel.

Section props.
Context `{L : Lang}.
Notation ty := (ty T).
Notation expr := (expr T).

(** ** Specification: arguments are stored by value, like in a variable declared with auto *)
Inductive stored : expr → ty → Prop :=
  | stored_array t n c k : stored (Expr (CArr t n) c k) (Ptr t c)
  | stored_function t c k : stored (Expr (Fun t) c k) (Ptr (Fun t) false)
  | stored_object t c k : (∀ u n, t ≠ CArr u n) → (∀ u, t ≠ Fun u) → stored (Expr t c k) t.
(** the deduced type is that of the only argument if [own] holds of that, else [build] of the stored types *)
Definition deduces (own : ty → Prop) (build : list ty → ty) (args : list expr) (t : ty) : Prop :=
  (∃ e, args = [e] ∧ own (typ e) ∧ t = typ e) ∨
  ((∀ e, args = [e] → ¬ own (typ e)) ∧ ∃ ts, Forall2 stored args ts ∧ t = build ts).

(** ** Lemmas *)
Lemma stored_by_value e t : stored e t ↔ by_value e = t.
Proof.
  split.
  - intros [u n c k|u c k|u c k H1 H2]; [done..|]. destruct u; try done; [by edestruct H1|by edestruct H2].
  - intros <-. destruct e as [u c k]. destruct u; cbn; constructor; done.
Qed.
Lemma stored_by_values args ts : Forall2 stored args ts ↔ by_value <$> args = ts.
Proof.
  split.
  - induction 1 as [|e t args ts H _ IH]; [done|]. apply stored_by_value in H. cbn. by rewrite H, IH.
  - intros <-. induction args as [|e args IH]; constructor; [by apply stored_by_value|done].
Qed.
Lemma array_best e t n : typ e = Array t n →
  best e (Guide (Array (by_value e) 1) Value false true false :: copy_guides e) = Some (typ e).
Proof. destruct e as [u c k]. cbn [typ]. intros ->. by destruct c, k. Qed.
Lemma tuple_best e ts : typ e = Tuple ts →
  best e (Guide (Tuple [by_value e]) Value false true false :: copy_guides e) = Some (typ e).
Proof. destruct e as [u c k]. cbn [typ]. intros ->. by destruct c, k. Qed.

(** ** Theorems *)
(** array{a, ...} is an array of as many elements as there are arguments, of the type of the first;
    an array is copied *)
Theorem C96_array args t : args ≠ [] →
  array_deduce args = Some t ↔
  deduces (λ u, ∃ v n, u = Array v n) (λ ts, match ts with [] => t | u :: _ => Array u (length ts) end) args t.
Proof.
  intros Hne. destruct args as [|e [|e2 args]]; [done| |].
  - assert ((∃ v n, typ e = Array v n) ∨ ¬ ∃ v n, typ e = Array v n) as [(v&n&He)|Hno].
    { destruct (typ e); (left; by eauto) || (right; by intros (?&?&?)). }
    1: { unfold array_deduce. rewrite He. rewrite (array_best e v n He). unfold deduces. split.
         - intros [= <-]. left. exists e. eauto.
         - intros [(?&[= <-]&_&->)|[H _]]; [done|]. exfalso. apply (H e); eauto. }
    unfold array_deduce.
    replace (match typ e with Array _ _ => copy_guides e | _ => [] end) with (@nil guide)
      by (destruct (typ e) eqn:?; try done; exfalso; eauto).
    cbn. unfold deduces. split.
    + intros [= <-]. right. split; [intros ? [= <-]; done|]. exists [by_value e]. split; [by apply stored_by_values|done].
    + intros [(?&[= <-]&?&->)|[_ (ts&Hts&->)]]; [done|]. apply stored_by_values in Hts. by subst ts.
  - unfold array_deduce, deduces. split.
    + intros [= <-]. right. split; [done|]. exists (by_value <$> e :: e2 :: args). split; [by apply stored_by_values|].
      cbn. by rewrite fmap_length.
    + intros [(?&?&_)|[_ (ts&Hts&->)]]; [done|]. apply stored_by_values in Hts. subst ts. cbn. by rewrite fmap_length.
Qed.

(** tuple{a, ...} is a tuple of the types of the arguments; a tuple is copied *)
Theorem C96_tuple args t : tuple_deduce args = Some t ↔ deduces (λ u, ∃ us, u = Tuple us) Tuple args t.
Proof.
  destruct args as [|e [|e2 args]].
  - unfold tuple_deduce, deduces. split.
    + intros [= <-]. right. split; [done|]. exists []. done.
    + intros [(?&?&_)|[_ (ts&Hts&->)]]; [done|]. apply stored_by_values in Hts. by subst ts.
  - assert ((∃ us, typ e = Tuple us) ∨ ¬ ∃ us, typ e = Tuple us) as [(us&He)|Hno].
    { destruct (typ e); (left; by eauto) || (right; by intros (?&?)). }
    1: { unfold tuple_deduce. rewrite He. rewrite (tuple_best e us He). unfold deduces. split.
         - intros [= <-]. left. exists e. eauto.
         - intros [(?&[= <-]&_&->)|[H _]]; [done|]. exfalso. apply (H e); eauto. }
    unfold tuple_deduce.
    replace (match typ e with Tuple _ => copy_guides e | _ => [] end) with (@nil guide)
      by (destruct (typ e) eqn:?; try done; exfalso; eauto).
    cbn. unfold deduces. split.
    + intros [= <-]. right. split; [intros ? [= <-]; done|]. exists [by_value e]. split; [by apply stored_by_values|done].
    + intros [(?&[= <-]&?&->)|[_ (ts&Hts&->)]]; [done|]. apply stored_by_values in Hts. by subst ts.
  - unfold tuple_deduce, deduces. split.
    + intros [= <-]. right. split; [done|]. eexists. split; [by apply stored_by_values|done].
    + intros [(?&?&_)|[_ (ts&Hts&->)]]; [done|]. apply stored_by_values in Hts. by subst ts.
Qed.

(** optional{a} is an optional of the type of a, and an optional is copied, for objects that are not
    const rvalues, except optionals *)
Theorem C96_optional_partial e t : (∀ u n, typ e ≠ CArr u n) → (∀ u, typ e ≠ Fun u) →
  (cst e = true → cat e = LValue ∨ ∃ v, typ e = Optional v) →
  optional_deduce [e] = Some t ↔
  deduces (λ u, ∃ v, u = Optional v) (λ ts, match ts with [u] => Optional u | _ => t end) [e] t.
Proof.
  intros Harr Hfun Hc.
  assert (∀ t', optional_deduce [e] = Some t' ↔ t' = match typ e with Optional v => Optional v | _ => Optional (by_value e) end) as Hm.
  { intros t'. destruct e as [u c k]. cbn [typ cst cat] in *.
    destruct c, k; [|by destruct (Hc eq_refl) as [|[v ->]]; [|cbn; split; congruence]| |];
      destruct u; try (by edestruct Harr); try (by edestruct Hfun); cbn; split; congruence. }
  rewrite Hm. unfold deduces. split.
  - intros ->. destruct (typ e) eqn:He; try (right; split; [intros ? [= <-] (?&?); congruence|];
      exists [by_value e]; split; [by apply stored_by_values|done]).
    left. exists e. eauto.
  - intros [(?&[= <-]&(v&Hv)&->)|[Hno (ts&Hts&->)]]; [by rewrite Hv|].
    apply stored_by_values in Hts. subst ts. cbn.
    destruct (typ e) eqn:He; try done. exfalso. apply (Hno e); eauto.
Qed.
(** A string literal, any other array and a function deduce an array or function as element, which no
    optional can hold; a const rvalue deduces a const element, which cannot be assigned *)
Theorem C96_optional_refuted :
  (∀ t n c, optional_deduce [Expr (CArr t n) c LValue] = Some (Optional (CArr t n))) ∧
  (∀ t, optional_deduce [Expr (Fun t) false LValue] = Some (Optional (Fun t))) ∧
  (∀ t, (∀ u, t ≠ Optional u) → (∀ u, t ≠ Fun u) → optional_deduce [Expr t true RValue] = Some (Optional (Const t))).
Proof.
  split; [|split]; [done..|]. intros t Ht Hf. destruct t; try done; [by edestruct Hf|by edestruct Ht].
Qed.

(** vector(first, last) of iterators has their values as elements, vector(count, value) values like
    the given one; vectors are copied, and an initializer_list has the elements *)
Theorem C96_vector :
  (∀ a b u v, stored a u → stored b u → iterator_value u = Some v → vector_deduce [a; b] = Some (Vector v)) ∧
  (∀ a b u, to_size a = true → stored a u → ¬ stored b u ∨ iterator_value u = None → vector_deduce [a; b] = Some (Vector (typ b))) ∧
  (∀ a b u, to_size a = false → stored a u → ¬ stored b u ∨ iterator_value u = None → vector_deduce [a; b] = None) ∧
  (∀ t c k, vector_deduce [Expr (Vector t) c k] = Some (Vector t) ∧ vector_braces_deduce [Expr (Vector t) c k] = Some (Vector t)) ∧
  (∀ t c k, vector_deduce [Expr (IList t) c k] = Some (Vector t)).
Proof.
  split; [|split; [|split; [|split]]].
  - intros a b u v Ha Hb Hu. apply stored_by_value in Ha, Hb. unfold vector_deduce.
    rewrite decide_True by congruence. by rewrite Ha, Hu.
  - intros a b u Hs Ha Hu. apply stored_by_value in Ha. unfold vector_deduce.
    rewrite Ha, Hs. rewrite stored_by_value in Hu. destruct (decide _); [|done]. destruct Hu as [[]| ->]; [congruence|done].
  - intros a b u Hs Ha Hu. apply stored_by_value in Ha. unfold vector_deduce.
    rewrite Ha, Hs. rewrite stored_by_value in Hu. destruct (decide _); [|done]. destruct Hu as [[]| ->]; [congruence|done].
  - done.
  - done.
Qed.
(** vector{a, ...} is a vector of the common type, if the arguments have one, whatever that is *)
Theorem C96_vector_braces args u : args ≠ [] → Forall (λ e, stored e u) args → (∀ e t, args = [e] → typ e ≠ Vector t) →
  vector_braces_deduce args = Some (Vector u).
Proof.
  intros Hne Hall Hno. destruct args as [|e args]; [done|]. inversion Hall as [|?? He Hr]; subst.
  apply stored_by_value in He. unfold vector_braces_deduce.
  assert (forallb (λ a, bool_decide (by_value a = by_value e)) args = true) as ->.
  { clear -Hr He. induction Hr as [|a args Ha _ IH]; [done|]. cbn. apply stored_by_value in Ha.
    rewrite bool_decide_eq_true_2 by congruence. done. }
  rewrite He. destruct (typ e) eqn:E; try done. destruct args; [by edestruct Hno|done].
Qed.
(** vector{a, ...} of arguments without common type is vector(count, value), or an error *)
Theorem C96_vector_mixed a b args u : stored a u → Exists (λ e, ¬ stored e u) (b :: args) →
  vector_braces_deduce (a :: b :: args) = if to_size a && bool_decide (args = []) then Some (Vector (typ b)) else None.
Proof.
  intros Ha Hex. apply stored_by_value in Ha. unfold vector_braces_deduce.
  assert (forallb (λ e, bool_decide (by_value e = by_value a)) (b :: args) = false) as ->.
  { rewrite Ha. clear -Hex. induction Hex as [e l He|e l _ IH]; cbn [forallb].
    - rewrite stored_by_value in He. by rewrite bool_decide_eq_false_2.
    - rewrite IH. apply andb_false_r. }
  destruct args as [|c args].
  - rewrite andb_true_r. assert (by_value a ≠ by_value b) as N.
    { intros E. rewrite Ha in E. apply Exists_cons in Hex as [H|H]; [|by inversion H]. apply H. by apply stored_by_value. }
    unfold vector_deduce. rewrite decide_False by done. by destruct (typ a).
  - rewrite andb_false_r. by destruct (typ a).
Qed.
(** so vector{first, last} holds two iterators: another type than vector(first, last) *)
Theorem C96_vector_braces_refuted a b u v : stored a u → stored b u → iterator_value u = Some v →
  vector_deduce [a; b] = Some (Vector v) ∧ vector_braces_deduce [a; b] = Some (Vector u).
Proof.
  intros Ha Hb Hv. split; [by eapply C96_vector|]. apply C96_vector_braces; [done|by repeat constructor|done].
Qed.
End props.

(** ** Examples *)
Inductive ex := Int | Char | Long | Size.
Global Instance ex_eq : EqDecision ex. Proof. solve_decision. Defined.
Fixpoint ex_beq (a b : ty ex) : bool :=
  match a, b with
  | Plain x, Plain y => bool_decide (x = y) | Const x, Const y => ex_beq x y
  | CArr x n, CArr y m => ex_beq x y && (n =? m) | Fun x, Fun y => bool_decide (x = y)
  | Ptr x c, Ptr y d => ex_beq x y && Bool.eqb c d | IList x, IList y => ex_beq x y
  | Array x n, Array y m => ex_beq x y && (n =? m) | Vector x, Vector y => ex_beq x y
  | Tuple xs, Tuple ys =>
      (fix go xs ys := match xs, ys with [], [] => true | x :: xs, y :: ys => ex_beq x y && go xs ys | _, _ => false end) xs ys
  | Optional x, Optional y => ex_beq x y
  | _, _ => false
  end.
Lemma ex_beq_spec : ∀ a b, ex_beq a b = true ↔ a = b.
Proof.
  fix IH 1. intros a b. split.
  - destruct a as [x|x|x n|x|x c|x|x n|x|xs|x], b as [y|y|y m|y|y d|y|y m|y|ys|y]; try discriminate; cbn [ex_beq]; intros H;
      try (apply andb_true_iff in H as [H1 H2]; apply IH in H1);
      try (apply bool_decide_eq_true in H); try (apply Nat.eqb_eq in H2); try (apply eqb_prop in H2);
      try (apply IH in H); try congruence.
    f_equal. revert ys H. induction xs as [|x xs IHxs]; intros [|y ys] H; try discriminate; [reflexivity|].
    apply andb_true_iff in H as [H1 H2]. apply IH in H1. apply IHxs in H2. congruence.
  - intros <-. destruct a as [x|x|x n|x|x c|x|x n|x|xs|x]; cbn [ex_beq];
      try (apply andb_true_iff; split); try apply bool_decide_eq_true; try apply Nat.eqb_eq; try apply eqb_reflx; try (apply IH); try reflexivity.
    induction xs as [|x xs IHxs]; [reflexivity|]. apply andb_true_iff. split; [apply IH; reflexivity|exact IHxs].
Qed.
Global Instance ex_ty_eq : EqDecision (ty ex).
Proof. intros a b. refine (match ex_beq a b as r return ex_beq a b = r → _ with true => λ H, left _ | false => λ H, right _ end eq_refl).
  - by apply ex_beq_spec.
  - intros E. apply ex_beq_spec in E. congruence.
Defined.
Global Instance ex_lang : Lang := {|
  T := ex; iterator_value := λ t, match t with Ptr u _ => Some u | _ => None end;
  to_size := λ e, match typ e with Plain _ => true | _ => false end |}.
Notation int := (Plain (T:=ex) Int).
Notation char := (Plain (T:=ex) Char).
Definition lit (t : ty ex) : expr ex := Expr t false RValue.
Definition str : expr ex := Expr (CArr (Plain Char) 4) true LValue.

(** array{1L, 2}, array{a}, array{a, a}, tuple{1, "abc"}, tuple{t} *)
Example C96_array_case :
  array_deduce [lit (Plain Long); lit int] = Some (Array (Plain Long) 2) ∧
  array_deduce [Expr (Array int 3) false LValue] = Some (Array int 3) ∧
  array_deduce [Expr (Array int 3) false LValue; Expr (Array int 3) false LValue] = Some (Array (Array int 3) 2) ∧
  array_deduce [str] = Some (Array (Ptr char true) 1).
Proof. done. Qed.
Example C96_tuple_case :
  tuple_deduce [lit int; str] = Some (Tuple [int; Ptr char true]) ∧
  tuple_deduce [Expr (Tuple [int]) true RValue] = Some (Tuple [int]) ∧
  tuple_deduce [Expr (Optional int) true RValue] = Some (Tuple [Optional int]) ∧ tuple_deduce [] = Some (Tuple []).
Proof. done. Qed.
(** optional{1}, optional{o}, optional{"abc"} *)
Example C96_optional_case :
  optional_deduce [lit int] = Some (Optional int) ∧ optional_deduce [Expr int true LValue] = Some (Optional int) ∧
  optional_deduce [lit (Optional int)] = Some (Optional int) ∧ optional_deduce [Expr (Optional int) true RValue] = Some (Optional int) ∧
  optional_deduce [str] = Some (Optional (CArr char 4)).
Proof. done. Qed.
(** vector(p, p), vector{p, p}, vector(3, 'a'), vector{3, 'a'}, vector{1, 2}, vector{v, v} *)
Example C96_vector_case :
  let p := Expr (Ptr int true) false LValue in
  let v := Expr (Vector int) true LValue in
  vector_deduce [p; p] = Some (Vector int) ∧ vector_braces_deduce [p; p] = Some (Vector (Ptr int true)) ∧
  vector_deduce [lit int; lit char] = Some (Vector char) ∧ vector_braces_deduce [lit int; lit char] = Some (Vector char) ∧
  vector_braces_deduce [lit int; lit int] = Some (Vector int) ∧ vector_braces_deduce [v; v] = Some (Vector (Vector int)) ∧
  vector_deduce [p; lit int] = None ∧
  vector_braces_deduce [p; lit int] = None ∧ vector_braces_deduce [lit int; lit char; lit char] = None ∧
  vector_deduce [lit (IList int)] = Some (Vector int).
Proof. by vm_compute. Qed.

Print Assumptions C96_array.
Print Assumptions C96_tuple.
Print Assumptions C96_optional_partial.
Print Assumptions C96_optional_refuted.
Print Assumptions C96_vector.
Print Assumptions C96_vector_braces.
Print Assumptions C96_vector_braces_refuted.
Print Assumptions C96_vector_mixed.
