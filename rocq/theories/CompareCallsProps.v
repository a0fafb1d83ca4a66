(** Properties C83 and C84: the calls of element operators made by comparisons. *)
From stdpp Require Import prelude.
From Coq Require Import Lia.
From Verif Require Import Cpp OrderSpec OrderProofs CompareCalls.
Local Open Scope nat_scope.

(** ** Specification: a comparison as a list of questions about elements.
    The questions are put in order. The answer to one may decide the comparison; if none does,
    the comparison has the result stated at the end. *)
Section spec.
Context `{C : EltOps}.
Record question := Question { q_call : op * A * A; q_if_true : option bool; q_if_false : option bool }.
Record plan := Plan { p_questions : list question; p_otherwise : bool }.

(** [k] questions are put, and none of them decides *)
Definition undecided (q : question) : Prop :=
  ∃ r, elt_op q.(q_call).1.1 q.(q_call).1.2 q.(q_call).2 = Some r ∧ (if r then q_if_true q else q_if_false q) = None.
Definition decides (q : question) (b : bool) : Prop :=
  ∃ r, elt_op q.(q_call).1.1 q.(q_call).1.2 q.(q_call).2 = Some r ∧ (if r then q_if_true q else q_if_false q) = Some b.
Definition throws (q : question) : Prop := elt_op q.(q_call).1.1 q.(q_call).1.2 q.(q_call).2 = None.

(** the plan is answered [b], after the calls [l] *)
Inductive answered (p : plan) : bool → list (op * A * A) → Prop :=
  | At_end : Forall undecided (p_questions p) → answered p (p_otherwise p) (q_call <$> p_questions p)
  | At_question before q after b : p_questions p = before ++ q :: after → Forall undecided before → decides q b →
      answered p b ((q_call <$> before) ++ [q_call q]).
(** a question of the plan that is put throws *)
Definition interrupted (p : plan) : Prop :=
  ∃ before q after, p_questions p = before ++ q :: after ∧ Forall undecided before ∧ throws q.

Definition negated (p : plan) : plan :=
  Plan ((λ q, Question (q_call q) (negb <$> q_if_true q) (negb <$> q_if_false q)) <$> p_questions p) (negb (p_otherwise p)).
Definition one (c : op * A * A) : plan := Plan [Question c (Some true) (Some false)] false.
Definition none (b : bool) : plan := Plan [] b.

(** are elements equal, pair by pair; sequences of different length are not compared *)
Definition plan_equal (a b : list A) : plan :=
  if decide (length a = length b)
  then Plan (zip_with (λ x y, Question (OEq, x, y) None (Some false)) a b) true else none false.
(** is one less, pair by pair; if all are equivalent the shorter sequence is less *)
Definition plan_less (a b : list A) : plan :=
  Plan (concat (zip_with (λ x y, [Question (OLt, x, y) (Some true) None; Question (OLt, y, x) (Some false) None]) a b))
       (bool_decide (length a < length b)).
(** the six operators by == and < *)
Definition plan_six (o : op) (a b : list A) : plan :=
  match o with
  | OEq => plan_equal a b | ONe => negated (plan_equal a b)
  | OLt => plan_less a b | OGe => negated (plan_less a b)
  | OGt => plan_less b a | OLe => negated (plan_less b a)
  end.
(** what an operator says about things ordered like this *)
Definition says (o : op) (c : comparison) : bool :=
  match o with
  | OLt => a_lt | OLe => a_le | OGt => a_gt | OGe => a_ge | OEq => a_eq | ONe => a_ne
  end (answers_for c).
(** the empty optional comes before all values *)
Definition plan_opt (o : op) (a b : option A) : plan :=
  match a, b with
  | Some x, Some y => one (o, x, y)
  | Some _, None => none (says o Gt) | None, Some _ => none (says o Lt) | None, None => none (says o Eq)
  end.
Definition plan_for (o : op) (p : operands) : plan :=
  match p with
  | Seqs a b | Tuples a b => plan_six o a b
  | Opts a b => plan_opt o a b
  | OptVal a b => plan_opt o a (Some b)
  | ValOpt a b => plan_opt o (Some a) b
  | Vars a b => match Nat.compare a.1 b.1 with Eq => one (o, a.2, b.2) | c => none (says o c) end
  end.
(** tuples of one type have equally many components *)
Definition well_typed (p : operands) : Prop := match p with Tuples a b => length a = length b | _ => True end.
(** no element operator throws for the elements of these *)
Definition elements (p : operands) : list A * list A :=
  match p with
  | Seqs a b | Tuples a b => (a, b)
  | Opts a b => (option_list a, option_list b) | OptVal a b => (option_list a, [b]) | ValOpt a b => ([a], option_list b)
  | Vars a b => ([a.2], [b.2])
  end.
End spec.

(** ** Proofs *)
Section proofs.
Context `{C : EltOps}.

(** the outcome of a plan: what the code should do, question by question *)
Fixpoint go (qs : list question) (z : bool) : M calls bool :=
  match qs with
  | [] => ret z
  | q :: qs' => r <- ask q.(q_call).1.1 q.(q_call).1.2 q.(q_call).2 ;;
      match (if r then q_if_true q else q_if_false q) with Some b => ret b | None => go qs' z end
  end.
Definition go_plan (p : plan) : M calls bool := go (p_questions p) (p_otherwise p).

Lemma noexcept2 {S B} (m : M S B) s : noexcept (noexcept m) s = noexcept m s.
Proof. unfold noexcept. by destruct (m s). Qed.
Lemma noexcept_bind {S B D} (m : M S B) (k : B → M S D) s : noexcept (bind (noexcept m) k) s = noexcept (bind m k) s.
Proof. unfold noexcept, bind. by destruct (m s). Qed.
Lemma noexcept_ext {S B} (m m' : M S B) s : m s = m' s → noexcept m s = noexcept m' s.
Proof. unfold noexcept. by intros ->. Qed.

Lemma equal_go a : ∀ b s, length a = length b →
  equal_loop a b s = go (zip_with (λ x y, Question (OEq, x, y) None (Some false)) a b) true s.
Proof.
  induction a as [|x a IH]; intros [|y b] s Hl; try done. cbn [equal_loop go zip_with q_call fst snd q_if_true q_if_false]. unfold bind.
  destruct (ask OEq x y s) as [[] s'|e s'|f|]; try done. apply IH. cbn in Hl. lia.
Qed.
Lemma lex_go a : ∀ b s, std_lexicographical_compare a b s = go_plan (plan_less a b) s.
Proof.
  induction a as [|x a IH]; intros [|y b] s; try done.
  unfold go_plan, plan_less. cbn [std_lexicographical_compare zip_with concat app go p_questions q_call fst snd q_if_true q_if_false]. unfold bind.
  destruct (ask OLt x y s) as [[] s'|e s'|f|]; try done.
  destruct (ask OLt y x s') as [[] s''|e s''|f|]; try done.
  rewrite IH. unfold go_plan, plan_less. cbn [p_questions p_otherwise].
  replace (bool_decide (length (x :: a) < length (y :: b))) with (bool_decide (length a < length b)); [done|].
  apply bool_decide_ext. cbn. lia.
Qed.
Lemma go_negated qs z s : (r <- go qs z ;; ret (negb r)) s = go_plan (negated (Plan qs z)) s.
Proof.
  revert s. induction qs as [|q qs IH]; intros s; [done|]. unfold go_plan, negated in *. cbn [p_questions p_otherwise fmap list_fmap go q_call q_if_true q_if_false] in *.
  unfold bind in *. destruct (ask _ _ _ s) as [r s'|e s'|f|]; try done.
  destruct r; [destruct (q_if_true q)|destruct (q_if_false q)]; cbn [fmap option_fmap option_map]; try done; apply IH.
Qed.
Lemma st_equal_go a : ∀ b s, length a = length b → st_equal a b s = noexcept (equal_loop a b) s.
Proof.
  induction a as [|x a IH]; intros [|y b] s Hl; try done. cbn [st_equal equal_loop]. unfold noexcept at 1 2, bind.
  destruct (ask OEq x y s) as [[] s'|e s'|f|]; try done. rewrite IH by (cbn in Hl; lia). unfold noexcept. by destruct (equal_loop a b s').
Qed.
Lemma st_less_go a : ∀ b s, length a = length b → st_less a b s = noexcept (std_lexicographical_compare a b) s.
Proof.
  induction a as [|x a IH]; intros [|y b] s Hl; try done. cbn [st_less std_lexicographical_compare]. unfold noexcept at 1 2, bind.
  destruct (ask OLt x y s) as [[] s'|e s'|f|]; try done. destruct (ask OLt y x s') as [[] s''|e s''|f|]; try done. cbn [negb].
  rewrite IH by (cbn in Hl; lia). unfold noexcept. by destruct (std_lexicographical_compare a b s'').
Qed.
Lemma std_equal_go a b s : std_equal a b s = go_plan (plan_equal a b) s.
Proof.
  unfold std_equal, plan_equal, go_plan. destruct (Nat.eqb_spec (length a) (length b)) as [Hl|Hl]; destruct (decide _); try done.
  by apply equal_go.
Qed.
Lemma negate_go (m : M calls bool) p s : (∀ s, m s = noexcept (go_plan p) s) →
  noexcept (r <- m ;; ret (negb r)) s = noexcept (go_plan (negated p)) s.
Proof.
  intros Hm. destruct p as [qs z]. pose proof (go_negated qs z s) as H. unfold noexcept, bind in *. rewrite <-H.
  rewrite Hm. unfold noexcept, go_plan. cbn [p_questions p_otherwise]. by destruct (go qs z s).
Qed.
Lemma compare_go o p s : well_typed p → compare o p s = noexcept (go_plan (plan_for o p)) s.
Proof.
  intros Hp.
  assert (∀ a b s, seq_lt a b s = noexcept (go_plan (plan_less a b)) s) as Hlt.
  { intros a b s'. unfold seq_lt. apply noexcept_ext, lex_go. }
  assert (∀ a b s, seq_eq a b s = noexcept (go_plan (plan_equal a b)) s) as Heq.
  { intros a b s'. unfold seq_eq. apply noexcept_ext, std_equal_go. }
  assert (∀ a b s, length a = length b → tup_lt a b s = noexcept (go_plan (plan_less a b)) s) as Htlt.
  { intros a b s' Hl. unfold tup_lt, noexcept at 1. rewrite st_less_go by done. unfold noexcept. rewrite lex_go. by destruct (go_plan _ s'). }
  assert (∀ a b s, length a = length b → tup_eq a b s = noexcept (go_plan (plan_equal a b)) s) as Hteq.
  { intros a b s' Hl. unfold tup_eq, noexcept at 1. rewrite st_equal_go by done. unfold noexcept.
    pose proof (std_equal_go a b s') as H. unfold std_equal in H. rewrite Hl, Nat.eqb_refl in H. rewrite <-H. by destruct (equal_loop a b s'). }
  assert (∀ (m : M calls bool) q s, (∀ s, m s = noexcept (go_plan q) s) → noexcept m s = noexcept (go_plan q) s) as Hne.
  { intros m q s' Hm. rewrite <-(noexcept2 (go_plan q)). by apply noexcept_ext. }
  destruct p as [a b|a b|a b|a b|a b|a b]; cbn [well_typed] in Hp.
  - destruct o; cbn [compare plan_for plan_six]; auto.
    + unfold seq_le. apply negate_go. intros s'. unfold seq_gt. by apply Hne.
    + unfold seq_gt. by apply Hne.
    + unfold seq_ge. by apply negate_go.
    + unfold seq_ne. by apply negate_go.
  - destruct o; cbn [compare plan_for plan_six]; auto.
    + unfold tup_le. apply negate_go. intros s'. unfold tup_gt. apply Hne. auto.
    + unfold tup_gt. apply Hne. auto.
    + unfold tup_ge. apply negate_go. auto.
    + unfold tup_ne. apply negate_go. auto.
  - assert (∀ o x y, noexcept (ask_star o (star (Some x)) (star (Some y))) s = noexcept (go_plan (one (o, x, y))) s) as H.
    { intros o' x y. apply noexcept_ext. unfold ask_star, star, go_plan, one, ret, bind. cbn [go p_questions q_call fst snd q_if_true q_if_false]. unfold bind.
      by destruct (ask o' x y s) as [[]|?|?|]. }
    destruct a as [a|], b as [b|], o; try done; apply H.
  - destruct a as [a|]; [|by destruct o]. cbn [compare plan_for plan_opt]. unfold ov, ask_star, star, go_plan, one, ret, bind. apply noexcept_ext.
    cbn [go p_questions q_call fst snd q_if_true q_if_false]. unfold bind. by destruct (ask o a b s) as [[]|?|?|].
  - destruct b as [b|]; [|by destruct o]. cbn [compare plan_for plan_opt]. unfold vo, ask_star, star, go_plan, one, ret, bind. apply noexcept_ext.
    cbn [go p_questions q_call fst snd q_if_true q_if_false]. unfold bind. by destruct (ask o a b s) as [[]|?|?|].
  - assert (∀ o, noexcept (st_compare o a b) s = noexcept (go_plan (one (o, a.2, b.2))) s) as H.
    { intros o'. unfold st_compare. rewrite noexcept2. apply noexcept_ext. unfold go_plan, one. cbn [go p_questions q_call fst snd q_if_true q_if_false]. unfold bind.
      by destruct (ask o' a.2 b.2 s) as [[]|?|?|]. }
    assert (∀ c d, (c =? d) = match Nat.compare c d with Eq => true | _ => false end) as E1.
    { intros c d. destruct (Nat.eqb_spec c d) as [->|]; [by rewrite Nat.compare_refl|]. destruct (Nat.compare_spec c d); try done. }
    assert (∀ c d, (c <? d) = match Nat.compare c d with Lt => true | _ => false end) as E2.
    { intros c d. destruct (Nat.ltb_spec c d), (Nat.compare_spec c d); try done; lia. }
    assert (∀ c d, (d <? c) = match Nat.compare c d with Gt => true | _ => false end) as E3.
    { intros c d. destruct (Nat.ltb_spec d c), (Nat.compare_spec c d); try done; lia. }
    cbn [plan_for]. specialize (E1 a.1 b.1). specialize (E2 a.1 b.1). specialize (E3 a.1 b.1).
    destruct o; cbn [compare]; unfold var_eq, var_ne, var_lt, var_le, var_gt, var_ge; rewrite ?E1, ?E2, ?E3;
      destruct (Nat.compare a.1 b.1); cbn [negb]; try done; apply H.
Qed.

Lemma ask_some o a b r s : elt_op o a b = Some r → ask o a b s = Ok r (s ++ [(o, a, b)]).
Proof. unfold ask. by intros ->. Qed.
Lemma call_eta (q : question) : (q.(q_call).1.1, q.(q_call).1.2, q.(q_call).2) = q_call q.
Proof. by destruct q as [[[? ?] ?] ? ?]. Qed.
(** run through a plan *)
Lemma go_undecided qs : ∀ qs' z s, Forall undecided qs → go (qs ++ qs') z s = go qs' z (s ++ (q_call <$> qs)).
Proof.
  induction qs as [|q qs IH]; intros qs' z s H; [by rewrite app_nil_r|].
  apply Forall_cons in H as [(r & Hr & Hu) H]. cbn [app go]. unfold bind. rewrite (ask_some _ _ _ _ _ Hr), Hu, IH by done.
  rewrite call_eta. cbn. by rewrite <-app_assoc.
Qed.
Lemma go_cases qs z s :
  (Forall undecided qs ∧ go qs z s = Ok z (s ++ (q_call <$> qs))) ∨
  (∃ before q after b, qs = before ++ q :: after ∧ Forall undecided before ∧ decides q b ∧
     go qs z s = Ok b (s ++ (q_call <$> before) ++ [q_call q])) ∨
  (∃ before q after, qs = before ++ q :: after ∧ Forall undecided before ∧ throws q ∧ ∃ s', go qs z s = Exn ElementThrow s').
Proof.
  revert s. induction qs as [|q qs IH]; intros s; [left; by rewrite app_nil_r|].
  destruct (elt_op q.(q_call).1.1 q.(q_call).1.2 q.(q_call).2) as [r|] eqn:Hr.
  - destruct (if r then q_if_true q else q_if_false q) as [b|] eqn:Hb.
    + right. left. exists [], q, qs, b. split; [done|]. split; [done|]. split; [by exists r|]. cbn [go]. unfold bind. rewrite (ask_some _ _ _ _ _ Hr), Hb. by rewrite call_eta.
    + assert (undecided q) as Hu by (by exists r).
      assert (∀ s, go (q :: qs) z s = go qs z (s ++ [q_call q])) as E.
      { intros s'. cbn [go]. unfold bind. by rewrite (ask_some _ _ _ _ _ Hr), Hb, call_eta. }
      rewrite E. destruct (IH (s ++ [q_call q])) as [[H1 H2]|[(bf & q' & af & b & -> & H2 & H3 & H4)|(bf & q' & af & -> & H2 & H3 & H4)]].
      * left. split; [by constructor|]. rewrite H2. cbn. by rewrite <-app_assoc.
      * right. left. exists (q :: bf), q', af, b. split; [done|]. split; [by constructor|]. split; [done|]. rewrite H4. cbn. by rewrite <-app_assoc.
      * right. right. exists (q :: bf), q', af. split; [done|]. split; [by constructor|]. by split.
  - right. right. exists [], q, qs. split; [done|]. split; [done|]. split; [done|]. exists (s ++ [q_call q]). cbn [go]. unfold bind, ask. by rewrite Hr, call_eta.
Qed.
End proofs.

(** ** C83 *)
Section props.
Context `{C : EltOps}.

(** exactly: the comparison answers what the plan says after the calls the plan says, and
    terminates the program if one of these calls throws *)
Theorem C83_behaviour o p s : well_typed p →
  (∃ b l, answered (plan_for o p) b l ∧ compare o p s = Ok b (s ++ l)) ∨
  (interrupted (plan_for o p) ∧ compare o p s = Terminated).
Proof.
  intros Hp. rewrite (compare_go o p s Hp). destruct (plan_for o p) as [qs z]. unfold go_plan, noexcept. cbn [p_questions p_otherwise].
  destruct (go_cases qs z s) as [[H1 H2]|[(bf & q & af & b & Hq & H2 & H3 & H4)|(bf & q & af & Hq & H2 & H3 & s' & H4)]].
  - left. exists z, (q_call <$> qs). rewrite H2. split; [|done]. by apply (At_end (Plan qs z)).
  - left. exists b, ((q_call <$> bf) ++ [q_call q]). rewrite H4. split; [|done]. by eapply (At_question (Plan qs z)).
  - right. rewrite H4. split; [|done]. by exists bf, q, af.
Qed.
(** the two cases exclude each other, and there is only one answer *)
Theorem C83_terminates o p s : well_typed p → compare o p s = Terminated ↔ interrupted (plan_for o p).
Proof.
  intros Hp. rewrite (compare_go o p s Hp). destruct (plan_for o p) as [qs z]. unfold go_plan, noexcept. cbn [p_questions p_otherwise]. split.
  - destruct (go_cases qs z s) as [[H1 H2]|[(bf & q & af & b & Hq & H2 & H3 & H4)|(bf & q & af & Hq & H2 & H3 & s' & H4)]].
    + by rewrite H2. + by rewrite H4. + intros _. by exists bf, q, af.
  - intros (bf & q & af & Hq & H1 & H2). cbn [p_questions] in Hq. rewrite Hq, go_undecided by done. cbn [go]. unfold bind, ask. unfold throws in H2. by rewrite H2.
Qed.
(** the questions put about two sequences are about elements of theirs *)
Lemma six_questions o a b (q : question) : q ∈ p_questions (plan_six o a b) →
  ∃ o' x y, (q_call q = (o', x, y) ∨ q_call q = (o', y, x)) ∧ x ∈ a ∧ y ∈ b.
Proof.
  assert (∀ (q : question) (a b : list A), q ∈ p_questions (plan_equal a b) → ∃ o' x y, q_call q = (o', x, y) ∧ x ∈ a ∧ y ∈ b) as Heq.
  { intros q' a' b'. unfold plan_equal. destruct (decide _); [|cbn; by intros ?%elem_of_nil]. cbn [p_questions]. intros H.
    apply elem_of_lookup_zip_with_1 in H as (i & x & y & -> & Hx & Hy). exists OEq, x, y. split; [done|]. split; by eapply elem_of_list_lookup_2. }
  assert (∀ (q : question) (a b : list A), q ∈ p_questions (plan_less a b) → ∃ o' x y, (q_call q = (o', x, y) ∨ q_call q = (o', y, x)) ∧ x ∈ a ∧ y ∈ b) as Hlt.
  { intros q' a' b' H. cbn [plan_less p_questions] in H. apply elem_of_list_In, in_concat in H as (l & Hl & Hi).
    apply elem_of_list_In, elem_of_lookup_zip_with_1 in Hl as (i & x & y & -> & Hx & Hy). exists OLt, x, y.
    split; [destruct Hi as [<-|[<-|[]]]; auto|]. split; by eapply elem_of_list_lookup_2. }
  assert (∀ pl, q ∈ p_questions (negated pl) → ∃ q', q_call q = q_call q' ∧ q' ∈ p_questions pl) as Hneg.
  { intros pl H. cbn [negated p_questions] in H. apply elem_of_list_fmap in H as (q' & -> & ?). by exists q'. }
  destruct o; cbn [plan_six]; intros H.
  - by apply Hlt.
  - apply Hneg in H as (q' & -> & (o' & x & y & [H|H] & ? & ?)%Hlt); exists o', y, x; auto.
  - apply Hlt in H as (o' & x & y & [H|H] & ? & ?); exists o', y, x; auto.
  - apply Hneg in H as (q' & -> & H%Hlt); auto.
  - apply Heq in H as (o' & x & y & H & ? & ?); exists o', x, y; auto.
  - apply Hneg in H as (q' & -> & (o' & x & y & H & ? & ?)%Heq); exists o', x, y; auto.
Qed.
(** An exception of an element operator reaches the caller: proved to be false; what holds is
    that comparisons answer if the operators do not throw for the elements at hand. *)
Theorem C83_answers_partial o p s : well_typed p →
  (∀ o' x y, x ∈ (elements p).1 → y ∈ (elements p).2 → is_Some (elt_op o' x y) ∧ is_Some (elt_op o' y x)) →
  ∃ b l, compare o p s = Ok b (s ++ l).
Proof.
  intros Hp Ht. destruct (C83_behaviour o p s Hp) as [(b & l & _ & H)|[(bf & q & af & Hq & _ & Hn) _]]; [by exists b, l|exfalso].
  assert (q ∈ p_questions (plan_for o p)) as Hin by (rewrite Hq, elem_of_app; right; left).
  assert (∃ o' x y, (q_call q = (o', x, y) ∨ q_call q = (o', y, x)) ∧ x ∈ (elements p).1 ∧ y ∈ (elements p).2) as (o' & x & y & Hc & Hx & Hy).
  { pose proof (six_questions o) as Hsix.
    assert (∀ a b : option A, q ∈ p_questions (plan_opt o a b) → ∃ o' x y, (q_call q = (o', x, y) ∨ q_call q = (o', y, x)) ∧ x ∈ option_list a ∧ y ∈ option_list b) as Hopt.
    { intros [a|] [b|]; cbn; try (by intros ?%elem_of_nil). intros ->%elem_of_list_singleton. exists o, a, b. split; [by left|]. split; by apply elem_of_list_singleton. }
    destruct p as [a b|a b|a b|a b|a b|a b]; cbn [elements plan_for fst snd] in *; eauto.
    - by apply (Hopt a (Some b)).
    - by apply (Hopt (Some a) b).
    - destruct (Nat.compare a.1 b.1); cbn in Hin; [|by apply elem_of_nil in Hin..]. apply elem_of_list_singleton in Hin as ->.
      exists o, a.2, b.2. split; [by left|]. split; by apply elem_of_list_singleton. }
  destruct (Ht o' x y Hx Hy) as [H1 H2]. unfold throws in Hn. destruct Hc as [Hc|Hc]; rewrite Hc in Hn; cbn [fst snd] in Hn; rewrite Hn in *.
  - by destruct H1. - by destruct H2.
Qed.
End props.

Section refuted.
Context `{C : EltOps}.
(** whatever the comparison is, if the elements' own operator throws the program ends *)
Theorem C83_exception_refuted o x y s :
  elt_op o x y = None →
  ((o = OEq ∨ o = OLt) → ∀ a b, compare o (Seqs (x :: a) (y :: b)) s = Terminated ∨ o = OEq ∧ length a ≠ length b) ∧
  ((o = OEq ∨ o = OLt) → ∀ a b, length a = length b → compare o (Tuples (x :: a) (y :: b)) s = Terminated) ∧
  compare o (Opts (Some x) (Some y)) s = Terminated ∧ compare o (OptVal (Some x) y) s = Terminated ∧
  compare o (ValOpt x (Some y)) s = Terminated ∧ ∀ i, compare o (Vars (i, x) (i, y)) s = Terminated.
Proof.
  intros Hn.
  assert (∀ p q qs z, plan_for o p = Plan (q :: qs) z → well_typed p → q_call q = (o, x, y) → compare o p s = Terminated) as H2.
  { intros p q qs z Hq Hp Hc. apply C83_terminates; [done|]. exists [], q, qs. rewrite Hq. split; [done|]. split; [constructor|]. unfold throws. by rewrite Hc. }
  split; [|split; [|split; [|split; [|split]]]].
  - intros [->| ->] a b; [|left; by eapply (H2 (Seqs (x :: a) (y :: b)))]. destruct (decide (length a = length b)) as [E|]; [left|by right].
    eapply (H2 (Seqs (x :: a) (y :: b))); [cbn [plan_for plan_six]; unfold plan_equal; rewrite decide_True by (cbn; lia); done|done|done].
  - intros [->| ->] a b E; [|eapply (H2 (Tuples (x :: a) (y :: b))); [done|cbn; lia|done]].
    eapply (H2 (Tuples (x :: a) (y :: b))); [cbn [plan_for plan_six]; unfold plan_equal; rewrite decide_True by (cbn; lia); done|cbn; lia|done].
  - by eapply (H2 (Opts (Some x) (Some y))). - by eapply (H2 (OptVal (Some x) y)). - by eapply (H2 (ValOpt x (Some y))).
  - intros i. eapply (H2 (Vars (i, x) (i, y))); [cbn [plan_for fst snd]; rewrite Nat.compare_refl; done|done|done].
Qed.

(** ** C84 *)
(** the calls that decide == and <, in order *)
Definition equal_calls (a b : list A) : list (op * A * A) :=
  if decide (length a = length b) then zip_with (λ x y, (OEq, x, y)) a b else [].
Definition less_calls (a b : list A) : list (op * A * A) := concat (zip_with (λ x y, [(OLt, x, y); (OLt, y, x)]) a b).

Lemma answered_prefix p b l : answered p b l → l `prefix_of` (q_call <$> p_questions p).
Proof.
  intros [H|bf q af b' Hq H1 H2]; [done|]. rewrite Hq, fmap_app. cbn. exists (q_call <$> af). by rewrite <-app_assoc.
Qed.
Lemma negated_calls p : q_call <$> p_questions (negated p) = q_call <$> p_questions p.
Proof. cbn [negated p_questions]. rewrite <-list_fmap_compose. apply list_fmap_ext. done. Qed.
Lemma equal_questions (a b : list A) : q_call <$> p_questions (plan_equal a b) = equal_calls a b.
Proof.
  unfold plan_equal, equal_calls. destruct (decide _) as [Hl|]; [|done]. cbn [p_questions]. clear Hl. revert b.
  induction a as [|x a IH]; intros [|y b]; try done. cbn. by rewrite IH.
Qed.
Lemma less_questions (a b : list A) : q_call <$> p_questions (plan_less a b) = less_calls a b.
Proof.
  unfold less_calls. cbn [plan_less p_questions]. revert b.
  induction a as [|x a IH]; intros [|y b]; try done. cbn. by rewrite IH.
Qed.
(** Vectors, arrays and tuples are compared with == and < of the elements only, in order, each
    pair at most once in each direction, and not at all beyond what decides. *)
Theorem C84_sequence_calls o p a b r s s' : p = Seqs a b ∨ p = Tuples a b → well_typed p → compare o p s = Ok r s' →
  ∃ l, s' = s ++ l ∧ l `prefix_of` match o with
    | OEq | ONe => equal_calls a b
    | OLt | OGe => less_calls a b
    | OGt | OLe => less_calls b a
    end.
Proof.
  intros Hab Hp Hr.
  destruct (C83_behaviour o p s Hp) as [(b' & l & Ha & Hc)|[_ Hc]]; rewrite Hr in Hc; [|done]. injection Hc as _ ->.
  exists l. split; [done|]. apply answered_prefix in Ha.
  assert (plan_for o p = plan_six o a b) as E by (by destruct Hab as [->| ->]). rewrite E in Ha.
  destruct o; cbn [plan_six] in Ha; rewrite ?negated_calls, ?equal_questions, ?less_questions in Ha; done.
Qed.
(** optionals and variants are compared with the operator asked for, once, and only if both
    hold a value (of the same alternative); the operands are not exchanged *)
Theorem C84_single_call o p r s s' : (∀ a b, p ≠ Seqs a b ∧ p ≠ Tuples a b) → compare o p s = Ok r s' →
  ∃ l, s' = s ++ l ∧ (l = [] ∨ ∃ x y, l = [(o, x, y)] ∧ elt_op o x y = Some r ∧
    match p with
    | Opts a b => a = Some x ∧ b = Some y
    | OptVal a b => a = Some x ∧ b = y
    | ValOpt a b => a = x ∧ b = Some y
    | Vars a b => a.1 = b.1 ∧ a.2 = x ∧ b.2 = y
    | _ => False
    end).
Proof.
  intros Hab Hr. assert (well_typed p) as Hp by (destruct p; try done; by edestruct Hab).
  destruct (C83_behaviour o p s Hp) as [(b' & l & Ha & Hc)|[_ Hc]]; rewrite Hr in Hc; [|done]. injection Hc as <- ->. exists l. split; [done|].
  assert (∀ b, answered (none b) r l → l = []) as Hnone.
  { intros b H. apply answered_prefix in H. cbn in H. by apply prefix_nil_inv in H. }
  assert (∀ x y, answered (one (o, x, y)) r l → l = [(o, x, y)] ∧ elt_op o x y = Some r) as Hone.
  { intros x y H. inversion H as [H1 H2 H3|bf q af b Hq H1 H2 H3 H4].
    - cbn [one p_questions] in H1. apply Forall_cons in H1 as [(v & _ & Hv) _]. by destruct v.
    - cbn [one p_questions] in Hq. destruct bf as [|q' bf]; [|destruct bf; done]. injection Hq as <- <-. split; [done|].
      destruct H2 as (v & Hv & Hd). cbn [q_call q_if_true q_if_false fst snd] in *. rewrite Hv. by destruct v. }
  destruct p as [a b|a b|a b|a b|a b|a b]; cbn [plan_for] in Ha; [by destruct (Hab a b)|by destruct (Hab a b)|..].
  - destruct a as [a|], b as [b|]; cbn [plan_opt] in Ha; [|left; by eapply Hnone..]. right. exists a, b. by destruct (Hone _ _ Ha).
  - destruct a as [a|]; cbn [plan_opt] in Ha; [|left; by eapply Hnone]. right. exists a, b. by destruct (Hone _ _ Ha).
  - destruct b as [b|]; cbn [plan_opt] in Ha; [|left; by eapply Hnone]. right. exists a, b. by destruct (Hone _ _ Ha).
  - destruct (Nat.compare_spec a.1 b.1) as [E|E|E]; [|left; by eapply Hnone..]. right. exists a.2, b.2. by destruct (Hone _ _ Ha).
Qed.
(** at most one call per pair for ==, none at all for different lengths, at most two for < *)
Theorem C84_count o a b r s s' : compare o (Seqs a b) s = Ok r s' →
  length s' ≤ length s + match o with
    | OEq | ONe => if decide (length a = length b) then length a else 0
    | _ => 2 * (length a `min` length b)
    end.
Proof.
  intros Hr. destruct (C84_sequence_calls o (Seqs a b) a b r s s') as (l & -> & Hl); [by left|done|done|].
  assert (∀ a b : list A, length (less_calls a b) = 2 * (length a `min` length b)) as Hless.
  { clear. induction a as [|x a IH]; intros [|y b]; try done. unfold less_calls in *. cbn [zip_with concat app length]. rewrite IH. cbn [length]. lia. }
  rewrite app_length. apply prefix_length in Hl. pose proof (Hless a b). pose proof (Hless b a).
  assert (length (equal_calls a b) = if decide (length a = length b) then length a else 0) as He.
  { unfold equal_calls. destruct (decide _); [|done]. rewrite zip_with_length. lia. }
  destruct o; lia.
Qed.
(** operators that do not throw: the answers are those of C25 *)
Theorem C84_answers a b : (∀ o x y, is_Some (elt_op o x y)) →
  let lt x y := elt_op OLt x y = Some true in let eq x y := elt_op OEq x y = Some true in
  ∀ p s, p = Seqs a b ∨ (p = Tuples a b ∧ length a = length b) →
  ∃ r, (∀ o, ∃ s', compare o p s = Ok (r o) s') ∧
    (r OLt = true ↔ lex_less lt a b) ∧ (r OGt = true ↔ lex_less lt b a) ∧
    (r OLe = true ↔ ¬ lex_less lt b a) ∧ (r OGe = true ↔ ¬ lex_less lt a b) ∧
    (r OEq = true ↔ all_equal eq a b) ∧ (r ONe = true ↔ ¬ all_equal eq a b).
Proof.
  intros Ht lt eq p s Hp.
  assert (∀ a b s, ∃ r s', go_plan (plan_less a b) s = Ok r s' ∧ (r = true ↔ lex_less lt a b)) as Hlt.
  { clear - Ht. intros a b s. rewrite <-lex_go. revert b s. induction a as [|x a IH]; intros [|y b] s.
    - exists false, s. split; [done|]. split; [done|]. by intros ?%lex_nil_r.
    - exists true, s. split; [done|]. split; [|done]. intros _. apply lex_nil_cons.
    - exists false, s. split; [done|]. split; [done|]. by intros ?%lex_nil_r.
    - cbn [std_lexicographical_compare]. unfold bind. destruct (Ht OLt x y) as [[] E1]; rewrite (ask_some _ _ _ _ _ E1).
      { exists true, (s ++ [(OLt, x, y)]). split; [done|]. split; [|done]. intros _. apply lex_cons. by left. }
      destruct (Ht OLt y x) as [[] E2]; rewrite (ask_some _ _ _ _ _ E2).
      { eexists false, _. split; [done|]. split; [done|]. rewrite lex_cons. subst lt. cbn beta. rewrite E1, E2. intros [?|(_ & ? & _)]; done. }
      destruct (IH b ((s ++ [(OLt, x, y)]) ++ [(OLt, y, x)])) as (r & s' & Hr & Hs). exists r, s'. split; [done|]. rewrite Hs, lex_cons. subst lt. cbn beta.
      rewrite E1, E2. split; [auto|]. intros [?|(_ & _ & ?)]; done. }
  assert (∀ s, ∃ r s', go_plan (plan_equal a b) s = Ok r s' ∧ (r = true ↔ all_equal eq a b)) as Heq.
  { clear - Ht. intros s. unfold plan_equal. destruct (decide (length a = length b)) as [Hl|Hl].
    2:{ exists false, s. split; [done|]. split; [done|]. by intros [? _]. }
    unfold go_plan. cbn [p_questions p_otherwise]. setoid_rewrite <-(equal_go _ _ _ Hl). revert b s Hl. induction a as [|x a' IH]; intros [|y b] s Hl; try done.
    - exists true, s. split; [done|]. split; [|done]. intros _. apply equal_nil.
    - cbn [equal_loop]. unfold bind. destruct (Ht OEq x y) as [[] E1]; rewrite (ask_some _ _ _ _ _ E1).
      + destruct (IH b (s ++ [(OEq, x, y)])) as (r & s' & Hr & Hs); [cbn in Hl; lia|]. exists r, s'. split; [done|]. rewrite Hs, equal_cons. subst eq. cbn beta. tauto.
      + eexists false, _. split; [done|]. split; [done|]. rewrite equal_cons. subst eq. cbn beta. rewrite E1. by intros [? _]. }
  destruct (Hlt a b s) as (r1 & s1 & H1 & S1). destruct (Hlt b a s) as (r2 & s2 & H2 & S2). destruct (Heq s) as (r3 & s3 & H3 & S3).
  exists (λ o, match o with OLt => r1 | OGt => r2 | OLe => negb r2 | OGe => negb r1 | OEq => r3 | ONe => negb r3 end).
  assert (well_typed p ∧ ∀ o, plan_for o p = plan_six o a b) as [Hw Hpl] by (by destruct Hp as [->|[-> ?]]).
  assert (∀ pl r s', go_plan pl s = Ok r s' → go_plan (negated pl) s = Ok (negb r) s') as Hneg.
  { intros [qs z] r s' H. rewrite <-go_negated. unfold bind. unfold go_plan in H. cbn [p_questions p_otherwise] in H. by rewrite H. }
  split.
  { intros o. rewrite (compare_go _ _ _ Hw), Hpl. unfold noexcept. destruct o; cbn [plan_six].
    - rewrite H1. eauto. - rewrite (Hneg _ _ _ H2). eauto. - rewrite H2. eauto. - rewrite (Hneg _ _ _ H1). eauto. - rewrite H3. eauto. - rewrite (Hneg _ _ _ H3). eauto. }
  rewrite <-S1, <-S2, <-S3. destruct r1, r2, r3; cbn [negb]; repeat split; done.
Qed.
End refuted.

(** ** C85 *)
Section compile.
Context `{OT : OpTypes}.
(** the element types involved, and the operator of theirs that is needed *)
Definition needed (o : op) (c : container) : op * list T :=
  match c with
  | CSeq t => (match o with OEq | ONe => OEq | _ => OLt end, [t])
  | CTuple ts => (match o with OEq | ONe => OEq | _ => OLt end, ts)
  | COpts t | COptVal t => (o, [t])
  | CVars ts => (o, ts)
  end.
(** the operator exists, with a result that is implicitly convertible to bool *)
Definition usable (o : op) (t : T) : Prop :=
  op_type o t = Some EBool ∨ op_type o t = Some EArith ∨ ∃ e f, op_type o t = Some (EClass true e f).
Definition is_variant (c : container) : Prop := match c with CVars _ => True | _ => False end.
Definition with_value (c : container) : Prop := match c with COptVal _ => True | _ => False end.
(** A comparison compiles if the operators it needs exist with results convertible to bool:
    except for variants, and for optionals compared with values if the result can also be
    made from a bool. *)
Theorem C85_compiles_partial o c :
  (∀ t, t ∈ (needed o c).2 → usable (needed o c).1 t ∧
     (with_value c → ∀ e, op_type (needed o c).1 t ≠ Some (EClass true e true))) →
  ¬ is_variant c → compiles o c = true.
Proof.
  intros Hu Hv.
  assert (∀ o t f, usable o t → (∀ e, op_type o t = Some e → returns_bool e = true → f e = true) → uses o t f = true) as Huse.
  { intros o' t f H1 H2. unfold uses. destruct H1 as [H|[H|(e & f' & H)]]; rewrite H; by apply H2. }
  assert (∀ o ts f, (∀ t, t ∈ ts → usable o t) → (∀ e, returns_bool e = true → f e = true) → Forall (λ t, uses o t f = true) ts) as Hall.
  { intros o' ts f H1 H2. apply Forall_forall. intros t Ht. apply Huse; auto. }
  assert (∀ e, returns_bool e = true → tests e = true) as Htest by (by intros [| |[] [] []]).
  destruct c as [t|ts|t|t|ts]; cbn [needed fst snd compiles is_variant with_value] in *; [| | | |done].
  - assert (usable (match o with OEq | ONe => OEq | _ => OLt end) t) as H by (apply Hu, elem_of_list_singleton; done).
    unfold c_seq, c_seq_eq, c_seq_lt. destruct o; by apply Huse.
  - assert (Forall (λ t, uses (match o with OEq | ONe => OEq | _ => OLt end) t tests = true) ts) as H by (apply Hall; [intros t Ht; by apply Hu|done]).
    unfold c_tup. assert (∀ ts, Forall (λ t, uses OEq t tests = true) ts → c_st_equal ts = true) as H1.
    { clear. induction 1 as [|t ts H _ IH]; [done|]. cbn [c_st_equal]. by rewrite H, IH. }
    assert (∀ ts, Forall (λ t, uses OLt t tests = true) ts → c_st_less ts = true) as H2.
    { clear. induction 1 as [|t ts H _ IH]; [done|]. cbn [c_st_less]. by rewrite H, IH. }
    destruct o; auto.
  - apply Huse; [|done]. apply Hu. by apply elem_of_list_singleton.
  - destruct (Hu t) as [H1 H2]; [by apply elem_of_list_singleton|]. specialize (H2 I). apply Huse; [done|].
    intros [| |[] e []] He Hr; try done. by destruct (H2 e).
Qed.
(** and it does not if one of them is missing *)
Theorem C85_missing o c t : t ∈ (needed o c).2 → op_type (needed o c).1 t = None → compiles o c = false.
Proof.
  assert (∀ o t f, op_type o t = None → uses o t f = false) as Hn by (intros o' t' f H; unfold uses; by rewrite H).
  destruct c as [t'|ts|t'|t'|ts]; cbn [needed fst snd compiles]; intros Ht Ho.
  - apply elem_of_list_singleton in Ht as ->. unfold c_seq, c_seq_eq, c_seq_lt. by destruct o; apply Hn.
  - unfold c_tup. assert (∀ ts, t ∈ ts → op_type OEq t = None → c_st_equal ts = false) as H1.
    { clear - Hn. induction ts as [|t' ts IH]; [by intros ?%elem_of_nil|]. cbn [c_st_equal]. intros [->|H]%elem_of_cons He; [by rewrite Hn|].
      rewrite IH by done. apply andb_false_r. }
    assert (∀ ts, t ∈ ts → op_type OLt t = None → c_st_less ts = false) as H2.
    { clear - Hn. induction ts as [|t' ts IH]; [by intros ?%elem_of_nil|]. cbn [c_st_less]. intros [->|H]%elem_of_cons He; [by rewrite Hn|].
      rewrite IH by done. apply andb_false_r. }
    destruct o; auto.
  - apply elem_of_list_singleton in Ht as ->. by apply Hn.
  - apply elem_of_list_singleton in Ht as ->. by apply Hn.
  - unfold c_vars. induction ts as [|t' ts IH]; [by apply elem_of_nil in Ht|]. cbn [c_table]. apply elem_of_cons in Ht as [->|Ht]; [by rewrite Hn|].
    rewrite IH by done. apply andb_false_r.
Qed.
(** variants need operators that return exactly bool, of all alternatives *)
Theorem C85_variant o ts : compiles o (CVars ts) = true ↔ ∀ t, t ∈ ts → op_type o t = Some EBool.
Proof.
  cbn [compiles]. unfold c_vars. rewrite <-Forall_forall. induction ts as [|t ts IH]; [by split|]. cbn [c_table]. rewrite andb_true_iff, IH, Forall_cons.
  unfold uses. destruct (op_type o t) as [[| |i e f]|]; cbn [points_to_bool]; naive_solver.
Qed.
End compile.

(** an operator that returns int; one that returns a class convertible to bool; a class
    convertible to and from bool *)
Definition ex_types : OpTypes := {| T := nat; op_type o t :=
  match t with 0 => Some EBool | 1 => Some EArith | 2 => Some (EClass true false false) | 3 => Some (EClass true false true) | _ => None end |}.
Local Existing Instance ex_types.
Theorem C85_variant_refuted : ∃ (OT : OpTypes) t, usable OEq t ∧ compiles OEq (COpts t) = true ∧ compiles OEq (CTuple [t]) = true ∧
  compiles OEq (CSeq t) = true ∧ compiles OEq (CVars [t]) = false.
Proof. exists ex_types, 1. split; [right; by left|done]. Qed.
Theorem C85_value_refuted : ∃ (OT : OpTypes) t, usable OLt t ∧ compiles OLt (COpts t) = true ∧ compiles OLt (COptVal t) = false.
Proof. exists ex_types, 3. split; [right; right; by eexists _, _|done]. Qed.
Example C85_case : compiles OLt (CTuple [0; 1; 2; 3]) = true.
Proof.
  apply C85_compiles_partial; [|by intros []]. cbn. intros t Ht. split; [|by intros []].
  repeat (apply elem_of_cons in Ht as [->|Ht]; [unfold usable; cbn; naive_solver|]). by apply elem_of_nil in Ht.
Qed.
Example C85_missing_case : compiles OLe (CVars [0; 4]) = false.
Proof. apply (C85_missing (OT := ex_types) _ _ 4); [cbn; set_solver|done]. Qed.

(** ** Examples for C83 and C84: numbers, comparing with 7 throws *)
Definition ex_ops : EltOps := {| A := nat; elt_op o x y :=
  if (x =? 7) || (y =? 7) then None else
  Some (match o with OLt => x <? y | OLe => x <=? y | OGt => y <? x | OGe => y <=? x | OEq => x =? y | ONe => negb (x =? y) end) |}.
Local Existing Instance ex_ops.
(** 7 is compared *)
Example C83_throw_case : compare OEq (Seqs (C := ex_ops) [1; 7] [1; 2]) [] = Terminated ∧ interrupted (plan_for OEq (Seqs (C := ex_ops) [1; 7] [1; 2])).
Proof. split; [done|]. by apply (C83_terminates (C := ex_ops) OEq (Seqs (C := ex_ops) [1; 7] [1; 2]) []). Qed.
(** 7 is not reached *)
Example C83_stop_case : compare OEq (Seqs (C := ex_ops) [1; 3; 7] [1; 2; 7]) [] = Ok false ([(OEq, 1, 1); (OEq, 3, 2)] : calls (C := ex_ops)) ∧
  compare OLe (Tuples (C := ex_ops) [1; 3; 7] [1; 2; 7]) [] = Ok false ([(OLt, 1, 1); (OLt, 1, 1); (OLt, 2, 3)] : calls (C := ex_ops)) ∧
  compare OEq (Seqs (C := ex_ops) [7] []) [] = Ok false [] ∧ compare OGe (Vars (C := ex_ops) (1, 7) (0, 7)) [] = Ok true [] ∧
  compare OGt (ValOpt (C := ex_ops) 4 (Some 5)) [] = Ok false ([(OGt, 4, 5)] : calls (C := ex_ops)) ∧ compare ONe (Opts (C := ex_ops) (Some 7) None) [] = Ok true [].
Proof. done. Qed.
Example C83_partial_case : ∃ b l, compare OGe (Tuples (C := ex_ops) [1; 2; 3] [1; 2; 4]) [] = Ok b ([] ++ l).
Proof.
  apply C83_answers_partial; [done|]. cbn. intros o x y Hx Hy.
  repeat (apply elem_of_cons in Hx as [->|Hx]); try (by apply elem_of_nil in Hx);
  repeat (apply elem_of_cons in Hy as [->|Hy]); try (by apply elem_of_nil in Hy); split; by eexists.
Qed.
Example C83_refuted_case : elt_op (EltOps := ex_ops) OLt 7 3 = None ∧ compare OLt (Seqs (C := ex_ops) [7; 1] [3]) [] = Terminated.
Proof. done. Qed.
Definition total_ops : EltOps := {| A := nat; elt_op o x y :=
  Some (match o with OLt => x <? y | OLe => x <=? y | OGt => y <? x | OGe => y <=? x | OEq => x =? y | ONe => negb (x =? y) end) |}.
Example C84_case : ∃ r, (∀ o, ∃ s', compare (C := total_ops) o (Seqs (C := total_ops) [1; 2] [1; 2; 3]) [] = Ok (r o) s') ∧ r OLt = true.
Proof.
  destruct (C84_answers (C := total_ops) [1; 2] [1; 2; 3] ltac:(intros; by eexists) _ [] (or_introl eq_refl)) as (r & H & Hl & _). exists r. split; [done|].
  apply Hl. exists 2. split; [|left; split; [done|by exists 3]]. intros [|[|j]] Hj; [by exists 1, 1|by exists 2, 2|lia].
Qed.

Print Assumptions C83_behaviour.
Print Assumptions C83_terminates.
Print Assumptions C83_answers_partial.
Print Assumptions C83_exception_refuted.
Print Assumptions C84_sequence_calls.
Print Assumptions C84_single_call.
Print Assumptions C84_count.
Print Assumptions C84_answers.
Print Assumptions C85_compiles_partial.
Print Assumptions C85_missing.
Print Assumptions C85_variant.
Print Assumptions C85_variant_refuted.
Print Assumptions C85_value_refuted.
