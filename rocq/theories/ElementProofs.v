(** Proofs about ElementModel.v *)
From stdpp Require Import prelude.
From Verif Require Import ElementModel ElementSpec.
From Verif Require LayoutModel LayoutProps.
Local Open Scope N_scope.

Section proofs.
Context `{P : Program} `{T : LayoutModel.Target}.

Lemma ty_rect' (Q : ty → Prop) :
  (∀ b, Q (Base b)) → (∀ e, Q e → Q (Vec e)) → Q Str → (∀ e, Q e → Q (Opt e)) →
  (∀ es, Forall Q es → Q (Var es)) → (∀ e n, Q e → Q (Arr e n)) → (∀ n, Q (Bits n)) →
  (∀ es, Forall (λ p, Q p.2) es → Q (Tup es)) → Q ARef → Q SRef → Q ORef → (∀ n, Q (VRef n)) → Q FRef →
  ∀ t, Q t.
Proof.
  intros HB HV HS HO HVar HA HBits HT ? ? ? HVR ?.
  fix go 1. intros [b|e| |e|es|e n|n|es| | | |n|].
  - apply HB.
  - apply HV, go.
  - exact HS.
  - apply HO, go.
  - apply HVar. induction es as [|e es IH]; constructor; [apply go|exact IH].
  - apply HA, go.
  - apply HBits.
  - apply HT. induction es as [|[c e] es IH]; constructor; [apply go|exact IH].
  - clear go. done.
  - clear go. done.
  - clear go. done.
  - apply HVR.
  - clear go. done.
Qed.

Lemma all_some_true l : all l = Some true ↔ Forall (λ x, x = Some true) l.
Proof.
  induction l as [|x l IH]; [cbn; split; [constructor|done]|].
  rewrite Forall_cons, <-IH. change (all (x :: l)) with (both x (all l)). clear IH.
  destruct x as [[]|], (all l) as [[]|]; cbn; naive_solver.
Qed.
Lemma all_some l : (∃ b, all l = Some b) ↔ Forall (λ x, x ≠ None) l.
Proof.
  induction l as [|x l IH]; [cbn; split; [constructor|eauto]|].
  rewrite Forall_cons, <-IH. change (all (x :: l)) with (both x (all l)). clear IH.
  destruct x as [[]|], (all l) as [[]|]; cbn; naive_solver.
Qed.
Lemma worst_fine l : worst l = Fine ↔ Forall (λ x, x = Fine) l.
Proof.
  induction l as [|x l IH]; [cbn; split; [constructor|done]|].
  rewrite Forall_cons, <-IH. change (worst (x :: l)) with (worse x (worst l)). clear IH.
  destruct x, (worst l); cbn; naive_solver.
Qed.
Lemma worst_rejected l : worst l = Rejected ↔ Exists (λ x, x = Rejected) l.
Proof.
  induction l as [|x l IH]; [cbn; split; [done|by rewrite Exists_nil]|].
  rewrite Exists_cons, <-IH. change (worst (x :: l)) with (worse x (worst l)). clear IH.
  destruct x, (worst l); cbn; naive_solver.
Qed.
Lemma worst_terminates l : worst l = Terminates → Exists (λ x, x = Terminates) l.
Proof.
  induction l as [|x l IH]; [done|].
  rewrite Exists_cons. change (worst (x :: l)) with (worse x (worst l)).
  destruct x, (worst l); cbn; naive_solver.
Qed.
Lemma noexc_rejected r : noexc r = Rejected ↔ r = Rejected.
Proof. by destruct r. Qed.
Lemma noexc_fine r : noexc r = Fine ↔ r = Fine.
Proof. by destruct r. Qed.
Lemma foldr_and {A} (Q : A → Prop) (l : list A) : foldr and True (map Q l) ↔ Forall Q l.
Proof. induction l as [|x l IH]; cbn; [split; [constructor|done]|]. by rewrite Forall_cons, IH. Qed.

(** what elements are like *)
Record element (t : ty) : Prop := {
  el_copy : trait t CopyC ≠ None;
  el_move : trait t MoveC = Some true;
  el_destroy : trait t DestroyO = Some true;
  el_swap : trait t SwapO = Some true;
}.
Lemma nothrow_true t o : nothrow t o = true ↔ trait t o = Some true.
Proof. unfold nothrow. destruct (trait t o) as [[]|]; naive_solver. Qed.
Lemma has_true t o : has t o = true ↔ trait t o ≠ None.
Proof. unfold has. destruct (trait t o); naive_solver. Qed.
Lemma variant_element_element t : variant_element t = true → element t.
Proof. unfold variant_element. rewrite !andb_true_iff, !nothrow_true, has_true. intros. by split; naive_solver. Qed.
Lemma optional_element_element t : optional_element t = true → element t ∧ trait t CopyA ≠ None ∧ trait t MoveA = Some true.
Proof. unfold optional_element. rewrite !andb_true_iff, !nothrow_true, !has_true. intros. split_and!; [split|..]; naive_solver. Qed.
Lemma vector_element_optional t : vector_element t = true ↔ optional_element t = true ∧ has t DefaultC = true.
Proof. unfold optional_element, vector_element. rewrite !andb_true_iff. tauto. Qed.
Lemma array_element_vector t : array_element t = vector_element t.
Proof. done. Qed.
Lemma tuple_element_vector t : tuple_element t = vector_element t.
Proof. done. Qed.
Lemma optional_element_variant t : optional_element t = true ↔ variant_element t = true ∧ has t CopyA = true ∧ nothrow t MoveA = true.
Proof. unfold optional_element, variant_element. rewrite !andb_true_iff. tauto. Qed.

Definition component (c : bool) (o : op) : option op :=
  if c then match o with MoveC => Some ConstMoveC | CopyA | MoveA | SwapO => None | _ => Some o end else Some o.
Definition comp_trait (o : op) (p : bool * ty) : option bool :=
  match component p.1 o with Some o' => trait p.2 o' | None => None end.
Definition comp_body (o : op) (p : bool * ty) : result :=
  match component p.1 o with Some o' => call (trait p.2 o') (body p.2 o') | None => Rejected end.
Definition moves (o : op) (es : list (bool * ty)) : bool :=
  forallb (λ p, match comp_trait o p with Some _ => true | None => false end) es.

Lemma all_moves es o : all (map (comp_trait o) es) ≠ None ↔ moves o es = true.
Proof.
  induction es as [|p es IH]; [done|].
  change (all (map (comp_trait o) (p :: es))) with (both (comp_trait o p) (all (map (comp_trait o) es))).
  change (moves o (p :: es)) with (match comp_trait o p with Some _ => true | None => false end && moves o es).
  rewrite andb_true_iff, <-IH. destruct (comp_trait o p), (all (map (comp_trait o) es)); cbn; naive_solver.
Qed.

Lemma trait_tuple es o : trait (Tup es) o =
  match o with
  | DefaultC => Some false
  | SwapO => Some true
  | ConstMoveC => match es with [_] => Some false | _ => all (map (comp_trait CopyC) es) end
  | MoveC => or_else (all (map (comp_trait MoveC) es)) (match es with [_] => Some false | _ => all (map (comp_trait CopyC) es) end)
  | MoveA => or_else (all (map (comp_trait MoveA) es)) (all (map (comp_trait CopyA) es))
  | _ => all (map (comp_trait o) es)
  end.
Proof.
  cbn [trait].
  assert (∀ o, map (λ p : bool * ty, match p with
      | (true, e) => match o with MoveC => trait e ConstMoveC | CopyA | MoveA | SwapO => None | _ => trait e o end
      | (false, e) => trait e o end) es = map (comp_trait o) es) as E.
  { intros o'. apply map_ext. intros [[] e]; [|done]. by destruct o'. }
  destruct o; try done; try (by rewrite <-E); try (rewrite <-!E; done).
  all: destruct es as [|? [|? ?]]; try done; try (f_equal; apply E); try (by rewrite <-!E).
Qed.
Lemma body_tuple es o : body (Tup es) o =
  match o with
  | DefaultC => match es with [] => Fine | _ => Rejected end
  | SwapO => noexc (worst (map (comp_body SwapO) es))
  | ConstMoveC => match es with [_] => Rejected | _ => worst (map (comp_body CopyC) es) end
  | MoveC => if moves MoveC es then worst (map (comp_body MoveC) es) else match es with [_] => Rejected | _ => worst (map (comp_body CopyC) es) end
  | MoveA => worst (map (comp_body (if moves MoveA es then MoveA else CopyA)) es)
  | _ => worst (map (comp_body o) es)
  end.
Proof.
  cbn [body].
  assert (∀ o, map (λ p : bool * ty, match p with
      | (true, e) => match o with MoveC => call (trait e ConstMoveC) (body e ConstMoveC) | CopyA | MoveA | SwapO => Rejected | _ => call (trait e o) (body e o) end
      | (false, e) => call (trait e o) (body e o) end) es = map (comp_body o) es) as E.
  { intros o'. apply map_ext. intros [[] e]; [|done]. by destruct o'. }
  assert (∀ o, o = MoveC ∨ o = MoveA → forallb (λ p : bool * ty, match p with
      | (true, e) => match o with MoveC => match trait e ConstMoveC with Some _ => true | None => false end | _ => false end
      | (false, e) => match trait e o with Some _ => true | None => false end end) es = moves o es) as E'.
  { intros o' Ho. unfold moves. clear E. induction es as [|[[] e] es IH]; [done|..]; cbn [forallb]; rewrite IH; f_equal.
    by destruct Ho as [-> | ->]. }
  destruct o; try done; try (by rewrite <-E).
  - rewrite <-E', <-!E by auto. done.
  - rewrite <-E', <-E by auto. done.
Qed.
Lemma body_variant es o : body (Var es) o =
  let use (o : op) := worst (map (λ e, call (trait e o) (body e o)) es) in
  match o with
  | DefaultC => match es with [] => Rejected | e :: _ => call (trait e DefaultC) (body e DefaultC) end
  | CopyC | ConstMoveC => use CopyC
  | MoveC => noexc (use MoveC)
  | CopyA => worst [use CopyC; noexc (use DestroyO); noexc (use MoveC)]
  | MoveA => noexc (worst [use DestroyO; use MoveC])
  | SwapO => noexc (worst [use SwapO; use MoveC; use DestroyO])
  | DestroyO => noexc (use DestroyO)
  end.
Proof. done. Qed.

Lemma call_fine t o : trait t o = Some true → body t o = Fine → call (trait t o) (body t o) = Fine.
Proof. by intros -> ->. Qed.
Lemma call_some t o : trait t o ≠ None → call (trait t o) (body t o) = body t o.
Proof. by destruct (trait t o). Qed.

(** accepted components *)
Lemma accepted_variant es : accepted (Var es) → Forall (λ e, accepted e ∧ element e) es ∧ es ≠ [].
Proof.
  intros (Ha & He & Hne & _). apply foldr_and in Ha. split; [|done].
  apply Forall_forall. intros e Hin. rewrite Forall_forall in Ha. split; [by apply Ha|].
  apply variant_element_element. rewrite forallb_forall in He. by apply He, elem_of_list_In.
Qed.
Lemma accepted_tuple es : accepted (Tup es) →
  Forall (λ p, accepted p.2 ∧ element p.2 ∧ trait p.2 CopyA ≠ None ∧ trait p.2 MoveA = Some true ∧ trait p.2 DefaultC ≠ None) es.
Proof.
  cbn [accepted].
  assert (map (λ p : bool * ty, match p with (_, e) => accepted e end) es = map (λ p, accepted p.2) es) as ->.
  { apply map_ext. by intros []. }
  rewrite foldr_and. intros (Ha & He). apply Forall_forall. intros p Hin.
  rewrite Forall_forall in Ha. rewrite forallb_forall in He.
  assert (tuple_element p.2 = true) as Hp by by apply He, elem_of_list_In.
  rewrite tuple_element_vector, vector_element_optional, has_true in Hp. destruct Hp as [Hp ?].
  apply optional_element_element in Hp. split_and!; [by apply Ha|..]; naive_solver.
Qed.

(** a noexcept operation, except for swap, is fine *)
Lemma noexcept_fine t : accepted t → ∀ o, o ≠ SwapO → trait t o = Some true → body t o = Fine.
Proof.
  induction t as [b|e IH| |e IH|es IH|e n IH|n|es IH| | | |n|] using ty_rect'; intros Hacc o Ho Ht; try done.
  - cbn [body trait] in *. by rewrite Ht.
  - destruct Hacc as (Ha & He & _). apply vector_element_optional in He as [He _]. apply optional_element_element in He as [[] _].
    destruct o; try done; cbn [body].
    all: rewrite (call_fine e DestroyO) by auto; done.
  - by destruct o.
  - destruct Hacc as (Ha & He). apply optional_element_element in He as ([] & ? & ?).
    destruct o; try done; cbn [body].
    + by rewrite (call_fine e MoveC) by auto.
    + by rewrite (call_fine e MoveA), (call_fine e MoveC), (call_fine e DestroyO) by auto.
    + by rewrite (call_fine e DestroyO) by auto.
  - pose proof (accepted_variant _ Hacc) as [Hes Hne]. clear Hacc.
    assert (∀ o, (o = MoveC ∨ o = DestroyO) → worst (map (λ e, call (trait e o) (body e o)) es) = Fine) as E.
    { intros o' Ho'. apply worst_fine, Forall_map, Forall_forall. intros e Hin. cbn.
      rewrite Forall_forall in Hes, IH. destruct (Hes e Hin) as [Hae [? ? ? ?]].
      destruct Ho' as [-> | ->]; apply call_fine; auto. }
    rewrite body_variant; cbn beta zeta. destruct o; try done.
    + cbn in Ht. destruct es as [|e es]; [done|]. by destruct (trait e DefaultC).
    + by rewrite E by auto.
    + by rewrite !E by auto.
    + by rewrite !E by auto.
  - destruct Hacc as (Ha & He). rewrite array_element_vector in He. apply vector_element_optional in He as [He _].
    apply optional_element_element in He as ([] & ? & ?).
    cbn [trait body] in *. destruct o; try done; destruct (decide (n = 0)); try done.
    all: try (rewrite Ht; cbn [call]; auto; fail).
    all: rewrite ?el_move0, ?H0 in *; auto.
  - pose proof (accepted_tuple _ Hacc) as Hes. clear Hacc.
    rewrite trait_tuple in Ht. rewrite body_tuple.
    assert (∀ o, o ≠ SwapO → all (map (comp_trait o) es) = Some true → worst (map (comp_body o) es) = Fine) as E.
    { intros o' Ho' E. apply worst_fine, Forall_map, Forall_forall. intros p Hin.
      apply all_some_true, Forall_map in E. rewrite Forall_forall in E, IH, Hes.
      specialize (E p Hin). specialize (IH p Hin). destruct (Hes p Hin) as (Hap & _). cbn in *.
      unfold comp_trait, comp_body in *. destruct (component p.1 o') as [o''|] eqn:Ec; [|done].
      apply call_fine; [done|]. apply IH; [done|..|done].
      unfold component in Ec. destruct p.1, o'; naive_solver. }
    pose proof (all_moves es) as E'.
    destruct o; try done; try (by apply E).
    + unfold or_else in Ht. destruct (all (map (comp_trait MoveC) es)) eqn:Em.
      * assert (moves MoveC es = true) as -> by (apply E'; by rewrite Em). apply E; [done|]. by rewrite Em, Ht.
      * assert (moves MoveC es = false) as ->. { destruct (moves MoveC es) eqn:?; [|done]. exfalso. by apply (E' MoveC). }
        destruct es as [|p [|q es]]; try done. by apply E.
    + destruct es as [|p [|q es]]; try done; by apply E.
    + unfold or_else in Ht. destruct (all (map (comp_trait MoveA) es)) eqn:Em.
      * assert (moves MoveA es = true) as -> by (apply E'; by rewrite Em). apply E; [done|]. by rewrite Em, Ht.
      * assert (moves MoveA es = false) as ->. { destruct (moves MoveA es) eqn:?; [|done]. exfalso. by apply (E' MoveA). }
        by apply E.
  - by destruct o.
  - by destruct o.
Qed.

(** swap may fail to compile but does not throw *)
Lemma swap_fine t : accepted t → trait t SwapO = Some true → body t SwapO = Fine ∨ body t SwapO = Rejected.
Proof.
  induction t as [b|e IH| |e IH|es IH|e n IH|n|es IH| | | |n|] using ty_rect'; intros Hacc Ht; try (by left).
  - cbn [body trait] in *. rewrite Ht. by left.
  - destruct Hacc as (Ha & He). apply optional_element_element in He as ([] & ? & ?). cbn [body].
    rewrite (call_fine e MoveC), (call_fine e DestroyO) by (auto using noexcept_fine).
    rewrite call_some by congruence. destruct IH as [-> | ->]; auto.
  - pose proof (accepted_variant _ Hacc) as [Hes Hne]. rewrite body_variant; cbn beta zeta.
    assert (∀ o, (o = MoveC ∨ o = DestroyO) → worst (map (λ e, call (trait e o) (body e o)) es) = Fine) as E.
    { intros o' Ho'. apply worst_fine, Forall_map, Forall_forall. intros e Hin. cbn.
      rewrite Forall_forall in Hes. destruct (Hes e Hin) as [Hae [? ? ? ?]].
      destruct Ho' as [-> | ->]; apply call_fine; auto using noexcept_fine. }
    rewrite (E MoveC), (E DestroyO) by auto.
    assert (worst (map (λ e, call (trait e SwapO) (body e SwapO)) es) = Fine ∨ worst (map (λ e, call (trait e SwapO) (body e SwapO)) es) = Rejected)
      as [-> | ->]; [|by left|by right].
    clear E Hne Hacc Ht. induction es as [|e es IHes]; [by left|].
    apply Forall_cons in IH as [IHe IH]. apply Forall_cons in Hes as [[Hae He] Hes].
    cbn [map]. change (worst (?x :: ?l)) with (worse x (worst l)).
    destruct He. rewrite call_some by congruence. destruct (IHe Hae el_swap0) as [-> | ->], (IHes IH Hes) as [-> | ->]; cbn; auto.
  - destruct Hacc as (Ha & He). rewrite array_element_vector in He. apply vector_element_optional in He as [He _].
    apply optional_element_element in He as ([] & ? & ?). cbn [body].
    rewrite call_some by congruence. destruct IH as [-> | ->]; auto.
  - pose proof (accepted_tuple _ Hacc) as Hes. clear Hacc. rewrite body_tuple.
    assert (worst (map (comp_body SwapO) es) = Fine ∨ worst (map (comp_body SwapO) es) = Rejected)
      as [-> | ->]; [|by left|by right].
    clear Ht. induction es as [|p es IHes]; [by left|].
    apply Forall_cons in IH as [IHe IH]. apply Forall_cons in Hes as [(Hae & He & _) Hes].
    cbn [map]. change (worst (?x :: ?l)) with (worse x (worst l)).
    destruct He. destruct p as [[] e]; cbn [comp_body component fst snd] in *.
    + right. unfold comp_body. by destruct (worst _).
    + rewrite call_some by congruence. destruct (IHe Hae el_swap0) as [-> | ->], (IHes IH Hes) as [-> | ->]; cbn; auto.
Qed.

(** nothing terminates *)
Definition tame (r : result) : Prop := r ≠ Terminates.
Lemma worst_tame l : Forall tame l → tame (worst l).
Proof.
  intros Hl Hw. apply worst_terminates, Exists_exists in Hw as (x & Hin & ->).
  rewrite Forall_forall in Hl. by apply (Hl _ Hin).
Qed.
Lemma call_tame x r : tame r → tame (call x r).
Proof. by destruct x. Qed.
Lemma noexc_tame r : r = Fine ∨ r = Rejected → tame (noexc r).
Proof. by intros [-> | ->]. Qed.
Lemma body_tame t : accepted t → ∀ o, trait t o ≠ None → tame (body t o).
Proof.
  induction t as [b|e IH| |e IH|es IH|e n IH|n|es IH| | | |n|] using ty_rect'; intros Hacc o Ht; try done.
  - cbn [body]. by destruct (base_op b o) as [[]|].
  - pose proof Hacc as (Ha & He & _). apply vector_element_optional in He as [He _]. apply optional_element_element in He as ([] & ? & ?).
    assert (call (trait e DestroyO) (body e DestroyO) = Fine) as Ed by (apply call_fine; auto using noexcept_fine).
    assert (∀ o, trait e o ≠ None → tame (call (trait e o) (body e o))) as Hc by (intros; apply call_tame; auto).
    destruct o; try done; cbn [body]; rewrite ?Ed; try done.
    all: apply worst_tame; repeat constructor; try done; apply Hc; congruence.
  - by destruct o.
  - pose proof Hacc as (Ha & He). apply optional_element_element in He as ([] & ? & ?).
    assert (call (trait e DestroyO) (body e DestroyO) = Fine) as Ed by (apply call_fine; auto using noexcept_fine).
    assert (∀ o, trait e o ≠ None → tame (call (trait e o) (body e o))) as Hc by (intros; apply call_tame; auto).
    destruct (decide (o = SwapO)) as [-> | Hs].
    { destruct (swap_fine (Opt e)) as [-> | ->]; done. }
    destruct o; try done; cbn [body]; rewrite ?Ed; try done.
    + auto.
    + by rewrite (call_fine e MoveC) by (auto using noexcept_fine).
    + auto.
    + apply worst_tame; repeat constructor; try done; auto.
    + by rewrite (call_fine e MoveA), (call_fine e MoveC) by (auto using noexcept_fine).
  - pose proof (accepted_variant _ Hacc) as [Hes Hne].
    destruct (decide (trait (Var es) o = Some true)) as [Htt|Htf].
    { destruct (decide (o = SwapO)) as [-> | Hs]; [destruct (swap_fine (Var es)) as [-> | ->]; done|].
      by rewrite noexcept_fine. }
    assert (∀ o, (o = MoveC ∨ o = DestroyO) → worst (map (λ e, call (trait e o) (body e o)) es) = Fine) as E.
    { intros o' Ho'. apply worst_fine, Forall_map, Forall_forall. intros e Hin. cbn.
      rewrite Forall_forall in Hes. destruct (Hes e Hin) as [Hae [? ? ? ?]].
      destruct Ho' as [-> | ->]; apply call_fine; auto using noexcept_fine. }
    assert (tame (worst (map (λ e, call (trait e CopyC) (body e CopyC)) es))) as Ec.
    { apply worst_tame, Forall_map, Forall_forall. intros e Hin. cbn. rewrite Forall_forall in Hes, IH.
      destruct (Hes e Hin) as [Hae []]. apply call_tame, IH; done. }
    rewrite body_variant; cbn beta zeta. destruct o; try done.
    + destruct es as [|e es]; [done|]. apply Forall_cons in IH as [IH _]. apply Forall_cons in Hes as [[Hae _] _].
      cbn [trait] in Ht. destruct (trait e DefaultC) eqn:Ed; [|done]. cbn [call]. apply IH; congruence.
    + rewrite (E MoveC), (E DestroyO) by auto. apply worst_tame; repeat constructor; done.
  - pose proof Hacc as (Ha & He). rewrite array_element_vector in He. apply vector_element_optional in He as [He Hd].
    apply has_true in Hd. apply optional_element_element in He as ([] & ? & ?).
    destruct (decide (o = SwapO)) as [-> | Hs].
    { destruct (swap_fine (Arr e n)) as [-> | ->]; done. }
    destruct o; try done; cbn [body]; destruct (decide (n = 0)); try done; rewrite ?el_move0, ?H0.
    all: try apply call_tame; apply IH; congruence || done.
  - pose proof (accepted_tuple _ Hacc) as Hes.
    destruct (decide (o = SwapO)) as [-> | Hs].
    { destruct (swap_fine (Tup es)) as [-> | ->]; done. }
    assert (∀ o, o ≠ SwapO → tame (worst (map (comp_body o) es))) as E.
    { intros o' Ho'. apply worst_tame, Forall_map, Forall_forall. intros p Hin. cbn.
      rewrite Forall_forall in Hes, IH. destruct (Hes p Hin) as (Hae & _). unfold comp_body.
      destruct (component p.1 o') as [o''|]; [|done]. 
      destruct (trait p.2 o'') eqn:Et; [|done]. cbn. apply IH; [done..|]. by rewrite Et. }
    rewrite body_tuple. destruct o; try done; try (by apply E).
    + by destruct es.
    + destruct (moves MoveC es); [by apply E|]. destruct es as [|? [|? ?]]; try done; by apply E.
    + destruct es as [|? [|? ?]]; try done; by apply E.
    + destruct (moves MoveA es); by apply E.
  - by destruct o.
  - by destruct o.
Qed.

(** ** Which operations do not compile *)
Lemma no_swap_leaf t : match t with Opt _ | Var _ | Arr _ _ | Tup _ => False | _ => True end → ¬ no_swap t.
Proof. intros Ht (s & Hin & (e & es & -> & _)). by inversion Hin; subst. Qed.
Lemma no_swap_optional e : no_swap (Opt e) ↔ no_swap e.
Proof.
  split.
  - intros (s & Hin & Hc). inversion Hin; subst; [by destruct Hc as (? & ? & ? & _)|]. by exists s.
  - intros (s & Hin & Hc). exists s. split; [by constructor|done].
Qed.
Lemma no_swap_array e n : no_swap (Arr e n) ↔ no_swap e.
Proof.
  split.
  - intros (s & Hin & Hc). inversion Hin; subst; [by destruct Hc as (? & ? & ? & _)|]. by exists s.
  - intros (s & Hin & Hc). exists s. split; [by constructor|done].
Qed.
Lemma no_swap_variant es : no_swap (Var es) ↔ Exists no_swap es.
Proof.
  rewrite Exists_exists. split.
  - intros (s & Hin & Hc). inversion Hin; subst; [by destruct Hc as (? & ? & ? & _)|]. eexists. split; [done|]. by exists s.
  - intros (e & He & s & Hin & Hc). exists s. split; [by econstructor|done].
Qed.
Lemma no_swap_tuple es : no_swap (Tup es) ↔ Exists (λ p : bool * ty, p.1 = true ∨ no_swap p.2) es.
Proof.
  rewrite Exists_exists. split.
  - intros (s & Hin & Hc). inversion Hin; subst.
    + destruct Hc as (e & es' & [= <-] & Hin'). exists (true, e). auto.
    + eexists (_, _). split; [done|]. right. by exists s.
  - intros ([c e] & Hp & [Hc | (s & Hin & Hc)]).
    + cbn in Hc. subst c. exists (Tup es). split; [constructor|]. by exists e, es.
    + exists s. split; [|done]. by econstructor.
Qed.

Lemma swap_rejected t : accepted t → trait t SwapO ≠ None → body t SwapO = Rejected ↔ no_swap t.
Proof.
  induction t as [b|e IH| |e IH|es IH|e n IH|n|es IH| | | |n|] using ty_rect'; intros Hacc Ht;
    try (split; [done|intros Hn; by apply no_swap_leaf in Hn]).
  - split; [|intros Hn; by apply no_swap_leaf in Hn]. cbn [body trait] in *. by destruct (base_op b SwapO) as [[]|].
  - destruct Hacc as (Ha & He). apply optional_element_element in He as ([] & ? & ?). cbn [body].
    rewrite (call_fine e MoveC), (call_fine e DestroyO) by (auto using noexcept_fine).
    rewrite call_some, noexc_rejected, no_swap_optional by congruence. rewrite <-IH by congruence || done.
    by destruct (body e SwapO).
  - pose proof (accepted_variant _ Hacc) as [Hes Hne]. rewrite body_variant; cbn beta zeta.
    assert (∀ o, (o = MoveC ∨ o = DestroyO) → worst (map (λ e, call (trait e o) (body e o)) es) = Fine) as E.
    { intros o' Ho'. apply worst_fine, Forall_map, Forall_forall. intros e Hin. cbn.
      rewrite Forall_forall in Hes. destruct (Hes e Hin) as [Hae [? ? ? ?]].
      destruct Ho' as [-> | ->]; apply call_fine; auto using noexcept_fine. }
    rewrite (E MoveC), (E DestroyO), no_swap_variant, noexc_rejected by auto.
    transitivity (worst (map (λ e, call (trait e SwapO) (body e SwapO)) es) = Rejected).
    { by destruct (worst (map _ _)). }
    rewrite worst_rejected, !Exists_exists. rewrite Forall_forall in IH, Hes. split.
    + intros (x & Hx & ->). apply elem_of_list_fmap in Hx as (e & Hx & He). destruct (Hes e He) as [Hae []].
      exists e. split; [done|]. apply IH; [done|done|congruence|]. by rewrite call_some in Hx by congruence.
    + intros (e & He & Hn). destruct (Hes e He) as [Hae []]. eexists. split; [by apply elem_of_list_fmap; exists e|].
      rewrite call_some by congruence. apply IH; try done. congruence.
  - destruct Hacc as (Ha & He). rewrite array_element_vector in He. apply vector_element_optional in He as [He _].
    apply optional_element_element in He as ([] & ? & ?). cbn [body].
    rewrite call_some, noexc_rejected, no_swap_array by congruence. apply IH; congruence || done.
  - pose proof (accepted_tuple _ Hacc) as Hes. clear Hacc. rewrite body_tuple, noexc_rejected, worst_rejected, no_swap_tuple, !Exists_exists.
    rewrite Forall_forall in IH, Hes. split.
    + intros (x & Hx & ->). apply elem_of_list_fmap in Hx as ([c e] & Hx & He). destruct (Hes _ He) as [Hae [[] _]].
      exists (c, e). split; [done|]. destruct c; [by left|right]. cbn in Hx. apply (IH _ He); [done|cbn in *; congruence|].
      cbn in *. by rewrite call_some in Hx by congruence.
    + intros ([c e] & He & Hn). destruct (Hes _ He) as [Hae [[] _]]. eexists. split; [apply elem_of_list_fmap; by exists (c, e)|].
      destruct c; [done|]. destruct Hn as [? | Hn]; [done|]. cbn [comp_body component fst snd] in *.
      unfold comp_body; cbn [component fst snd]. rewrite call_some by congruence. apply (IH _ He); try done. cbn. congruence.
Qed.

Lemma no_copy_leaf t : match t with Vec _ | Opt _ | Var _ | Arr _ _ | Tup _ => False | _ => True end → ¬ no_copy t.
Proof. intros Ht (s & Hin & _). by inversion Hin; subst. Qed.
Lemma no_copy_vector e : no_copy (Vec e) ↔ no_swap e ∨ no_copy e.
Proof.
  split.
  - intros (s & Hin & Hc). inversion Hin; subst; [by left|]. right. by exists s.
  - intros [Hc | (s & Hin & Hc)]; [exists e|exists s]; (split; [by constructor|done]).
Qed.
Lemma no_copy_optional e : no_copy (Opt e) ↔ no_copy e.
Proof.
  split.
  - intros (s & Hin & Hc). inversion Hin; subst. by exists s.
  - intros (s & Hin & Hc). exists s. split; [by constructor|done].
Qed.
Lemma no_copy_array e n : no_copy (Arr e n) ↔ n ≠ 0 ∧ no_copy e.
Proof.
  split.
  - intros (s & Hin & Hc). inversion Hin; subst. split; [done|]. by exists s.
  - intros (Hn & s & Hin & Hc). exists s. split; [by constructor|done].
Qed.
Lemma no_copy_variant es : no_copy (Var es) ↔ Exists no_copy es.
Proof.
  rewrite Exists_exists. split.
  - intros (s & Hin & Hc). inversion Hin; subst. eexists. split; [done|]. by exists s.
  - intros (e & He & s & Hin & Hc). exists s. split; [by econstructor|done].
Qed.
Lemma no_copy_tuple es : no_copy (Tup es) ↔ Exists (λ p : bool * ty, no_copy p.2) es.
Proof.
  rewrite Exists_exists. split.
  - intros (s & Hin & Hc). inversion Hin; subst. eexists (_, _). split; [done|]. by exists s.
  - intros ([c e] & Hp & (s & Hin & Hc)). exists s. split; [by econstructor|done].
Qed.

Lemma copy_rejected t : accepted t →
  (trait t CopyC ≠ None → body t CopyC = Rejected ↔ no_copy t) ∧ (trait t CopyA ≠ None → body t CopyA = Rejected ↔ no_copy t).
Proof.
  induction t as [b|e IH| |e IH|es IH|e n IH|n|es IH| | | |n|] using ty_rect'; intros Hacc;
    try (split; intros Ht; (split; [intros Hr; cbn in Hr; discriminate Hr|intros Hn; by apply no_copy_leaf in Hn])).
  - split; intros Ht; (split; [|intros Hn; by apply no_copy_leaf in Hn]); cbn [body trait] in *.
    + by destruct (base_op b CopyC) as [[]|].
    + by destruct (base_op b CopyA) as [[]|].
  - pose proof Hacc as (Ha & He & _). apply vector_element_optional in He as [He _]. apply optional_element_element in He as ([] & ? & ?).
    destruct (IH Ha) as [IHc _].
    assert (body (Vec e) CopyC = Rejected ↔ no_copy (Vec e)) as E; [|split; intros _; exact E].
    cbn [body]. rewrite (call_fine e MoveC), (call_fine e MoveA), (call_fine e DestroyO) by (auto using noexcept_fine).
    rewrite !call_some by congruence. rewrite no_copy_vector, <-swap_rejected, <-IHc by congruence || done.
    destruct (body e CopyC), (body e SwapO); cbn; naive_solver.
  - pose proof Hacc as (Ha & He). apply optional_element_element in He as ([] & ? & ?).
    destruct (IH Ha) as [IHc IHa]. rewrite no_copy_optional. split; intros _; cbn [body].
    + rewrite call_some by done. by apply IHc.
    + rewrite (call_fine e DestroyO) by (auto using noexcept_fine). rewrite !call_some by congruence.
      specialize (IHc el_copy0). specialize (IHa H). destruct (body e CopyC), (body e CopyA); cbn; naive_solver.
  - pose proof (accepted_variant _ Hacc) as [Hes Hne].
    assert (∀ o, (o = MoveC ∨ o = DestroyO) → worst (map (λ e, call (trait e o) (body e o)) es) = Fine) as E.
    { intros o' Ho'. apply worst_fine, Forall_map, Forall_forall. intros e Hin. cbn.
      rewrite Forall_forall in Hes. destruct (Hes e Hin) as [Hae [? ? ? ?]].
      destruct Ho' as [-> | ->]; apply call_fine; auto using noexcept_fine. }
    assert (worst (map (λ e, call (trait e CopyC) (body e CopyC)) es) = Rejected ↔ no_copy (Var es)) as Ec.
    { rewrite no_copy_variant, worst_rejected, !Exists_exists. rewrite Forall_forall in IH, Hes. split.
      + intros (x & Hx & ->). apply elem_of_list_fmap in Hx as (e & Hx & He). destruct (Hes e He) as [Hae []].
        exists e. split; [done|]. destruct (IH _ He Hae) as [IHc _]. apply IHc; [done|]. by rewrite call_some in Hx by congruence.
      + intros (e & He & Hn). destruct (Hes e He) as [Hae []]. eexists. split; [by apply elem_of_list_fmap; exists e|].
        rewrite call_some by congruence. destruct (IH _ He Hae) as [IHc _]. by apply IHc. }
    rewrite !body_variant; cbn beta zeta. split; intros _; [done|].
    rewrite (E MoveC), (E DestroyO), <-Ec by auto. by destruct (worst (map _ _)).
  - pose proof Hacc as (Ha & He). rewrite array_element_vector in He. apply vector_element_optional in He as [He _].
    apply optional_element_element in He as ([] & ? & ?). destruct (IH Ha) as [IHc IHa].
    rewrite no_copy_array. cbn [body]. split; intros _; (destruct (decide (n = 0)); [naive_solver|]); rewrite call_some by done; tauto.
  - pose proof (accepted_tuple _ Hacc) as Hes. clear Hacc. rewrite !body_tuple, !trait_tuple, !worst_rejected, no_copy_tuple, !Exists_exists.
    rewrite Forall_forall in IH, Hes. split.
    + intros _. split.
      * intros (x & Hx & ->). apply elem_of_list_fmap in Hx as ([c e] & Hx & He). destruct (Hes _ He) as [Hae [[] _]].
        exists (c, e). split; [done|]. destruct (IH _ He Hae) as [IHc _]. apply IHc; [done|]. cbn in *.
        unfold comp_body in Hx. assert (component c CopyC = Some CopyC) as Ec by by destruct c. cbn [fst snd] in Hx. rewrite Ec in Hx.
        by rewrite call_some in Hx by congruence.
      * intros ([c e] & He & Hn). destruct (Hes _ He) as [Hae [[] _]]. eexists. split; [apply elem_of_list_fmap; by exists (c, e)|].
        unfold comp_body. assert (component c CopyC = Some CopyC) as Ec by by destruct c. cbn [fst snd] in *. rewrite Ec.
        destruct (IH _ He Hae) as [IHc _]. rewrite call_some by done. by apply IHc.
    + intros Hall. assert (∃ b, all (map (comp_trait CopyA) es) = Some b) as Hs.
      { destruct (all _) eqn:?; [eauto|done]. }
      apply all_some in Hs. rewrite Forall_forall in Hs.
      assert (∀ p, p ∈ es → p.1 = false) as Hconst.
      { intros [[] e] Hp; [|done]. exfalso. by apply (Hs None); [apply elem_of_list_fmap; exists (true, e)|]. }
      split.
      * intros (x & Hx & ->). apply elem_of_list_fmap in Hx as ([c e] & Hx & He). destruct (Hes _ He) as (Hae & [] & Hca & _).
        specialize (Hconst _ He). cbn in Hconst. subst c. exists (false, e). split; [done|].
        destruct (IH _ He Hae) as [_ IHa]. apply IHa; [done|]. cbn in *.
        unfold comp_body in Hx. cbn [component fst snd] in Hx. by rewrite call_some in Hx by congruence.
      * intros ([c e] & He & Hn). destruct (Hes _ He) as (Hae & [] & Hca & _). specialize (Hconst _ He). cbn in Hconst. subst c.
        eexists. split; [apply elem_of_list_fmap; by exists (false, e)|].
        unfold comp_body. cbn [component fst snd] in *. 
        destruct (IH _ He Hae) as [_ IHa]. rewrite call_some by done. by apply IHa.
Qed.

Lemma no_default_leaf t : match t with Var _ | Arr _ _ | Tup _ => False | _ => True end → ¬ no_default t.
Proof. intros Ht (s & Hin & (? & ? & ->)). by inversion Hin; subst. Qed.
Lemma default_rejected t : accepted t → trait t DefaultC ≠ None → body t DefaultC = Rejected ↔ no_default t.
Proof.
  induction t as [b|e IH| |e IH|es IH|e n IH|n|es IH| | | |n|] using ty_rect'; intros Hacc Ht;
    try (split; [done|intros Hn; by apply no_default_leaf in Hn]).
  - split; [|intros Hn; by apply no_default_leaf in Hn]. cbn [body trait] in *. by destruct (base_op b DefaultC) as [[]|].
  - pose proof (accepted_variant _ Hacc) as [Hes Hne]. destruct es as [|e es]; [done|].
    apply Forall_cons in IH as [IH _]. apply Forall_cons in Hes as [[Hae _] _].
    cbn [trait body] in *. destruct (trait e DefaultC) eqn:Et; [|done]. cbn [call]. rewrite IH by congruence || done.
    split.
    + intros (s & Hin & Hc). exists s. split; [by constructor|done].
    + intros (s & Hin & Hc). inversion Hin; subst; [by destruct Hc as (? & ? & ?)|]. by exists s.
  - pose proof Hacc as (Ha & He). rewrite array_element_vector in He. apply vector_element_optional in He as [_ He].
    apply has_true in He. cbn [body]. destruct (decide (n = 0)) as [-> | Hn].
    + split; [done|]. intros (s & Hin & Hc). inversion Hin; subst; [|done]. by destruct Hc as (? & ? & ?).
    + rewrite call_some, IH by done. split.
      * intros (s & Hin & Hc). exists s. split; [by constructor|done].
      * intros (s & Hin & Hc). inversion Hin; subst; [by destruct Hc as (? & ? & ?)|]. by exists s.
  - rewrite body_tuple. split.
    + destruct es as [|p es]; [done|]. intros _. exists (Tup (p :: es)). split; [constructor|]. by exists p, es.
    + intros (s & Hin & (p & es' & ->)). by inversion Hin; subst.
Qed.

Lemma const_move_rejected t : accepted t → trait t ConstMoveC ≠ None → body t ConstMoveC = Rejected ↔ no_const_move t.
Proof.
  intros Hacc Ht. pose proof (copy_rejected t Hacc) as [Hc _]. unfold no_const_move.
  assert (match t with Arr _ _ | Tup _ => False | _ => True end → (∃ e n, t = Arr e n) ∨ (∃ p, t = Tup [p]) ∨ no_copy t ↔ no_copy t) as E.
  { intros. split; [|by auto]. intros [(? & ? & ->)|[(? & ->)|?]]; done. }
  destruct t as [b|e| |e|es|e n|n|es| | | |n|]; try (rewrite E by done; by apply Hc).
  - rewrite E by done. split; [|intros Hn; by apply no_copy_leaf in Hn]. cbn [body trait] in *. by destruct (base_op b ConstMoveC) as [[]|].
  - split; [|done]. intros _. left. eauto.
  - rewrite trait_tuple in *. rewrite body_tuple in *. destruct es as [|p [|q es]].
    + rewrite Hc by done. naive_solver.
    + split; [|done]. intros _. right. left. eauto.
    + rewrite <-Hc by done. naive_solver.
Qed.

Lemma destroy_fine t : accepted t → trait t DestroyO ≠ None → body t DestroyO ≠ Rejected.
Proof.
  intros Hacc Ht. destruct (trait t DestroyO) as [[]|] eqn:Et; [|clear Ht|done].
  { by rewrite noexcept_fine. }
  destruct t as [b|e| |e|es|e n|n|es| | | |n|]; try done.
  - cbn in *. by rewrite Et.
  - destruct Hacc as (Ha & He). rewrite array_element_vector in He. apply vector_element_optional in He as [He _].
    apply optional_element_element in He as ([] & ? & ?). cbn in Et. destruct (decide (n = 0)); [done|congruence].
  - rewrite trait_tuple in Et. assert (all (map (comp_trait DestroyO) es) = Some true) as ?; [|congruence].
    apply all_some_true, Forall_map, Forall_forall. intros [c e] Hin. pose proof (accepted_tuple _ Hacc) as Hes.
    rewrite Forall_forall in Hes. destruct (Hes _ Hin) as (_ & [] & _). by destruct c.
Qed.
Lemma move_assign_fine t : accepted t → trait t MoveA ≠ None → body t MoveA ≠ Rejected.
Proof.
  intros Hacc Ht. destruct (trait t MoveA) as [[]|] eqn:Et; [|clear Ht|done].
  { by rewrite noexcept_fine. }
  destruct t as [b|e| |e|es|e n|n|es| | | |n|]; try done.
  - cbn in *. by rewrite Et.
  - destruct Hacc as (Ha & He). rewrite array_element_vector in He. apply vector_element_optional in He as [He _].
    apply optional_element_element in He as ([] & ? & Hm). cbn in Et. rewrite Hm in Et. by destruct (decide (n = 0)).
  - pose proof (accepted_tuple _ Hacc) as Hes. rewrite trait_tuple in Et.
    assert (¬ ∃ e, (true, e) ∈ es) as Hc.
    { intros (e & Hin). unfold or_else in Et. destruct (all (map (comp_trait MoveA) es)) eqn:Em.
      - assert (∃ b, all (map (comp_trait MoveA) es) = Some b) as Hs by eauto. apply all_some in Hs. rewrite Forall_forall in Hs.
        by apply (Hs None); [apply elem_of_list_fmap; exists (true, e)|].
      - assert (∃ b, all (map (comp_trait CopyA) es) = Some b) as Hs by eauto. apply all_some in Hs. rewrite Forall_forall in Hs.
        by apply (Hs None); [apply elem_of_list_fmap; exists (true, e)|]. }
    assert (all (map (comp_trait MoveA) es) = Some true) as E.
    { apply all_some_true, Forall_map, Forall_forall. intros [[] e] Hin; [exfalso; eauto|].
      rewrite Forall_forall in Hes. by destruct (Hes _ Hin) as (_ & _ & _ & ? & _). }
    by rewrite E in Et.
Qed.
Lemma moves_false es : Forall (λ p, element p.2) es → moves MoveC es = false → ∃ e, (true, e) ∈ es ∧ ¬ const_movable e.
Proof.
  induction 1 as [|[c e] es He Hes IH]; [done|].
  change (moves MoveC ((c, e) :: es)) with (match comp_trait MoveC (c, e) with Some _ => true | None => false end && moves MoveC es).
  rewrite andb_false_iff. intros [Hc|Hc].
  - destruct c.
    + exists e. split; [by left|]. unfold const_movable, comp_trait in *. cbn in *. intros Hx. by destruct (trait e ConstMoveC).
    + destruct He as [_ He _ _]. unfold comp_trait in Hc. cbn in *. by rewrite He in Hc.
  - destruct (IH Hc) as (e' & ? & ?). exists e'. split; [by right|done].
Qed.
Lemma moves_true es : moves MoveC es = true → ∀ e, (true, e) ∈ es → const_movable e.
Proof.
  unfold moves. rewrite forallb_forall. intros Hf e Hin. apply elem_of_list_In in Hin. specialize (Hf _ Hin).
  unfold const_movable, comp_trait in *. cbn in *. by destruct (trait e ConstMoveC).
Qed.
Lemma move_rejected t : accepted t → trait t MoveC ≠ None → body t MoveC = Rejected ↔ no_move t.
Proof.
  intros Hacc Ht.
  assert (match t with Tup _ => False | _ => True end → ¬ no_move t) as E by (intros Hl (? & -> & _); done).
  assert (trait t MoveC = Some true → body t MoveC = Fine) as Hf by by apply noexcept_fine.
  destruct t as [b|e| |e|es|e n|n|es| | | |n|]; try (split; [by rewrite Hf|intros Hn; exfalso; by apply (E I)]).
  - split; [|intros Hn; exfalso; by apply (E I)]. clear E Hf. cbn [body trait] in *. by destruct (base_op b MoveC) as [[]|].
  - destruct Hacc as (Ha & He). rewrite array_element_vector in He. apply vector_element_optional in He as [He _].
    apply optional_element_element in He as ([] & ? & Hm). cbn [trait] in Hf. rewrite el_move0 in Hf.
    split; [|intros Hn; exfalso; by apply (E I)]. rewrite Hf; [done|]. by destruct (decide (n = 0)).
  - clear E Hf. pose proof (accepted_tuple _ Hacc) as Hes. pose proof (copy_rejected _ Hacc) as [Hc _].
    assert (Forall (λ p, element p.2) es) as Hel by (eapply Forall_impl; [exact Hes|cbn; tauto]).
    assert (trait (Tup es) CopyC ≠ None) as Hcc.
    { rewrite trait_tuple. assert (∃ b, all (map (comp_trait CopyC) es) = Some b) as [b ->]; [|done].
      apply all_some, Forall_forall. intros x Hx. apply elem_of_list_fmap in Hx as ([c e] & -> & Hin).
      rewrite Forall_forall in Hel. destruct (Hel _ Hin). by destruct c. }
    rewrite body_tuple. destruct (moves MoveC es) eqn:Em.
    + pose proof (moves_true _ Em) as Hcm. rewrite worst_rejected, Exists_exists. split.
      * intros (x & Hx & ->). apply elem_of_list_fmap in Hx as ([c e] & Hx & Hin).
        rewrite Forall_forall in Hes. destruct (Hes _ Hin) as (Hae & [] & _). unfold comp_body in Hx. destruct c; cbn [component fst snd] in *.
        -- rewrite call_some in Hx by (by apply Hcm). exists es. split; [done|]. left. split; [done|]. exists e. split; [done|].
           apply const_move_rejected; [done| |done]. by apply Hcm.
        -- rewrite call_some, noexcept_fine in Hx by congruence || done. done.
      * intros (es' & [= <-] & [(_ & e & Hin & Hn)|((e & Hin & Hn) & _)]); [|by apply Hcm in Hin].
        eexists. split; [apply elem_of_list_fmap; by exists (true, e)|]. unfold comp_body. cbn [component fst snd].
        rewrite call_some by (by apply Hcm). rewrite Forall_forall in Hes. destruct (Hes _ Hin) as (Hae & _).
        apply const_move_rejected; [done|by apply Hcm|done].
    + destruct (moves_false _ Hel Em) as (e & Hin & Hn). split.
      * intros Hr. exists es. split; [done|]. right. split; [eauto|]. destruct es as [|p [|q es]]; [by left; eauto|by eauto|].
        right. apply Hc; [done|]. by rewrite body_tuple.
      * intros (es' & [= <-] & [(Hcm & _)|(_ & Hor)]); [by apply Hcm in Hin|].
        destruct es as [|p [|q es]]; [by apply elem_of_nil in Hin|done|].
        destruct Hor as [(p' & ?)|Hor]; [done|]. apply Hc in Hor; [|done]. by rewrite body_tuple in Hor.
  - split; [done|intros Hn; exfalso; by apply (E I)].
Qed.

Lemma body_rejected t o : accepted t → trait t o ≠ None → body t o = Rejected ↔ broken t o.
Proof.
  intros Hacc Ht. destruct o; cbn [broken].
  - by apply default_rejected.
  - by apply copy_rejected.
  - by apply move_rejected.
  - by apply const_move_rejected.
  - by apply copy_rejected.
  - split; [|done]. intros ?. by eapply move_assign_fine.
  - by apply swap_rejected.
  - split; [|done]. intros ?. by eapply destroy_fine.
Qed.
End proofs.
