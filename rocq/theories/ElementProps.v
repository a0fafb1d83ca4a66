(** C94 element requirements suffice, C95 library types nest *)
From stdpp Require Import prelude.
From Verif Require Import ElementModel ElementSpec ElementProofs.
From Verif Require LayoutModel LayoutSpec LayoutProofs LayoutProps.
Local Open Scope N_scope.

Section props.
Context `{P : Program} `{T : LayoutModel.Target}.

(** * C94 *)
(** No operation of an accepted type lets an exception of an element reach a noexcept; what is
    declared noexcept does not throw *)
Theorem C94_noexcept t o n : accepted t → trait t o = Some n →
  body t o ≠ Terminates ∧ (n = true → body t o = Fine ∨ body t o = Rejected).
Proof.
  intros Hacc Ht. split; [by apply body_tame; [|congruence]|]. intros ->.
  destruct (decide (o = SwapO)) as [-> | Ho]; [by apply swap_fine|]. left. by apply noexcept_fine.
Qed.
(** Destruction, moves and swaps of library types are declared noexcept, but for moves of tuples
    with const components, and moves and swaps of variant_ref *)
Theorem C94_nothrow_partial t : accepted t → ¬ is_base t →
  trait t DestroyO = Some true ∧
  ((∀ n, t ≠ VRef n) → trait t SwapO = Some true ∧ (¬ const_tuple t → trait t MoveC = Some true ∧ trait t MoveA = Some true)).
Proof.
  intros Hacc Hb. destruct t as [b|e| |e|es|e n|n|es| | | |n|]; try (by split_and!).
  - exfalso. apply Hb. by exists b.
  - pose proof Hacc as (_ & He). rewrite array_element_vector in He. apply vector_element_optional in He as [He _].
    apply optional_element_element in He as ([] & ? & Hm). cbn [trait]. destruct (decide (n = 0)); [done|].
    rewrite el_destroy, el_move, Hm. done.
  - pose proof (accepted_tuple _ Hacc) as Hes. rewrite !trait_tuple. split.
    + apply all_some_true, Forall_map. eapply Forall_impl; [done|]. intros [c e] (_ & [] & _).
      unfold comp_trait. destruct c; done.
    + intros _. split; [done|]. intros Hc.
      assert (∀ p, p ∈ es → p.1 = false) as Hf.
      { intros [[] e] Hin; [|done]. destruct Hc. by exists e, es. }
      assert (∀ o, o = MoveC ∨ o = MoveA → all (map (comp_trait o) es) = Some true) as E.
      { intros o Ho. apply all_some_true, Forall_map, Forall_forall. intros [c e] Hin.
        rewrite Forall_forall in Hes. destruct (Hes _ Hin) as (_ & [] & _ & ? & _). apply Hf in Hin. cbn in *. subst c.
        by destruct Ho as [-> | ->]. }
      by rewrite (E MoveC), (E MoveA) by auto.
  - split; [done|]. intros Hn. by destruct (Hn n).
Qed.
(** Declared operations compile, except for [broken] *)
Theorem C94_compiles_partial t o : accepted t → trait t o ≠ None → body t o = Rejected ↔ broken t o.
Proof. apply body_rejected. Qed.

Lemma tuple_free_elem es e : foldr and True (map tuple_free es) → e ∈ es → tuple_free e.
Proof. rewrite foldr_and, Forall_forall. auto. Qed.
Lemma tuple_free_no_swap t : tuple_free t → ¬ no_swap t.
Proof.
  intros Hf (s & Hin & (e & es & -> & He)). remember (Tup es) as s eqn:Hs. revert Hf.
  induction Hin as [t|e' s Hin IH|e' es' s Hm Hin IH|e' n s Hin IH|c e' es' s Hm Hin IH]; cbn [tuple_free]; try (by auto).
  - subst. intros ->. by apply elem_of_nil in He.
  - intros Hf. apply IH; [done|]. by eapply tuple_free_elem.
  - intros ->. by apply elem_of_nil in Hm.
Qed.
Lemma tuple_free_no_copy t : tuple_free t → ¬ no_copy t.
Proof.
  intros Hf (v & Hin & Hn). remember (Vec v) as s eqn:Hs. revert Hf.
  induction Hin as [t|e' s Hin IH|e' s Hin IH|e' es' s Hm Hin IH|e' n s Hn' Hin IH|c e' es' s Hm Hin IH]; cbn [tuple_free]; try (by auto).
  - subst. intros Hf. by apply tuple_free_no_swap in Hn.
  - intros Hf. apply IH; [done|]. by eapply tuple_free_elem.
  - intros ->. by apply elem_of_nil in Hm.
Qed.
Lemma tuple_free_no_default t : tuple_free t → ¬ no_default t.
Proof.
  intros Hf (s & Hin & (p & es & ->)). remember (Tup (p :: es)) as s eqn:Hs. revert Hf.
  induction Hin as [t|e' es' s Hin IH|e' n s Hn' Hin IH]; cbn [tuple_free]; try (by auto).
  - by subst.
  - intros [Hf _]. auto.
Qed.
(** In particular all declared operations of types without tuples, but for construction of arrays
    from const rvalues *)
Theorem C94_without_tuples t o : accepted t → tuple_free t → trait t o ≠ None →
  body t o = Rejected ↔ o = ConstMoveC ∧ ∃ e n, t = Arr e n.
Proof.
  intros Hacc Hf Ht. rewrite body_rejected by done.
  pose proof (tuple_free_no_swap t Hf). pose proof (tuple_free_no_copy t Hf). pose proof (tuple_free_no_default t Hf).
  destruct o; cbn [broken]; try (split; [done|by intros [? _]]).
  - split; [|by intros [? _]]. intros (es & -> & Hm). cbn in Hf. subst es.
    destruct Hm as [(_ & e & Hin & _)|((e & Hin & _) & _)]; by apply elem_of_nil in Hin.
  - unfold no_const_move. split.
    + intros [Ha|[(p & ->)|Hc]]; done.
    + intros [_ Ha]. by left.
Qed.
(** The members of vector compile, except for default construction, copies and swaps of elements
    that do not *)
Theorem C94_members e m : accepted (Vec e) → member_compiles e m = false ↔
  (m = Grow ∧ no_default e) ∨ ((m = Fill ∨ m = Insert) ∧ no_copy e) ∨ (m = Insert ∧ no_swap e).
Proof.
  intros Hacc. pose proof Hacc as (Ha & He & _). apply vector_element_optional in He as [He Hd]. apply has_true in Hd.
  apply optional_element_element in He as ([] & ? & ?).
  pose proof (body_rejected e DefaultC Ha Hd) as Rd. pose proof (body_rejected e CopyC Ha el_copy) as Rc.
  assert (trait e SwapO ≠ None) as Hs by congruence. pose proof (body_rejected e SwapO Ha Hs) as Rs.
  assert (body e MoveC = Fine) as Rm by by apply noexcept_fine.
  assert (body e MoveA = Fine) as Rma by by apply noexcept_fine.
  assert (body e DestroyO = Fine) as Rde by by apply noexcept_fine.
  cbn [broken] in *. unfold member_compiles.
  destruct m; cbn [member_uses forallb]; rewrite !call_some, ?Rm, ?Rma, ?Rde by congruence.
  - destruct (body e DefaultC); cbn; naive_solver.
  - destruct (body e CopyC); cbn; naive_solver.
  - destruct (body e CopyC), (body e SwapO); cbn; naive_solver.
  - cbn; naive_solver.
  - cbn; naive_solver.
  - cbn; naive_solver.
Qed.

(** Not all that is declared compiles: tuples are default constructible but resize of vectors of
    them does not compile *)
Theorem C94_default_refuted e : accepted (Vec (Tup [(false, e)])) →
  trait (Tup [(false, e)]) DefaultC = Some false ∧ body (Tup [(false, e)]) DefaultC = Rejected ∧
  member_compiles (Tup [(false, e)]) Grow = false.
Proof. intros Hacc. split_and!; done. Qed.
(** tuples with const components are swappable, variants of them too, vectors of those can be
    copied; all three do not compile *)
Theorem C94_swap_refuted e : accepted (Vec (Var [Tup [(true, e)]])) →
  trait (Tup [(true, e)]) SwapO = Some true ∧ body (Tup [(true, e)]) SwapO = Rejected ∧
  trait (Var [Tup [(true, e)]]) SwapO = Some true ∧ body (Var [Tup [(true, e)]]) SwapO = Rejected ∧
  trait (Vec (Var [Tup [(true, e)]])) CopyC = Some false ∧ body (Vec (Var [Tup [(true, e)]])) CopyC = Rejected ∧
  member_compiles (Var [Tup [(true, e)]]) Insert = false.
Proof.
  intros Hacc. pose proof Hacc as (Ha & _). pose proof Ha as ((Hat & _) & _).
  assert (no_swap (Var [Tup [(true, e)]])) as Hn.
  { exists (Tup [(true, e)]). split; [|by exists e, [(true, e)]; split; [|left]]. econstructor; [by left|constructor]. }
  split_and!; try done.
  - apply body_rejected; [done|done|]. cbn. exists (Var [Tup [(true, e)]]). split; [constructor|done].
  - apply C94_members; [done|]. auto.
Qed.
(** tuples with const arrays are move constructible; moving them does not compile *)
Theorem C94_move_refuted e n : accepted (Tup [(true, Arr e n)]) →
  trait (Tup [(true, Arr e n)]) MoveC = Some false ∧ body (Tup [(true, Arr e n)]) MoveC = Rejected.
Proof. intros Hacc. split; done. Qed.

(** * C95 *)
Lemma standard_library t : accepted t → ¬ is_base t →
  match t with Tup (_ :: _ :: _) => False | Tup [(_, e)] => no_leading_unit e | _ => True end ↔ standard t = true.
Proof.
  intros Hacc Hb. unfold standard. pose proof (λ t n k, LayoutProps.C71_standard_layout t [] n k) as Hs.
  destruct t as [b|e| |e|es|e n|n|es| | | |n|]; try (by split); cbn [layout].
  - exfalso. apply Hb. by exists b.
  - split; [|done]. intros _. destruct Hacc as (_ & He). unfold optional_element, standard in He. rewrite !andb_true_iff in He.
    destruct (Hs (layout e) 0%nat 0) as (_ & ? & _); [naive_solver|constructor|done].
  - split; [|done]. intros _. destruct Hacc as (_ & He & _).
    destruct (LayoutProps.C71_standard_layout LayoutModel.UChar (map layout es) 0%nat 0) as (_ & _ & ? & _); [done| |done].
    apply Forall_map, Forall_forall. intros e Hin. rewrite forallb_forall in He. apply elem_of_list_In, He in Hin.
    unfold variant_element, standard in Hin. rewrite !andb_true_iff in Hin. cbn. naive_solver.
  - split; [|done]. intros _. destruct Hacc as (_ & He). unfold array_element, standard in He. rewrite !andb_true_iff in He.
    destruct (Hs (layout e) 0%nat n) as (? & _); [naive_solver|constructor|done].
  - split; [|done]. intros _. destruct (Hs LayoutModel.UChar 0%nat n) as (_ & _ & _ & _ & ? & _); [done|constructor|done].
  - destruct es as [|[c e] [|[c' e'] es]].
    + by split.
    + cbn [map]. rewrite (proj2 (LayoutProps.C71_tuple_partial (layout e))). unfold no_leading_unit.
      destruct Hacc as (_ & He). cbn [forallb] in He. unfold tuple_element, standard in He. rewrite !andb_true_iff in He. cbn [snd] in He. tauto.
    + cbn [map]. rewrite LayoutProps.C71_tuple_refuted. done.
  - split; [|done]. intros _. destruct (Hs LayoutModel.UChar n 0) as (_ & _ & _ & ? & _); [done|constructor|done].
Qed.
(** Which library types the containers accept *)
Theorem C95_variant_partial t : accepted t → ¬ is_base t → variant_element t = true ↔ storable_in_variant t.
Proof.
  intros Hacc Hb. pose proof (standard_library t Hacc Hb) as Hs. unfold variant_element.
  rewrite !andb_true_iff, <-Hs, !nothrow_true, has_true.
  destruct t as [b|e| |e|es|e n|n|es| | | |n|]; try (cbn; split; [by auto|by intros; split_and!; auto]; fail).
  - exfalso. apply Hb. by exists b.
  - pose proof Hacc as (_ & He). rewrite array_element_vector in He. apply vector_element_optional in He as [He _].
    apply optional_element_element in He as ([] & ? & ?).
    cbn [trait storable_in_variant]. split; [done|]. intros _. destruct (decide (n = 0)); split_and!; try done. by rewrite el_move.
  - pose proof (accepted_tuple _ Hacc) as Hes. destruct es as [|[c e] [|[c' e'] es]].
    + cbn. naive_solver.
    + apply Forall_cons in Hes as [(_ & [] & _) _]. rewrite !trait_tuple. cbn [storable_in_variant map all foldr snd] in *.
      destruct c; unfold comp_trait; cbn [component fst snd].
      * rewrite el_destroy. destruct (trait e CopyC); [|done]. destruct (trait e ConstMoveC) as [[]|]; cbn; naive_solver.
      * rewrite el_destroy, el_move. destruct (trait e CopyC); [|done]. cbn; naive_solver.
    + cbn. naive_solver.
  - cbn. naive_solver.
Qed.
Theorem C95_optional_partial t : accepted t → ¬ is_base t → optional_element t = true ↔ storable_in_optional t.
Proof.
  intros Hacc Hb. rewrite optional_element_variant, C95_variant_partial, nothrow_true, has_true by done.
  destruct t as [b|e| |e|es|e n|n|es| | | |n|]; try (cbn; split; [by auto|by intros; split_and!; auto]; fail).
  - cbn. naive_solver.
  - pose proof Hacc as (_ & He). rewrite array_element_vector in He. apply vector_element_optional in He as [He _].
    apply optional_element_element in He as ([] & ? & Hm).
    cbn [trait storable_in_variant storable_in_optional]. split; [done|]. intros _. destruct (decide (n = 0)); split_and!; try done. by rewrite Hm.
  - pose proof (accepted_tuple _ Hacc) as Hes. destruct es as [|[c e] [|[c' e'] es]].
    + cbn. naive_solver.
    + apply Forall_cons in Hes as [(_ & [] & Hca & Hma & _) _]. rewrite !trait_tuple. cbn [storable_in_variant storable_in_optional map all foldr snd] in *.
      destruct c; unfold comp_trait; cbn [component fst snd].
      * cbn. naive_solver.
      * rewrite Hma. destruct (trait e CopyA); [|done]. cbn; naive_solver.
    + cbn. naive_solver.
  - cbn. naive_solver.
Qed.
Theorem C95_vector_partial t : accepted t → ¬ is_base t →
  (vector_element t = true ↔ storable_in_vector t) ∧ (array_element t = true ↔ storable_in_vector t) ∧
  (tuple_element t = true ↔ storable_in_vector t).
Proof.
  intros Hacc Hb. assert (vector_element t = true ↔ storable_in_vector t) as E; [|split_and!; exact E].
  rewrite vector_element_optional, C95_optional_partial, has_true by done.
  destruct t as [b|e| |e|es|e n|n|es| | | |n|]; try (cbn; naive_solver).
  pose proof (accepted_variant _ Hacc) as [_ Hne]. destruct es as [|e es]; [done|].
  cbn. destruct (trait e DefaultC) eqn:Ed; split.
  - intros _. exists e, es. by rewrite Ed.
  - done.
  - by intros [_ ?].
  - intros (e' & es' & [= <- <-] & ?). by rewrite Ed in *.
Qed.
(** The types that can be written are those, with at most 254 different alternatives that the
    static_assert on their layout allows, and elements of vectors of which ptrdiff_t counts 11 *)
Lemma layout_wf : (∀ b, LayoutSpec.wf (base_layout b)) → LayoutSpec.target_ok → ∀ t, LayoutSpec.wf (layout t).
Proof.
  intros Hb Hok. pose proof (LayoutProps.ptr_wf Hok) as Hptr.
  assert (LayoutSpec.wf LayoutModel.UChar) as Hu by (split_and!; [by exists 0|done|apply N.divide_refl]).
  assert (LayoutSpec.pow2 1) as H1 by by exists 0.
  induction t as [b|e IH| |e IH|es IH|e n IH|n|es IH| | | |n|] using ty_rect'; cbn [layout].
  - apply Hb.
  - cbn; done.
  - unfold LayoutModel.string_t, LayoutModel.heap_t, LayoutModel.sso_t.
    assert (LayoutSpec.wf (LayoutModel.Arr LayoutModel.UChar (LayoutModel.sso_size + 1))) as Hs by (split; [done|lia]).
    remember (LayoutModel.Arr LayoutModel.UChar (LayoutModel.sso_size + 1)) as a. cbn. done.
  - cbn [LayoutModel.optional_t LayoutSpec.wf map foldr LayoutSpec.pack_ok]. done.
  - cbn [LayoutModel.variant_t LayoutSpec.wf map foldr LayoutSpec.pack_ok]. split_and!; try done.
    apply LayoutProofs.variant_storage_wf, Forall_map. done.
  - unfold LayoutModel.array_t. destruct (decide (n = 0)); [cbn; done|].
    assert (LayoutSpec.wf (LayoutModel.Arr (layout e) n)) as Ha by (split; [done|lia]).
    remember (LayoutModel.Arr (layout e) n) as a. cbn. done.
  - unfold LayoutModel.bitset_t. destruct (decide (n = 0)) as [|Hn]; [cbn; done|].
    assert (0 < n / 8 + (if decide (n mod 8 = 0) then 0 else 1)) as Hp.
    { pose proof (N.div_mod n 8 ltac:(done)) as Hd. destruct (decide (n mod 8 = 0)); revert Hd; generalize dependent (n mod 8); generalize (n / 8); intros; lia. }
    revert Hp. generalize (n / 8 + (if decide (n mod 8 = 0) then 0 else 1)). intros k Hk. cbn. done.
  - cbn [LayoutModel.tuple_t LayoutSpec.wf map foldr LayoutSpec.pack_ok]. split_and!; try done.
    apply LayoutProofs.tuple_storage_wf, Forall_map. eapply Forall_impl; [done|]. by intros [].
  - cbn; done.
  - cbn; done.
  - cbn; done.
  - cbn [LayoutModel.variant_ref_t LayoutSpec.wf map foldr LayoutSpec.pack_ok]. split_and!; try done.
    induction n as [|n IHn]; [done|]. cbn [LayoutModel.variant_ref_storage LayoutSpec.wf map foldr LayoutSpec.pack_ok]. done.
  - cbn; done.
Qed.
Lemma goes_in_variant_iff t : accepted t → variant_element t = true ↔ goes_in_variant t.
Proof.
  intros Ha. destruct t as [b|e| |e|es|e n|n|es| | | |n|]; try (apply C95_variant_partial; [done|by intros [? ?]]).
  unfold variant_element, goes_in_variant, regular. rewrite !andb_true_iff, !nothrow_true, has_true, !Forall_cons, Forall_nil. cbn. tauto.
Qed.
Lemma goes_in_optional_iff t : accepted t → optional_element t = true ↔ goes_in_optional t.
Proof.
  intros Ha. destruct t as [b|e| |e|es|e n|n|es| | | |n|]; try (apply C95_optional_partial; [done|by intros [? ?]]).
  unfold optional_element, goes_in_optional, regular, assignable. rewrite !andb_true_iff, !nothrow_true, !has_true, !Forall_cons, Forall_nil. cbn. tauto.
Qed.
Lemma goes_in_vector_iff t : accepted t → vector_element t = true ↔ goes_in_vector t.
Proof.
  intros Ha. destruct t as [b|e| |e|es|e n|n|es| | | |n|]; try (apply C95_vector_partial; [done|by intros [? ?]]).
  unfold vector_element, goes_in_vector, regular, assignable. rewrite !andb_true_iff, !nothrow_true, !has_true, !Forall_cons, Forall_nil. cbn. tauto.
Qed.
Lemma is_max_fmap (f : ty → N) es m : LayoutSpec.is_max m (f <$> es) ↔ ∃ e, e ∈ es ∧ f e = m ∧ ∀ e', e' ∈ es → f e' ≤ f e.
Proof.
  unfold LayoutSpec.is_max. rewrite elem_of_list_fmap, Forall_fmap, Forall_forall. split.
  - intros [(e & -> & He) Hm]. exists e. split_and!; [done|done|]. intros e' He'. by apply Hm.
  - intros (e & He & <- & Hm). split; [by exists e|]. intros e' He'. by apply Hm.
Qed.
Theorem C95_types_partial t : (∀ b, LayoutSpec.wf (base_layout b)) → LayoutSpec.target_ok → accepted t ↔ formed t.
Proof.
  intros Hb Hok. pose proof (layout_wf Hb Hok) as Hwf.
  induction t as [b|e IH| |e IH|es IH|e n IH|n|es IH| | | |n|] using ty_rect'; cbn [accepted]; try (by split; [constructor|]).
  - pose proof (Hwf e) as Hw. apply LayoutProofs.lay_wf in Hw as [_ Hs _ _ _].
    assert (10 < max_capacity e ↔ 11 * LayoutModel.sizeof (layout e) < 2 ^ (8 * LayoutModel.word - 1)) as E.
    { unfold max_capacity, LayoutModel.sizeof. set (s := LayoutModel.size (LayoutModel.lay (layout e))) in *.
      assert (0 < 2 ^ (8 * LayoutModel.word - 1)) by (apply N.neq_0_lt_0, N.pow_nonzero; done).
      generalize dependent (2 ^ (8 * LayoutModel.word - 1)). intros k Hk.
      assert (10 < (k - 1) / s ↔ 11 <= (k - 1) / s) as -> by lia. split.
      - intros Hd. pose proof (N.mul_div_le (k - 1) s ltac:(lia)). nia.
      - intros Hd. apply N.div_le_lower_bound; lia. }
    rewrite E. split.
    + intros (Ha & He & Hc). constructor; [by apply IH|by apply goes_in_vector_iff|done].
    + inversion 1; subst. assert (accepted e) by by apply IH. split_and!; [done|by apply goes_in_vector_iff|done].
  - split.
    + intros (Ha & He). constructor; [by apply IH|by apply goes_in_optional_iff].
    + inversion 1; subst. assert (accepted e) by by apply IH. split; [done|by apply goes_in_optional_iff].
  - rewrite foldr_and, Forall_forall, forallb_forall. rewrite Forall_forall in IH.
    assert (Forall LayoutSpec.wf (map layout es)) as Hwes by by (apply Forall_map, Forall_forall; intros; apply Hwf).
    assert (∀ f : LayoutModel.ty → N, f <$> map layout es = (λ e, f (layout e)) <$> es) as Em by (intros f; symmetry; apply (list_fmap_compose layout f)).
    split.
    + intros (Ha & He & Hne & Hl & Hnd & Hc). assert (map layout es ≠ []) as Hne' by by destruct es.
      pose proof (LayoutProofs.max_size_is_max _ Hne' Hwes) as Hm. pose proof (LayoutProofs.max_alignof_is_max _ Hne' Hwes) as Hal.
      apply (LayoutProps.C69_variant_compiles _ _ _ Hne' Hwes Hm Hal) in Hc.
      rewrite Em in Hm, Hal. apply is_max_fmap in Hm as (m & Hm & Em1 & Hmm). apply is_max_fmap in Hal as (a & Hal & Ea & Haa).
      rewrite <-Em1, <-Ea in Hc. eapply formed_variant; try done.
      * intros e Hin. split; [by apply IH, Ha|]. apply goes_in_variant_iff; [by apply Ha|]. by apply He, elem_of_list_In.
      * destruct es; [done|]. cbn in *. lia.
    + inversion 1 as [| | | |es' m a Hf Hnd Hl Hmm Hm Haa Hal Hd| | | | | | | |]; subst.
      assert (∀ e, e ∈ es → accepted e) as Hacc by (intros e Hin; by apply IH, Hf).
      split_and!.
      * done.
      * intros e Hin. apply elem_of_list_In in Hin. apply goes_in_variant_iff; [by apply Hacc|by apply Hf].
      * by intros ->; cbn in Hl; lia.
      * lia.
      * done.
      * eapply LayoutProps.C69_variant_compiles; [by destruct es; [cbn in Hl; lia|]|done| | |exact Hd]; rewrite Em; apply is_max_fmap; eauto.
  - split.
    + intros (Ha & He). constructor; [by apply IH|by apply goes_in_vector_iff].
    + inversion 1; subst. assert (accepted e) by by apply IH. split; [done|by apply goes_in_vector_iff].
  - assert (map (λ p : bool * ty, match p with (_, e) => accepted e end) es = map (λ p, accepted p.2) es) as ->.
    { apply map_ext. by intros []. }
    rewrite foldr_and, Forall_forall, forallb_forall. rewrite Forall_forall in IH. split.
    + intros (Ha & He). constructor. intros c e Hin. split; [by apply (IH (c, e)), (Ha (c, e))|].
      apply goes_in_vector_iff; [by apply (Ha (c, e))|]. by apply (He (c, e)), elem_of_list_In.
    + inversion 1 as [| | | | | | |es' Hf| | | | |]; subst.
      assert (∀ p, p ∈ es → accepted p.2) as Hacc by (intros [c e] Hin; by apply (IH (c, e)), (Hf c)).
      split; [done|]. intros [c e] Hin. apply elem_of_list_In in Hin. apply goes_in_vector_iff; [by apply (Hacc (c, e))|by apply (Hf c)].
  - split; [|inversion 1; subst; lia]. destruct n as [|n]; [lia|]. constructor.
Qed.
(** Not all library types are: variant_ref nowhere, function_ref not in vectors, arrays and tuples,
    tuples of several components nowhere *)
Theorem C95_refuted n p q es :
  variant_element (VRef n) = false ∧ optional_element (VRef n) = false ∧ vector_element (VRef n) = false ∧
  array_element (VRef n) = false ∧ tuple_element (VRef n) = false ∧
  vector_element FRef = false ∧ array_element FRef = false ∧ tuple_element FRef = false ∧
  variant_element (Tup (p :: q :: es)) = false ∧ optional_element (Tup (p :: q :: es)) = false ∧
  vector_element (Tup (p :: q :: es)) = false ∧ array_element (Tup (p :: q :: es)) = false ∧ tuple_element (Tup (p :: q :: es)) = false.
Proof.
  assert (standard (Tup (p :: q :: es)) = false) as Hs.
  { unfold standard. cbn [layout map]. destruct p, q. apply LayoutProps.C71_tuple_refuted. }
  unfold variant_element, optional_element, vector_element, array_element, tuple_element. rewrite Hs.
  split_and!; try done; cbn; by rewrite !andb_false_r.
Qed.
End props.

(** ** A program: int; a type whose copies may throw; one without default constructor; one whose const
    objects cannot be moved *)
Inductive example_base := BInt | BText | BKey | BPin.
Global Instance example_program : Program := {
  base := example_base;
  base_layout b := match b with BInt => LayoutModel.Opaque 4 4 true | _ => LayoutModel.Opaque 8 8 true end;
  base_op b o := match b, o with
    | BText, (CopyC | CopyA | DefaultC | ConstMoveC) => Some false
    | BKey, DefaultC => None
    | BPin, ConstMoveC => None
    | _, _ => Some true
    end;
}.
Local Existing Instance LayoutProps.x86_64.
Notation int := (Base BInt).
Local Ltac accept :=
  cbn [accepted map foldr]; split_and!; try done; try (cbn; lia);
  try (apply NoDup_cons; rewrite elem_of_list_singleton; split; [done|]); try apply NoDup_singleton.
Example C94_case :
  accepted (Vec (Opt (Var [int; Base BText]))) ∧ trait (Vec (Opt (Var [int; Base BText]))) CopyA = Some false ∧
  body (Vec (Opt (Var [int; Base BText]))) CopyA = Throws ∧ body (Opt (Var [int; Base BText])) MoveA = Fine ∧
  tuple_free (Vec (Opt (Var [int; Base BText]))).
Proof.
  split; [accept|by vm_compute].
Qed.
Example C94_default_case : accepted (Vec (Tup [(false, int)])) ∧ member_compiles (Tup [(false, int)]) Insert = true.
Proof. by vm_compute. Qed.
Example C94_swap_case : accepted (Vec (Var [Tup [(true, int)]])).
Proof. accept. Qed.
Example C94_move_case : accepted (Tup [(true, Arr int 3)]) ∧ accepted (Tup [(true, Base BPin)]) ∧
  trait (Tup [(true, Base BPin)]) MoveC = Some false ∧ body (Tup [(true, Base BPin)]) MoveC = Rejected ∧
  body (Tup [(true, Base BPin); (false, int)]) MoveC = Fine ∧ body (Tup [(true, int)]) MoveC = Fine.
Proof. by vm_compute. Qed.
Example C95_case :
  accepted (Var [Base BKey]) ∧ ¬ is_base (Var [Base BKey]) ∧ vector_element (Var [Base BKey]) = false ∧ optional_element (Var [Base BKey]) = true ∧
  accepted (Tup [(false, Str)]) ∧ vector_element (Tup [(false, Str)]) = true ∧
  accepted (Tup [(true, int)]) ∧ variant_element (Tup [(true, int)]) = true ∧ optional_element (Tup [(true, int)]) = false ∧
  accepted (Tup [(false, Tup [])]) ∧ variant_element (Tup [(false, Tup [])]) = false.
Proof.
  split_and!; try done; try (by intros [? ?]); accept.
Qed.

Example C95_types_case :
  (∀ b, LayoutSpec.wf (base_layout b)) ∧ LayoutSpec.target_ok ∧
  formed (Vec (Var [Opt int; Arr (Base BText) 3; Tup [(true, int)]])) ∧ ¬ formed (Vec (Base BKey)) ∧
  ¬ formed (Var [int; int]) ∧ ¬ formed (Var [Base BText; Arr int 3]) ∧ ¬ formed (Vec (Arr int (2 ^ 60))).
Proof.
  assert (∀ b, LayoutSpec.wf (base_layout b)) as Hb.
  { intros []; cbn; (split; [|split; [lia|by exists 1]]); [by exists 2|by exists 3..]. }
  assert LayoutSpec.target_ok as Hok by by (split; [exists 3|exists 4]).
  split; [done|]. split; [done|]. rewrite <-!C95_types_partial by done. split_and!.
  - cbn [accepted map foldr]. split_and!; try done; try (cbn; lia). repeat (apply NoDup_cons; split; [set_solver|]). constructor.
  - by intros (_ & ? & _).
  - intros (_ & _ & _ & _ & Hd & _). apply NoDup_cons in Hd as [Hd _]. apply Hd. left.
  - by intros (_ & _ & _ & _ & _ & ?).
  - by intros (_ & _ & ?).
Qed.

Print Assumptions C95_types_partial.
Example C94_nothrow_case :
  accepted (Tup [(false, Opt int); (false, Str)]) ∧ ¬ const_tuple (Tup [(false, Opt int); (false, Str)]) ∧
  accepted (VRef 2) ∧ trait (VRef 2) SwapO = Some false ∧ accepted (Tup [(true, Str)]) ∧ trait (Tup [(true, Str)]) MoveC = Some false.
Proof. split_and!; try done; try (cbn; lia). intros (e & es & [= <-] & He). set_solver. Qed.

Print Assumptions C94_nothrow_partial.
Print Assumptions C94_noexcept.
Print Assumptions C94_compiles_partial.
Print Assumptions C94_without_tuples.
Print Assumptions C94_members.
Print Assumptions C94_default_refuted.
Print Assumptions C94_swap_refuted.
Print Assumptions C94_move_refuted.
Print Assumptions C95_variant_partial.
Print Assumptions C95_optional_partial.
Print Assumptions C95_vector_partial.
Print Assumptions C95_refuted.
