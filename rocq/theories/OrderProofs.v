(** Facts about lexicographic order, and what the two algorithms compute. *)
From stdpp Require Import prelude.
From Coq Require Import Lia.
From Verif Require Import Cpp OrderSpec OrderModel.
Local Open Scope nat_scope.

Section lex.
Context {A : Type} (lt eq : A → A → Prop).
Notation less := (lex_less lt).
Notation equal := (all_equal eq).

Lemma lex_nil_r a : ¬ less a [].
Proof. intros (k & _ & [[_ [? H]]|(x & y & _ & H & _)]); by rewrite lookup_nil in H. Qed.
Lemma lex_nil_cons y b : less [] (y :: b).
Proof. exists 0. split; [intros j Hj; lia|]. left. split; [done|]. by exists y. Qed.
Lemma lex_cons x y a b : less (x :: a) (y :: b) ↔ lt x y ∨ (¬ lt x y ∧ ¬ lt y x ∧ less a b).
Proof.
  split.
  - intros (k & Hs & Hk). destruct k as [|k].
    + left. cbn in Hk. destruct Hk as [[? _]|(x' & y' & [= <-] & [= <-] & ?)]; done.
    + right. destruct (Hs 0 ltac:(lia)) as (x' & y' & [= <-] & [= <-] & ? & ?). split; [done|]. split; [done|].
      exists k. split; [|done]. intros j Hj. apply (Hs (S j)). lia.
  - intros [Hlt|(H1 & H2 & k & Hs & Hk)].
    + exists 0. split; [intros j Hj; lia|]. right. by exists x, y.
    + exists (S k). split; [|done]. intros [|j] Hj; [by exists x, y|]. apply Hs. lia.
Qed.
Lemma equal_nil : equal [] [].
Proof. split; [done|]. intros k x y H. by rewrite lookup_nil in H. Qed.
Lemma equal_cons x y a b : equal (x :: a) (y :: b) ↔ eq x y ∧ equal a b.
Proof.
  split.
  - intros (Hl & He). cbn in Hl. split; [by apply (He 0)|]. split; [lia|]. intros k. apply (He (S k)).
  - intros (Hxy & Hl & He). split; [cbn; lia|]. intros [|k] x' y'; [|apply He]. by intros [= <-] [= <-].
Qed.
Lemma equal_nil_cons y b : ¬ equal [] (y :: b).
Proof. by intros [? _]. Qed.
Lemma equal_cons_nil y b : ¬ equal (y :: b) [].
Proof. by intros [? _]. Qed.

Lemma to_equal_refl : total_order lt eq → ∀ x, eq x x.
Proof. intros T x. apply (to_equal _ _ T). split; apply (to_irrefl _ _ T). Qed.
Lemma to_equal_sym : total_order lt eq → ∀ x y, eq x y → eq y x.
Proof. intros T x y. rewrite !(to_equal _ _ T). tauto. Qed.
Lemma to_lt_equal : total_order lt eq → (∀ x y, {lt x y} + {¬ lt x y}) → ∀ x y z, lt x y → eq y z → lt x z.
Proof.
  intros T dec x y z Hxy Hyz. destruct (dec x z) as [|Hxz]; [done|]. exfalso.
  destruct (dec z x) as [Hzx|Hzx].
  - apply (to_equal _ _ T) in Hyz as [_ Hzy]. apply Hzy. by eapply (to_trans _ _ T).
  - assert (eq x z) as Hxz' by (by apply (to_equal _ _ T)).
    pose proof (to_equal_trans _ _ T _ _ _ Hxz' (to_equal_sym T _ _ Hyz)) as He.
    by apply (to_equal _ _ T) in He as [? _].
Qed.
Lemma to_equal_lt : total_order lt eq → (∀ x y, {lt x y} + {¬ lt x y}) → ∀ x y z, eq x y → lt y z → lt x z.
Proof.
  intros T dec x y z Hxy Hyz. destruct (dec x z) as [|Hxz]; [done|]. exfalso.
  destruct (dec z x) as [Hzx|Hzx].
  - apply (to_equal _ _ T) in Hxy as [_ Hyx]. apply Hyx. by eapply (to_trans _ _ T).
  - assert (eq x z) as Hxz' by (by apply (to_equal _ _ T)).
    pose proof (to_equal_trans _ _ T _ _ _ (to_equal_sym T _ _ Hxy) Hxz') as He.
    by apply (to_equal _ _ T) in He as [? _].
Qed.

(** lexicographic order of a total order is a total order *)
Lemma lex_total : total_order lt eq → (∀ x y, {lt x y} + {¬ lt x y}) → total_order less equal.
Proof.
  intros T dec. split.
  - intros a. induction a as [|x a IH]; [apply lex_nil_r|]. rewrite lex_cons. intros [H|(_ & _ & H)]; [|done].
    by apply (to_irrefl _ _ T) in H.
  - intros a. induction a as [|x a IH]; intros [|y b] [|z c]; try (by intros ? ?%lex_nil_r); try (by intros ?%lex_nil_r).
    + intros _ _. apply lex_nil_cons.
    + rewrite !lex_cons. intros [H|(H1 & H2 & H)] [H'|(H1' & H2' & H')].
      * left. by eapply (to_trans _ _ T).
      * left. eapply (to_lt_equal T dec); [done|]. by apply (to_equal _ _ T).
      * left. eapply (to_equal_lt T dec); [|done]. by apply (to_equal _ _ T).
      * right. assert (eq x z) as He.
        { eapply (to_equal_trans _ _ T); by apply (to_equal _ _ T). }
        apply (to_equal _ _ T) in He as [? ?]. split; [done|]. split; [done|]. by eapply IH.
  - intros a. induction a as [|x a IH]; intros [|y b].
    + split; [|intros _; apply equal_nil]. intros _. split; apply lex_nil_r.
    + split; [by intros ?%equal_nil_cons|]. intros [H _]. by destruct H; apply lex_nil_cons.
    + split; [by intros ?%equal_cons_nil|]. intros [_ H]. by destruct H; apply lex_nil_cons.
    + rewrite equal_cons, !lex_cons, (to_equal _ _ T), IH.
      destruct (dec x y), (dec y x); tauto.
  - intros a. induction a as [|x a IH]; intros [|y b] [|z c]; try (by intros ?%equal_nil_cons); try (by intros ?%equal_cons_nil);
      try (by intros ? ?%equal_nil_cons); try (by intros ? ?%equal_cons_nil).
    + done.
    + rewrite !equal_cons. intros [H1 H2] [H3 H4]. split; [by eapply (to_equal_trans _ _ T)|by eapply IH].
Qed.
Lemma lex_dec : (∀ x y, {lt x y} + {¬ lt x y}) → ∀ a b, {less a b} + {¬ less a b}.
Proof.
  intros dec. induction a as [|x a IH]; intros [|y b].
  - right. apply lex_nil_r.
  - left. apply lex_nil_cons.
  - right. apply lex_nil_r.
  - destruct (dec x y) as [Hxy|Hxy].
    { left. apply lex_cons. by left. }
    destruct (dec y x) as [Hyx|Hyx].
    { right. rewrite lex_cons. tauto. }
    destruct (IH b); [left|right]; rewrite lex_cons; tauto.
Qed.
End lex.

(** six answers about one order *)
Lemma one_order {A} (less equal : A → A → Prop) a b r1 r2 r3 r4 r5 r6 :
  total_order less equal → (∀ x y, {less x y} + {¬ less x y}) →
  (r1 = true ↔ less a b) → (r2 = true ↔ less b a) → (r3 = true ↔ ¬ less b a) → (r4 = true ↔ ¬ less a b) →
  (r5 = true ↔ equal a b) → (r6 = true ↔ ¬ equal a b) →
  ∃ c, Answers r1 r3 r2 r4 r5 r6 = answers_for c ∧ match c with Lt => less a b | Eq => equal a b | Gt => less b a end.
Proof.
  intros L dec S1 S2 S3 S4 S5 S6. pose proof (to_equal _ _ L a b) as He.
  assert (D : ∀ r P, (r = true ↔ P) → r = true ∧ P ∨ r = false ∧ ¬ P).
  { intros [] P HP; [left|right]; split; try done; [by apply HP|]. intros ?%HP. done. }
  destruct (dec a b) as [H1|H1].
  - assert (¬ less b a) as H2.
    { intros H2. apply (to_irrefl _ _ L a). by eapply (to_trans _ _ L). }
    exists Lt. cbn [answers_for].
    destruct (D _ _ S1) as [[-> ?]|[-> ?]]; [|tauto]. destruct (D _ _ S2) as [[-> ?]|[-> ?]]; [tauto|].
    destruct (D _ _ S3) as [[-> ?]|[-> ?]]; [|tauto]. destruct (D _ _ S4) as [[-> ?]|[-> ?]]; [tauto|].
    destruct (D _ _ S5) as [[-> ?]|[-> ?]]; [tauto|]. destruct (D _ _ S6) as [[-> ?]|[-> ?]]; [done|tauto].
  - destruct (dec b a) as [H2|H2].
    + exists Gt. cbn [answers_for].
      destruct (D _ _ S1) as [[-> ?]|[-> ?]]; [tauto|]. destruct (D _ _ S2) as [[-> ?]|[-> ?]]; [|tauto].
      destruct (D _ _ S3) as [[-> ?]|[-> ?]]; [tauto|]. destruct (D _ _ S4) as [[-> ?]|[-> ?]]; [|tauto].
      destruct (D _ _ S5) as [[-> ?]|[-> ?]]; [tauto|]. destruct (D _ _ S6) as [[-> ?]|[-> ?]]; [done|tauto].
    + exists Eq. cbn [answers_for].
      destruct (D _ _ S1) as [[-> ?]|[-> ?]]; [tauto|]. destruct (D _ _ S2) as [[-> ?]|[-> ?]]; [tauto|].
      destruct (D _ _ S3) as [[-> ?]|[-> ?]]; [|tauto]. destruct (D _ _ S4) as [[-> ?]|[-> ?]]; [|tauto].
      destruct (D _ _ S5) as [[-> ?]|[-> ?]]; [|tauto]. destruct (D _ _ S6) as [[-> ?]|[-> ?]]; [tauto|tauto].
Qed.
(** "not greater" is transitive *)
Lemma order_le_trans {A} (less equal : A → A → Prop) a b c :
  total_order less equal → (∀ x y, {less x y} + {¬ less x y}) → ¬ less b a → ¬ less c b → ¬ less c a.
Proof.
  intros L dec H1 H2 Hca. destruct (dec a b) as [Hab|Hab].
  - apply H2. by eapply (to_trans _ _ L).
  - apply H2. eapply (to_lt_equal _ _ L dec); [exact Hca|]. by apply (to_equal _ _ L).
Qed.

Section algorithms.
Context {S A : Type} `{E : EltCmp A}.
Notation lt := (λ x y, elt_lt x y = true).
Notation eq := (λ x y, elt_eq x y = true).

(** [f] reads the elements of [l] starting at [k], without effect *)
Definition reads (s : S) (f : nat → M S A) (k : nat) (l : list A) : Prop :=
  ∀ i a, l !! i = Some a → f (k + i) s = Ok a s.
Lemma reads_cons s f k a l : reads s f k (a :: l) → f k s = Ok a s ∧ reads s f (Datatypes.S k) l.
Proof.
  intros H. split.
  - specialize (H 0 a eq_refl). by rewrite Nat.add_0_r in H.
  - intros i b Hi. specialize (H (Datatypes.S i) b Hi). by rewrite Nat.add_succ_r in H.
Qed.

Lemma lex_loop_run s f g a : ∀ b k, reads s f k a → reads s g k b →
  ∃ r, lex_loop f (length a) g (length b) k s = Ok r s ∧ (r = true ↔ lex_less lt a b).
Proof.
  induction a as [|x a IH]; intros [|y b] k Hf Hg; cbn [length lex_loop].
  - exists false. split; [done|]. split; [done|]. by intros ?%lex_nil_r.
  - exists true. split; [done|]. split; [|done]. intros _. apply lex_nil_cons.
  - exists false. split; [done|]. split; [done|]. by intros ?%lex_nil_r.
  - apply reads_cons in Hf as [Hx Hf], Hg as [Hy Hg]. unfold bind. rewrite Hx, Hy.
    destruct (elt_lt x y) eqn:E1.
    { exists true. split; [done|]. split; [|done]. intros _. apply lex_cons. by left. }
    rewrite Hy, Hx. destruct (elt_lt y x) eqn:E2.
    { exists false. split; [done|]. split; [done|]. rewrite lex_cons. intros [H|(_ & H & _)]; [by rewrite E1 in H|done]. }
    destruct (IH b _ Hf Hg) as (r & Hr & Hspec). exists r. split; [done|]. rewrite Hspec, lex_cons.
    split; [|by intros [?|(_ & _ & ?)]; [congruence|]]. intros Hl. right. by rewrite E1, E2.
Qed.
Lemma equal_loop_run s f g a : ∀ b k, reads s f k a → reads s g k b → length a = length b →
  ∃ r, equal_loop f g k (length a) s = Ok r s ∧ (r = true ↔ all_equal eq a b).
Proof.
  induction a as [|x a IH]; intros [|y b] k Hf Hg; cbn [length equal_loop]; intros Hl; try done.
  - exists true. split; [done|]. split; [|done]. intros _. apply equal_nil.
  - apply reads_cons in Hf as [Hx Hf], Hg as [Hy Hg]. unfold bind. rewrite Hx, Hy.
    destruct (elt_eq x y) eqn:E1.
    + destruct (IH b _ Hf Hg ltac:(lia)) as (r & Hr & Hspec). exists r. split; [done|]. rewrite Hspec, equal_cons. tauto.
    + exists false. split; [done|]. rewrite equal_cons. split; [done|]. intros [H _]. congruence.
Qed.
Lemma std_equal_run s f g a b : reads s f 0 a → reads s g 0 b →
  ∃ r, std_equal f (length a) g (length b) s = Ok r s ∧ (r = true ↔ all_equal eq a b).
Proof.
  intros Hf Hg. unfold std_equal. destruct (Nat.eqb_spec (length a) (length b)) as [Hl|Hl].
  - by apply equal_loop_run.
  - exists false. split; [done|]. split; [done|]. by intros [? _].
Qed.
Lemma std_lex_run s f g a b : reads s f 0 a → reads s g 0 b →
  ∃ r, std_lexicographical_compare f (length a) g (length b) s = Ok r s ∧ (r = true ↔ lex_less lt a b).
Proof. apply lex_loop_run. Qed.
End algorithms.
