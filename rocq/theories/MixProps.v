(** Property C98: iterators and const_iterators of a container work together. *)
From stdpp Require Import prelude.
From Coq Require Import ZArith Lia.
From Verif Require Import MixModel.

(** ** Specification *)
(** the iterator types of a container *)
Definition iterator_of (c : container) (t : ity) : Prop := t = iterator c ∨ t = const_iterator c.
(** the expression gives [P]'s truth value *)
Definition says (o : outcome) (P : Prop) : Prop := ∃ b, o = Value (VBool b) ∧ (b = true ↔ P).
(** a o b for iterators at [p] and [q]; + of two iterators is no expression *)
Definition means (o : op) (r : outcome) (p q : Z) : Prop :=
  match o with
  | OEq => says r (p = q)
  | ONe => says r (p ≠ q)
  | OLt => says r (p < q)%Z
  | OLe => says r (p ≤ q)%Z
  | OGt => says r (q < p)%Z
  | OGe => says r (q ≤ p)%Z
  | OMinus => r = Value (VInt (p - q))
  | OPlus => False
  end.
(** the same for std::reverse_iterators whose base() is at [p] and [q]: they run backwards *)
Definition means_reverse (o : op) (r : outcome) (p q : Z) : Prop := means o r (- p) (- q).
Definition ill_formed (r : outcome) : Prop := ∀ v, r ≠ Value v.
(** vector and string *)
Definition owning (c : container) : bool := match c_cls c with CVector | CString => true | _ => false end.
(** an integer expression and its value *)
Definition number (e : expr) : option Z := match e with EInt _ n => Some n | EZero => Some 0%Z | _ => None end.

(** ** Proofs *)
Lemma filter_none {A} (f : A → bool) l : (∀ x, x ∈ l → f x = false) → List.filter f l = [].
Proof.
  induction l as [|x l IH]; intros H; [done|]. cbn [List.filter]. rewrite (H x) by by left.
  apply IH. intros y Hy. apply H. by right.
Qed.
Lemma says_dec P `{Decision P} b : (b = true ↔ P) → says (Value (VBool b)) P.
Proof. intros Hb. by exists b. Qed.
Lemma decide_refl {A} `{EqDecision A} (x : A) {X} (a b : X) : (if decide (x = x) then a else b) = a.
Proof. by rewrite decide_True. Qed.
Lemma conv_same t p : conv (EIter t p) (PIter t) = Some (Exact, Public, VIter t p).
Proof. cbn [conv]. by rewrite decide_True. Qed.
(** operators on two iterators of the same type *)
Lemma resolve_same ctx t p q o k : o ≠ OPlus →
  resolve ctx (friends t o) (EIter t p) (EIter t q) k =
    k (match o with OEq => BEq | ONe => BNe | OLt => BLt | OLe => BLe | OGt => BGt | OGe => BGe | _ => BDiff end) (VIter t p) (VIter t q).
Proof.
  intros Ho. unfold resolve.
  destruct o; try done; cbn [friends List.filter]; unfold viable; cbn [f_left f_right]; rewrite !conv_same; cbn [conv];
    unfold fn_better, conv_better; cbn [List.filter length f_left f_right f_body]; rewrite !conv_same; cbn [rank_lt negb andb orb Nat.sub Nat.eqb length]; rewrite ?conv_same; done.
Qed.
Lemma found_same o t p q : found o (EIter t p) (EIter t q) = friends t o.
Proof. cbn [found]. by rewrite decide_True. Qed.
Lemma binary_same n ctx o t p q : o ≠ OPlus → means o (binary (S (S (S n))) ctx o (EIter t p) (EIter t q)) p q.
Proof.
  intros Ho.
  assert (∀ n ctx p q, binary (S n) ctx OEq (EIter t p) (EIter t q) = Value (VBool (p =? q)%Z)) as Heq.
  { intros n' ctx' p' q'. cbn [binary]. by rewrite found_same, resolve_same. }
  assert (∀ n ctx p q, binary (S n) ctx OLt (EIter t p) (EIter t q) = Value (VBool (p <? q)%Z)) as Hlt.
  { intros n' ctx' p' q'. cbn [binary]. by rewrite found_same, resolve_same. }
  assert (∀ n ctx p q, binary (S (S n)) ctx OGt (EIter t p) (EIter t q) = Value (VBool (q <? p)%Z)) as Hgt.
  { intros n' ctx' p' q'. remember (S n') as m. cbn [binary]. rewrite found_same, resolve_same by done. cbn [run]. subst m. by rewrite Hlt. }
  destruct o; try done; cbn [means].
  - rewrite Heq. apply says_dec; [apply _|]. apply Z.eqb_eq.
  - remember (S (S n)) as m. cbn [binary]. rewrite found_same, resolve_same by done. cbn [run]. subst m. rewrite Heq. cbn [bnot].
    apply says_dec; [apply _|]. rewrite negb_true_iff. apply Z.eqb_neq.
  - rewrite Hlt. apply says_dec; [apply _|]. apply Z.ltb_lt.
  - remember (S (S n)) as m. cbn [binary]. rewrite found_same, resolve_same by done. cbn [run]. subst m. rewrite Hgt. cbn [bnot].
    apply says_dec; [apply _|]. rewrite negb_true_iff. apply Z.ltb_ge.
  - rewrite Hgt. apply says_dec; [apply _|]. apply Z.ltb_lt.
  - remember (S (S n)) as m. cbn [binary]. rewrite found_same, resolve_same by done. cbn [run]. subst m. rewrite Hlt. cbn [bnot].
    apply says_dec; [apply _|]. rewrite negb_true_iff. apply Z.ltb_ge.
  - remember (S (S n)) as m. cbn [binary]. by rewrite found_same, resolve_same.
Qed.
(** an iterator and a const_iterator: in the views and array only the operators of const_iterator are viable *)
Lemma conv_to_const c p : c_cls c ≠ CStringRef → conv (EIter (It c false) p) (PIter (It c true)) = Some (UserDefined, Public, VIter (It c true) p).
Proof. intros Hc. cbn [conv]. rewrite decide_False by congruence. unfold conv_fn. cbn [i_cont i_const]. rewrite decide_True by done. by destruct (c_cls c). Qed.
Lemma conv_back c p : conv (EIter (It c true) p) (PIter (It c false)) = if owning c then Some (UserDefined, Private c, VIter (It c false) p) else None.
Proof.
  cbn [conv]. rewrite decide_False by congruence. unfold conv_fn, owning. cbn [i_cont i_const]. rewrite decide_True by done. by destruct (c_cls c).
Qed.
Definition other (k : bool) (c : container) : ity := It c (negb k).
Ltac resolve_step :=
  unfold resolve, viable, fn_better, conv_better; cbn [List.filter app f_left f_right f_body friends];
  rewrite ?conv_same, ?conv_to_const, ?conv_back by done.
Lemma resolve_mixed ctx c k p q o K : c_cls c ≠ CStringRef → owning c = false → o ≠ OPlus →
  resolve ctx (found o (EIter (It c k) p) (EIter (It c (negb k)) q)) (EIter (It c k) p) (EIter (It c (negb k)) q) K =
  K (match o with OEq => BEq | ONe => BNe | OLt => BLt | OLe => BLe | OGt => BGt | OGe => BGe | _ => BDiff end) (VIter (It c true) p) (VIter (It c true) q).
Proof.
  intros Hs Hc Ho. cbn [found]. rewrite decide_False by (destruct k; cbn [negb]; congruence).
  destruct k; cbn [negb]; destruct o; try done; unfold resolve, viable; cbn [friends app List.filter f_left f_right];
    rewrite ?conv_same, ?conv_to_const, ?conv_back, ?Hc by done; cbn [conv List.filter];
    unfold fn_better, conv_better; cbn [f_left f_right length Nat.sub]; rewrite ?conv_same, ?conv_to_const by done; cbn [rank_lt negb andb orb Nat.eqb length f_left f_right f_body];
    rewrite ?conv_same, ?conv_to_const by done; done.
Qed.
Lemma resolve_ambiguous ctx c k p q o K : owning c = true → o ≠ OPlus →
  resolve ctx (found o (EIter (It c k) p) (EIter (It c (negb k)) q)) (EIter (It c k) p) (EIter (It c (negb k)) q) K = Ambiguous.
Proof.
  intros Hc Ho. assert (c_cls c ≠ CStringRef) as Hs by (unfold owning in Hc; by destruct (c_cls c)).
  cbn [found]. rewrite decide_False by (destruct k; cbn [negb]; congruence).
  destruct k; cbn [negb]; destruct o; try done; unfold resolve, viable; cbn [friends app List.filter f_left f_right];
    rewrite ?conv_same, ?conv_to_const, ?conv_back, ?Hc by done; cbn [conv List.filter];
    unfold fn_better, conv_better; cbn [f_left f_right length Nat.sub]; rewrite ?conv_same, ?conv_to_const, ?conv_back, ?Hc by done; cbn [rank_lt negb andb orb Nat.eqb length]; done.
Qed.
Lemma binary_mixed n ctx c k p q o : c_cls c ≠ CStringRef → owning c = false → o ≠ OPlus →
  binary (S n) ctx o (EIter (It c k) p) (EIter (It c (negb k)) q) = binary (S n) ctx o (EIter (It c true) p) (EIter (It c true) q).
Proof.
  intros Hs Hc Ho. cbn [binary]. rewrite resolve_mixed by done. by rewrite found_same, resolve_same.
Qed.
Lemma iterator_of_cases c t u : iterator_of c t → iterator_of c u →
  t = u ∨ (c_cls c ≠ CStringRef ∧ ∃ k, t = It c k ∧ u = It c (negb k)).
Proof.
  unfold iterator_of, iterator, const_iterator. intros [-> | ->] [-> | ->]; [by left|..|by left];
    destruct (c_cls c) eqn:E; try (by left); right; (split; [done|]); first [by exists false|by exists true].
Qed.

(** ** Operators *)
Theorem C98_operators_partial ctx c t u o p q :
  iterator_of c t → iterator_of c u → o ≠ OPlus → owning c = false ∨ t = u →
  means o (binary depth ctx o (EIter t p) (EIter u q)) p q.
Proof.
  intros Ht Hu Ho Hc. unfold depth.
  destruct (decide (t = u)) as [<-|Hne]; [by apply binary_same|].
  destruct Hc as [Hc|?]; [|done]. destruct (iterator_of_cases c t u Ht Hu) as [?|(Hs & k & -> & ->)]; [done|].
  rewrite binary_mixed by done. by apply binary_same.
Qed.
(** in vector and string an iterator and a const_iterator cannot be compared or subtracted *)
Theorem C98_operators_refuted ctx c o p q : owning c = true → o ≠ OPlus →
  iterator c ≠ const_iterator c ∧
  binary depth ctx o (EIter (iterator c) p) (EIter (const_iterator c) q) = Ambiguous ∧
  binary depth ctx o (EIter (const_iterator c) p) (EIter (iterator c) q) = Ambiguous.
Proof.
  intros Hc Ho. assert (iterator c = It c false) as ->. { unfold iterator. unfold owning in Hc. by destruct (c_cls c). }
  unfold const_iterator, depth. split_and!; [congruence|..]; cbn [binary].
  - by apply (resolve_ambiguous ctx c false).
  - by apply (resolve_ambiguous ctx c true).
Qed.
Lemma means_opp o r p q : o ≠ OPlus →
  means_reverse o r p q ↔ match o with OMinus => r = Value (VInt (q - p)) | _ => match reversed o with Some o' => means o' r p q | None => False end end.
Proof.
  intros Ho. unfold means_reverse, says. destruct o; try done; cbn [means reversed]; unfold says.
  1-6: split; intros (b & -> & Hb); (exists b; split; [done|]); rewrite Hb; lia.
  replace (- p - - q)%Z with (q - p)%Z by lia. done.
Qed.
Theorem C98_reverse_partial ctx c t u o p q :
  iterator_of c t → iterator_of c u → o ≠ OPlus → owning c = false ∨ t = u →
  means_reverse o (binary depth ctx o (ERev t p) (ERev u q)) p q.
Proof.
  intros Ht Hu Ho Hc. apply means_opp; [done|].
  assert (∀ o p q t u, iterator_of c t → iterator_of c u → o ≠ OPlus → owning c = false ∨ t = u → means o (binary 3 None o (EIter t p) (EIter u q)) p q) as H.
  { clear. intros o p q t u Ht Hu Ho Hc.
    destruct (decide (t = u)) as [<-|Hne]; [by apply binary_same|].
    destruct Hc as [Hc|?]; [|done]. destruct (iterator_of_cases c t u Ht Hu) as [?|(Hs & k & -> & ->)]; [done|].
    rewrite binary_mixed by done. by apply binary_same. }
  unfold depth. remember 3 as m. destruct o; try done; cbn [binary reversed]; subst m.
  1-6: by apply H.
  apply (H OMinus); [done..|]. destruct Hc as [?| ->]; [by left|by right].
Qed.
Theorem C98_reverse_refuted ctx c o p q : owning c = true → o ≠ OPlus →
  binary depth ctx o (ERev (iterator c) p) (ERev (const_iterator c) q) = Ambiguous ∧
  binary depth ctx o (ERev (const_iterator c) p) (ERev (iterator c) q) = Ambiguous.
Proof.
  intros Hc Ho. assert (iterator c = It c false) as ->. { unfold iterator. unfold owning in Hc. by destruct (c_cls c). }
  assert (∀ k o p q n, o ≠ OPlus → binary (S n) None o (EIter (It c k) p) (EIter (It c (negb k)) q) = Ambiguous) as H.
  { intros. cbn [binary]. by apply resolve_ambiguous. }
  unfold const_iterator, depth. remember 3 as m. split; destruct o; try done; cbn [binary reversed]; subst m;
    first [by apply (H true)|by apply (H false)].
Qed.

(** ** Numbers *)
Lemma number_conv e n : number e = Some n → ∃ r, conv e PDiff = Some (r, Public, VInt n) ∧ r ≠ UserDefined.
Proof. destruct e; try done; cbn [number]; intros [= <-]; cbn [conv]; eexists; (split; [done|]); by repeat case_match. Qed.
Lemma number_not_found e n o t p : number e = Some n → found o (EIter t p) e = friends t o ∧ found o e (EIter t p) = friends t o.
Proof. by destruct e. Qed.
Ltac go :=
  unfold resolve, viable, fn_better, conv_better;
  repeat (progress cbn [found friends List.filter f_left f_right f_body conv rank_lt negb andb orb Nat.eqb Nat.sub length app allowed run]
          || rewrite decide_True by done).
Theorem C98_numbers ctx t e n p : number e = Some n →
  binary depth ctx OPlus (EIter t p) e = Value (VIter t (p + n)) ∧
  binary depth ctx OPlus e (EIter t p) = Value (VIter t (p + n)) ∧
  binary depth ctx OMinus (EIter t p) e = Value (VIter t (p - n)) ∧
  index ctx (EIter t p) e = Value (VIter t (p + n)) ∧
  advance false (EIter t p) e = Value (VIter t (p + n)) ∧
  advance true (EIter t p) e = Value (VIter t (p - n)).
Proof.
  intros Hn.
  assert (∀ m ctx, binary (S m) ctx OPlus (EIter t p) (EInt true n) = Value (VIter t (p + n))) as Hplus.
  { intros m ctx'. cbn [binary]. by go. }
  destruct e as [| | |[] z| |]; try done; cbn [number] in Hn; injection Hn as <-.
  all: split_and!.
  all: unfold index, advance; cbn [conv]; try done; try apply Hplus.
  all: unfold depth; remember 3 as m; cbn [binary]; go.
  all: subst m; try apply Hplus; done.
Qed.

(** ** Conversions *)
Theorem C98_to_const ctx c t p : iterator_of c t → init ctx (const_iterator c) (EIter t p) = Value (VIter (const_iterator c) p) ∧
  init_reverse (const_iterator c) (ERev t p) = Value (VIter (const_iterator c) p).
Proof.
  unfold init_reverse, init, const_iterator, iterator_of, iterator. intros [-> | ->].
  - destruct (decide (c_cls c = CStringRef)) as [E|E].
    + rewrite E, !conv_same. done.
    + assert ((match c_cls c with CStringRef => true | _ => false end) = false) as -> by by destruct (c_cls c).
      by rewrite !conv_to_const.
  - by rewrite !conv_same.
Qed.
Theorem C98_not_to_mutable ctx c p : ctx ≠ Some c → c_cls c ≠ CStringRef →
  ill_formed (init ctx (iterator c) (EIter (const_iterator c) p)) ∧
  ill_formed (init_reverse (iterator c) (ERev (const_iterator c) p)).
Proof.
  intros Hctx Hc. assert (iterator c = It c false) as -> by (unfold iterator; by destruct (c_cls c)).
  unfold init_reverse, init, const_iterator. rewrite !conv_back.
  split; intros v; destruct (owning c); cbn [allowed]; try done; by rewrite bool_decide_eq_false_2.
Qed.
(** begin(), cbegin() and erase() return iterators of the right type *)
Theorem C98_made_by_container c p :
  begin_of c false p = Value (VIter (iterator c) p) ∧
  begin_of c true p = Value (VIter (const_iterator c) p) ∧
  cbegin_of c p = Value (VIter (const_iterator c) p) ∧
  (owning c = true → erase_result c p = Value (VIter (iterator c) p)).
Proof.
  assert (∀ k, begin_of c k p = Value (VIter (if k then const_iterator c else iterator c) p)) as H.
  { intros k. unfold begin_of, init. cbn [conv].
    assert ((c_elem c =? c_elem (i_cont (if k then const_iterator c else iterator c))) = true) as ->.
    { destruct k; apply Nat.eqb_refl. }
    assert (∀ k : bool, i_cont (if k then const_iterator c else iterator c) = c) as Hcont by (by intros []).
    unfold points_to_const. rewrite Hcont. unfold iterator, const_iterator.
    destruct k, (c_cls c), (c_const c); cbn [i_const negb orb andb allowed]; by rewrite bool_decide_eq_true_2. }
  split_and!.
  - apply (H false).
  - apply (H true).
  - unfold cbegin_of. rewrite (H true). apply C98_to_const. by right.
  - intros Hc. unfold erase_result, init, const_iterator.
    assert (iterator c = It c false) as -> by (unfold iterator; unfold owning in Hc; by destruct (c_cls c)).
    rewrite conv_back, Hc. cbn [allowed]. by rewrite bool_decide_eq_true_2.
Qed.

(** ** Other operands *)
Definition comparison (o : op) : bool := match o with OMinus | OPlus => false | _ => true end.
(** what is no operand of a o b if the other is an iterator [t]: pointers, reverse iterators, iterators of
    other containers, numbers in comparisons; two iterators are not added *)
Definition foreign (o : op) (t : ity) (e : expr) : Prop :=
  match e with
  | EIter u _ => i_cont u ≠ i_cont t ∨ o = OPlus
  | ERev _ _ | EPtr _ _ _ | ENull => True
  | EInt _ _ | EZero => comparison o = true
  end.
Lemma conv_foreign u t p : i_cont u ≠ i_cont t → conv (EIter u p) (PIter t) = None.
Proof. intros H. cbn [conv]. rewrite decide_False by congruence. unfold conv_fn. by rewrite decide_False. Qed.
Theorem C98_foreign o t e p : foreign o t e →
  ill_formed (binary depth None o (EIter t p) e) ∧ ill_formed (binary depth None o e (EIter t p)).
Proof.
  unfold depth. remember 3 as m. destruct e as [u q|u q|el k q|[] n| |]; cbn [foreign]; intros H.
  - destruct H as [H| ->].
    + split; intros v; cbn [binary found]; rewrite decide_False by congruence;
        destruct o; unfold resolve, viable; cbn [friends app List.filter f_left f_right];
        rewrite ?conv_same, ?conv_foreign by done; cbn [conv]; done.
    + assert (∀ u t p q, ill_formed (binary (S m) None OPlus (EIter t p) (EIter u q))) as Hp; [|by split].
      clear. intros u t p q v. cbn [binary]. unfold resolve.
      assert (List.filter (viable (EIter t p) (EIter u q)) (found OPlus (EIter t p) (EIter u q)) = []) as ->; [|done].
      apply filter_none. intros f Hf. unfold viable.
      assert (f_left f = PDiff ∨ f_right f = PDiff) as [-> | ->].
      { cbn [found] in Hf. case_decide; cbn [friends app] in Hf; rewrite !elem_of_cons, elem_of_nil in Hf;
          repeat (destruct Hf as [-> |Hf]; [first [by left|by right]|]); done. }
      * done.
      * cbn [conv]. by case_match.
  - split; intros v; destruct o; cbn [binary]; go; done.
  - assert (conv (EPtr el k q) PDiff = None) as Hd by done.
    assert (conv (EPtr el k q) (PIter t) = None ∨ conv (EPtr el k q) (PIter t) = Some (UserDefined, Private (i_cont t), VIter t q)) as E.
    { cbn [conv]. case_match; [by right|by left]. }
    remember (EPtr el k q) as e. assert (∀ o, found o (EIter t p) e = friends t o ∧ found o e (EIter t p) = friends t o) as Hf by by subst.
    assert (∀ n o, binary (S n) None o (EIter t p) e = resolve None (friends t o) (EIter t p) e (run (binary n (Some (i_cont t)))) ∧
                     binary (S n) None o e (EIter t p) = resolve None (friends t o) e (EIter t p) (run (binary n (Some (i_cont t))))) as Hb by by subst.
    destruct (Hb m o) as [-> ->]. clear Hb Hf Heqe.
    assert (conv (EIter t p) PDiff = None) as Hd' by done.
    split; intros v; destruct o; unfold resolve, viable, fn_better, conv_better; cbn [friends List.filter f_left f_right f_body]; rewrite ?Hd, ?Hd', ?conv_same;
      destruct E as [E|E]; rewrite ?E; cbn [List.filter length Nat.sub f_left f_right f_body]; try done; rewrite ?conv_same, ?E;
      cbn [rank_lt negb andb orb length Nat.eqb List.filter f_left f_right f_body]; rewrite ?conv_same, ?E; cbn [allowed andb]; by rewrite bool_decide_eq_false_2.
  - split; intros v; destruct o; try done; cbn [binary]; go; done.
  - split; intros v; destruct o; try done; cbn [binary]; go; done.
  - split; intros v; destruct o; try done; cbn [binary]; go; rewrite ?bool_decide_eq_false_2 by done; done.
  - split; intros v; destruct o; try done; cbn [binary]; go; rewrite ?bool_decide_eq_false_2 by done; done.
Qed.
Theorem C98_number_minus t e n p : number e = Some n → ill_formed (binary depth None OMinus e (EIter t p)).
Proof.
  unfold depth. remember 3 as m. destruct e as [| | |[] z| |]; try done; intros _ v; cbn [binary]; go; rewrite ?bool_decide_eq_false_2 by done; done.
Qed.
(** pointers are not iterators outside of the container *)
Theorem C98_pointers ctx t e : ctx ≠ Some (i_cont t) → (∀ u p, e ≠ EIter u p) → ill_formed (init ctx t e).
Proof.
  intros Hctx He v. unfold init. destruct e as [u q|u q|el k q|b n| |]; cbn [conv]; try done.
  - by destruct (He u q).
  - destruct (_ && _); cbn [allowed]; [|done]. by rewrite bool_decide_eq_false_2.
  - cbn [allowed]. by rewrite bool_decide_eq_false_2.
  - cbn [allowed]. by rewrite bool_decide_eq_false_2.
Qed.

(** ** Examples: array<int, n>, vector<int>, string_ref *)
Definition arr : container := Container CArray 0 false 3.
Definition vec : container := Container CVector 0 false 0.
Definition sref : container := Container CStringRef 1 true 0.
Example C98_array_case :
  iterator arr ≠ const_iterator arr ∧
  binary depth None OLt (EIter (iterator arr) 1) (EIter (const_iterator arr) 3) = Value (VBool true) ∧
  binary depth None OGe (EIter (const_iterator arr) 1) (EIter (iterator arr) 3) = Value (VBool false) ∧
  binary depth None OMinus (ERev (iterator arr) 1) (ERev (const_iterator arr) 3) = Value (VInt 2).
Proof. split_and!; done. Qed.
Example C98_vector_case :
  binary depth None ONe (EIter (iterator vec) 1) (EIter (const_iterator vec) 3) = Ambiguous ∧
  binary depth None OLe (EIter (iterator vec) 1) (EIter (iterator vec) 3) = Value (VBool true) ∧
  init None (const_iterator vec) (EIter (iterator vec) 2) = Value (VIter (const_iterator vec) 2) ∧
  init None (iterator vec) (EIter (const_iterator vec) 2) = Inaccessible ∧
  erase_result vec 2 = Value (VIter (iterator vec) 2).
Proof. split_and!; done. Qed.
Example C98_numbers_case :
  binary depth None OMinus (EIter (iterator vec) 7) EZero = Value (VIter (iterator vec) 7) ∧
  binary depth None OPlus (EInt false 2) (EIter (iterator sref) 1) = Value (VIter (iterator sref) 3) ∧
  index None (EIter (iterator vec) 7) (EInt false (-2)) = Value (VIter (iterator vec) 5) ∧
  binary depth None OEq (EIter (iterator vec) 0) ENull = Inaccessible ∧
  binary depth None OEq (EIter (iterator vec) 0) (EPtr 0 false 0) = Inaccessible ∧
  binary depth None OEq (EIter (iterator vec) 0) (EIter (iterator arr) 0) = NoMatch.
Proof. split_and!; done. Qed.

Print Assumptions C98_operators_partial.
Print Assumptions C98_operators_refuted.
Print Assumptions C98_reverse_partial.
Print Assumptions C98_reverse_refuted.
Print Assumptions C98_numbers.
Print Assumptions C98_to_const.
Print Assumptions C98_not_to_mutable.
Print Assumptions C98_made_by_container.
Print Assumptions C98_foreign.
Print Assumptions C98_number_minus.
Print Assumptions C98_pointers.
