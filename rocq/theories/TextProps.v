(** Properties C88, C89 and C90: text operations with operands of any type. *)
From stdpp Require Import prelude.
From Coq Require Import ZArith NArith Lia.
From Verif Require Import OrderSpec TextModel.
Local Open Scope nat_scope.

(** ** Specification *)
Section spec.
Context `{L : TextLang}.
(** expressions that are text *)
Definition text (a : arg) : option chars :=
  match a with
  | AString _ l | ARef l | AView l | AStd l => Some l
  | APtr p => p
  | _ => None
  end.
(** null pointers: the literals and pointers that happen to be null *)
Definition null (a : arg) : bool := match a with AZero | ANull | APtr None => true | _ => false end.
Definition ours (a : arg) : bool := is_string a || is_ref a.
(** one is a string_ref and the other text of the standard library *)
Definition ref_and_std (a b : arg) : bool :=
  match a, b with ARef _, (AView _ | AStd _) | (AView _ | AStd _), ARef _ => true | _, _ => false end.
(** the answer of a comparison *)
Definition answer (o : cop) (l r : chars) : Prop :=
  match o with
  | CEq => l = r
  | CNe => l ≠ r
  | CLt => lex_less N.lt l r
  | CGt => lex_less N.lt r l
  | CLe => lex_less N.lt l r ∨ l = r
  | CGe => lex_less N.lt r l ∨ l = r
  end.
Definition answers_like (x : outcome bool) (o : cop) (l r : chars) : Prop := ∃ b, x = Value b ∧ (b = true ↔ answer o l r).
End spec.

(** ** Comparison of characters *)
Lemma view_compare_spec l : ∀ r,
  match view_compare l r with
  | Eq => l = r
  | Lt => lex_less N.lt l r
  | Gt => lex_less N.lt r l
  end.
Proof.
  induction l as [|x l IH]; intros [|y r]; cbn [view_compare].
  - done.
  - exists 0. split; [intros j Hj; lia|]. left. by split; [|eexists].
  - exists 0. split; [intros j Hj; lia|]. left. by split; [|eexists].
  - assert (Hcons : ∀ z a b, lex_less N.lt a b → lex_less N.lt (z :: a) (z :: b)).
    { intros z a b (k & Hs & Hk). exists (S k). split; [|done]. intros [|j] Hj; [exists z, z; repeat split; lia|]. apply Hs. lia. }
    destruct (N.compare_spec x y) as [->|Hxy|Hxy].
    + specialize (IH r). destruct (view_compare l r); [by subst|by apply Hcons..].
    + exists 0. split; [intros j Hj; lia|]. right. by exists x, y.
    + exists 0. split; [intros j Hj; lia|]. right. by exists y, x.
Qed.
Lemma lex_less_irrefl l : ¬ lex_less N.lt l l.
Proof.
  intros (k & _ & [[H1 [z H2]]|(x & y & H1 & H2 & Hlt)]); [congruence|]. assert (x = y) by congruence. lia.
Qed.
Lemma lex_less_antisym l r : lex_less N.lt l r → lex_less N.lt r l → False.
Proof.
  intros (k & Hs & Hk) (j & Ht & Hj).
  destruct (Nat.lt_total k j) as [Hlt|[->|Hlt]].
  - destruct (Ht k Hlt) as (x & y & Hx & Hy & H1 & H2).
    destruct Hk as [[Hk _]|(x' & y' & Hx' & Hy' & Hlt')]; [congruence|]. assert (x' = y) by congruence. assert (y' = x) by congruence. subst. done.
  - destruct Hk as [[Hk [z Hz]]|(x' & y' & Hx' & Hy' & Hlt')], Hj as [[Hj [u Hu]]|(x & y & Hx & Hy & Hl)]; try congruence.
    assert (x' = y) by congruence. assert (y' = x) by congruence. subst. lia.
  - destruct (Hs j Hlt) as (x & y & Hx & Hy & H1 & H2).
    destruct Hj as [[Hj _]|(x' & y' & Hx' & Hy' & Hlt')]; [congruence|]. assert (x' = y) by congruence. assert (y' = x) by congruence. subst. done.
Qed.
Lemma view_op_spec o l r : view_op o l r = true ↔ answer o l r.
Proof.
  unfold view_op, answer. pose proof (view_compare_spec l r) as H.
  destruct (view_compare l r), o; split; intros H'; try done; subst; try (by left); try (by right);
    try (by apply lex_less_irrefl in H'); try (by destruct (lex_less_antisym _ _ H H'));
    try (by intros ->; by apply lex_less_irrefl in H);
    try (by apply lex_less_irrefl in H);
    try (destruct H' as [H'| ->]; [by destruct (lex_less_antisym _ _ H H')|by apply lex_less_irrefl in H]).
Qed.
Lemma view_op_value o l r : answers_like (Value (view_op o l r)) o l r.
Proof. eexists. split; [done|]. apply view_op_spec. Qed.
Lemma view_op_ne l r : negb (view_op CEq l r) = view_op CNe l r.
Proof. unfold view_op. by destruct (view_compare l r). Qed.
Lemma bool_prop (b c : bool) (P : Prop) : (b = true ↔ P) → (c = true ↔ P) → b = c.
Proof. destruct b, c; naive_solver. Qed.
Lemma view_op_gt l r : view_op CLt r l = view_op CGt l r.
Proof. eapply bool_prop; [apply (view_op_spec CLt)|apply (view_op_spec CGt)]. Qed.
Lemma view_op_le l r : negb (view_op CLt r l) = view_op CLe l r.
Proof. rewrite view_op_gt. unfold view_op. by destruct (view_compare l r). Qed.
Lemma view_op_ge l r : negb (view_op CLt l r) = view_op CGe l r.
Proof. unfold view_op. by destruct (view_compare l r). Qed.

Section proofs.
Context `{L : TextLang}.

(** ** Comparisons *)
Definition cmp_run (rec : cop → arg → arg → outcome bool) (f : cmp_body) (o : cop) (v w : val) : outcome bool :=
  match f, o with
  | KStrings, _ | KViewString, _ => rec o (use v) (cast_view w)
  | KStringView, _ => rec o (cast_view v) (use w)
  | KRefs, (CEq | CLt) => rec o (cast_view v) (cast_view w)
  | KRefs, CNe => omap negb (rec CEq (use v) (use w))
  | KRefs, CGt => rec CLt (use w) (use v)
  | KRefs, CLe => omap negb (rec CGt (use v) (use w))
  | KRefs, CGe => omap negb (rec CLt (use v) (use w))
  | KStd, _ => match v, w with VView l, VView r => Value (view_op o l r) | _, _ => NoCompile end
  end.
Lemma compare_views n o l r : compare (S n) o (AView l) (AView r) = Value (view_op o l r).
Proof. reflexivity. Qed.
Definition both_views (a b : arg) : bool := match a, b with AView _, AView _ => true | _, _ => false end.
(** one step of [compare] *)
Lemma compare_step n o a b : both_views a b = false → is_braces a = false → is_braces b = false →
  compare (S n) o a b =
    match resolve (cmp_fns a b) [a; b] with
    | Best f [Some v; Some w] => cmp_run (compare n) f o v w
    | Best _ [None; _] | Best _ [_; None] => Undefined
    | _ => NoCompile
    end.
Proof.
  intros Hv Ha Hb.
  assert (compare (S n) o a b = call (cmp_fns a b) [a; b] (λ f vs, match vs with [v; w] => cmp_run (compare n) f o v w | _ => NoCompile end)) as ->.
  { destruct a, b; try discriminate Hv; try discriminate Ha; try discriminate Hb; reflexivity. }
  unfold call. destruct (resolve (cmp_fns a b) [a; b]) as [| |f vs] eqn:E; [done..|].
  assert (length vs = 2) as Hl.
  { unfold resolve in E. destruct (List.filter _ (cmp_fns a b)) as [|g gs]; [done|].
    destruct (List.filter _ (g :: gs)) as [|h [|]]; try discriminate E. destruct (conv_all [a; b] (f_params h)) as [rs|] eqn:Ec; [|discriminate E].
    injection E as _ <-. rewrite fmap_length. cbn [conv_all] in Ec. destruct (f_params h) as [|p [|q [|]]]; cbn in Ec; repeat case_match; naive_solver. }
  destruct vs as [|[v|] [|[w|] [|]]]; try discriminate Hl; reflexivity.
Qed.
Lemma compare_resolved n o a b f v w : both_views a b = false → is_braces a = false → is_braces b = false →
  resolve (cmp_fns a b) [a; b] = Best f [Some v; Some w] → compare (S n) o a b = cmp_run (compare n) f o v w.
Proof. intros H1 H2 H3 H. by rewrite compare_step, H. Qed.
Lemma compare_none n o a b : is_braces a = true ∨ is_braces b = true ∨ (both_views a b = false ∧ (resolve (cmp_fns a b) [a; b] = NoMatch ∨ resolve (cmp_fns a b) [a; b] = Ambiguous)) →
  compare (S n) o a b = NoCompile.
Proof.
  intros H. destruct (is_braces a) eqn:Ha, (is_braces b) eqn:Hb; [destruct a, b; try discriminate Ha; try discriminate Hb; reflexivity..|].
  destruct H as [H|[H|[Hv H]]]; [done..|]. rewrite compare_step by done. by destruct H as [-> | ->].
Qed.
Lemma compare_undefined n o a b f v w : both_views a b = false → is_braces a = false → is_braces b = false →
  resolve (cmp_fns a b) [a; b] = Best f [v; w] → v = None ∨ w = None → compare (S n) o a b = Undefined.
Proof. intros H1 H2 H3 H Hv. rewrite compare_step, H by done. destruct Hv as [-> | ->]; [by destruct w|by destruct v]. Qed.
(** those of string end in those of std::string_view *)
Lemma compare_string_bodies n o a b f v w l r :
  both_views a b = false → is_braces a = false → is_braces b = false → resolve (cmp_fns a b) [a; b] = Best f [Some v; Some w] →
  match f with
  | KStrings => v = VString l ∧ w = VString r
  | KViewString => v = VView l ∧ w = VString r
  | KStringView => v = VString l ∧ w = VView r
  | _ => False
  end → compare (S (S (S n))) o a b = Value (view_op o l r).
Proof.
  intros H1 H2 H3 H Hf. rewrite (compare_resolved _ _ _ _ _ _ _ H1 H2 H3 H). destruct f; try done; destruct Hf as [-> ->]; cbn [cmp_run use cast_view]; [|apply compare_views..].
  rewrite (compare_resolved _ _ _ _ KStringView (VString l) (VView r)) by done. apply compare_views.
Qed.
Lemma refs_compare n o l r : compare (S (S (S (S n)))) o (ARef l) (ARef r) = Value (view_op o l r).
Proof.
  assert (Hstep : ∀ n o l r, compare (S n) o (ARef l) (ARef r) = cmp_run (compare n) KRefs o (VRef l) (VRef r)).
  { intros. by apply compare_resolved. }
  destruct o; rewrite !Hstep; cbn [cmp_run use cast_view]; rewrite ?Hstep; cbn [cmp_run use cast_view]; rewrite ?Hstep; cbn [cmp_run use cast_view];
    rewrite compare_views; cbn [omap]; first [done|by rewrite view_op_ne|by rewrite (view_op_le l r)|by rewrite (view_op_ge l r)|by rewrite view_op_gt].
Qed.
Lemma compare_ref_bodies n o a b l r :
  both_views a b = false → is_braces a = false → is_braces b = false → resolve (cmp_fns a b) [a; b] = Best KRefs [Some (VRef l); Some (VRef r)] →
  compare (S (S (S (S n)))) o a b = Value (view_op o l r).
Proof.
  intros H1 H2 H3 H. rewrite <-(refs_compare n o l r). rewrite (compare_resolved _ _ _ _ _ _ _ H1 H2 H3 H). symmetry. by apply compare_resolved.
Qed.
(** decides which of these applies *)
Local Ltac decided :=
  first [ apply compare_views
        | eapply compare_string_bodies; [reflexivity..|vm_compute; reflexivity|split; reflexivity]
        | eapply compare_ref_bodies; [reflexivity..|vm_compute; reflexivity]
        | eapply compare_undefined; [reflexivity..|vm_compute; reflexivity|first [left; reflexivity|right; reflexivity]]
        | apply compare_none; first [left; reflexivity|right; left; reflexivity|right; right; split; [reflexivity|left; vm_compute; reflexivity]
                                    |right; right; split; [reflexivity|right; vm_compute; reflexivity]] ].
(** with an object whose conversion functions are known *)
Local Ltac resolved E1 E2 := unfold resolve; cbn; unfold conv, user_conv; cbn; rewrite ?E1, ?E2; cbn; unfold fn_better; cbn; unfold conv_better, conv, user_conv; cbn; rewrite ?E1, ?E2; cbn; rewrite ?E1, ?E2; cbn; reflexivity.
Local Ltac decided_by E1 E2 :=
  first [ eapply compare_string_bodies; [reflexivity..|resolved E1 E2|split; reflexivity]
        | eapply compare_ref_bodies; [reflexivity..|resolved E1 E2]
        | apply compare_none; right; right; split; [reflexivity|left; resolved E1 E2]
        | apply compare_none; right; right; split; [reflexivity|right; resolved E1 E2] ].
(** two texts of which one is a string, a string_ref or both, can be compared and are compared by
    their characters; but not a string_ref with a std::string_view or std::string *)
Theorem C88_compare_partial n o a b l r :
  4 ≤ n → text a = Some l → text b = Some r → ours a = true ∨ ours b = true → ref_and_std a b = false →
  answers_like (compare n o a b) o l r.
Proof.
  intros Hn Ha Hb Ho Hrs. assert (compare n o a b = Value (view_op o l r)) as ->; [|apply view_op_value].
  destruct n as [|[|[|[|n]]]]; [lia..|].
  destruct a as [ra la|la|la|la|pa|ca|za| | |la|la|oa]; try discriminate Ha;
  destruct b as [rb lb|lb|lb|lb|pb|cb|zb| | |lb|lb|ob]; try discriminate Hb; cbn [text] in Ha, Hb; subst; try injection Ha as ->; try injection Hb as ->;
    try discriminate Hrs; try (by destruct Ho as [Ho|Ho]; discriminate Ho); decided.
Qed.
(** those do not compile *)
Theorem C88_compare_refuted n o a b : 1 ≤ n → ref_and_std a b = true → compare n o a b = NoCompile.
Proof.
  intros Hn H. destruct n as [|n]; [lia|]. destruct a; try discriminate H; destruct b; try discriminate H; decided.
Qed.
(** all operands: what is compared with a string, and with a string_ref *)
Definition seen_by_string (a : arg) : outcome chars :=
  match a with
  | AString _ l | ARef l | AView l | AStd l | APtr (Some l) | AIlist l => Value l
  | APtr None | AZero | ANull => Undefined
  | AChar _ | ANum _ | AList _ => NoCompile
  | AObj o => match to_view o, to_string o with Some l, None | None, Some l => Value l | _, _ => NoCompile end
  end.
Definition seen_by_ref (a : arg) : outcome chars :=
  match a with
  | ARef l | AString _ l | APtr (Some l) => Value l
  | APtr None | AZero | ANull => Undefined
  | AView _ | AStd _ | AChar _ | ANum _ | AList _ | AIlist _ => NoCompile
  | AObj o => match to_ref o with Some l => Value l | None => NoCompile end
  end.
Theorem C88_compare_behaviour n o a b l :
  4 ≤ n → text a = Some l → ours a = true →
  match (if is_string a then seen_by_string b else seen_by_ref b) with
  | Value r => answers_like (compare n o a b) o l r ∧ answers_like (compare n o b a) o r l
  | Undefined => compare n o a b = Undefined ∧ compare n o b a = Undefined
  | _ => compare n o a b = NoCompile ∧ compare n o b a = NoCompile
  end.
Proof.
  intros Hn Ha Ho.
  assert (Hv : match (if is_string a then seen_by_string b else seen_by_ref b) with
    | Value r => compare n o a b = Value (view_op o l r) ∧ compare n o b a = Value (view_op o r l)
    | Undefined => compare n o a b = Undefined ∧ compare n o b a = Undefined
    | _ => compare n o a b = NoCompile ∧ compare n o b a = NoCompile
    end).
  { destruct n as [|[|[|[|n]]]]; [lia..|].
    destruct a as [ra la|la|la|la|pa|ca|za| | |la|la|oa]; try discriminate Ho; cbn [text] in Ha; injection Ha as ->.
    - destruct b as [rb lb|lb|lb|lb|[pb|]|cb|zb| | |lb|lb|ob]; cbn [is_string seen_by_string]; try (split; decided).
      destruct (to_view ob) eqn:E1, (to_string ob) eqn:E2; split; decided_by E1 E2.
    - destruct b as [rb lb|lb|lb|lb|[pb|]|cb|zb| | |lb|lb|ob]; cbn [is_string seen_by_ref]; try (split; decided).
      destruct (to_ref ob) eqn:E1; split; decided_by E1 E1. }
  destruct (if is_string a then _ else _); [done..|]. destruct Hv as [-> ->]. split; apply view_op_value.
Qed.

(** ** Text as argument *)
(** computes a call with an object of a class of the program *)
Local Ltac objects E1 E2 E3 :=
  unfold string_assign, string_append, string_replace, string_insert, string_plus; cbn [string_ctor string_assignment]; unfold call;
  match goal with |- context [resolve ?fs ?args] =>
    let H := fresh in eassert (resolve fs args = _) as H;
    [unfold resolve; cbn; unfold conv, user_conv; cbn; rewrite ?E1, ?E2, ?E3; cbn; unfold fn_better; cbn; unfold conv_better, conv, user_conv; cbn;
     rewrite ?E1, ?E2, ?E3; cbn; reflexivity|rewrite H; clear H] end;
  reflexivity.
(** text is accepted by all members that take text, and it is the text they get *)
Theorem C89_members a l n :
  2 ≤ n → text a = Some l →
  string_ctor n a = Value l ∧ string_assignment n a = Value l ∧ string_assign a = Value l ∧ string_plus a = Value l ∧
  string_append a = Value l ∧ string_insert a = Value l ∧ string_replace a = Value l ∧ ref_ctor a = Value l.
Proof.
  intros Hn Ha. destruct n as [|[|n]]; [lia..|].
  destruct a as [ra la|la|la|la|pa|ca|za| | |la|la|oa]; try discriminate Ha; cbn [text] in Ha; subst; try injection Ha as ->;
    repeat split; try reflexivity; try (destruct ra; reflexivity).
Qed.
(** text is concatenated with strings on either side *)
Theorem C89_concat a b l r :
  text a = Some l → text b = Some r → is_string a = true ∨ is_string b = true → string_concat a b = Value (l ++ r).
Proof.
  intros Ha Hb Hs.
  destruct a as [ra la|la|la|la|pa|ca|za| | |la|la|oa]; try discriminate Ha;
  destruct b as [rb lb|lb|lb|lb|pb|cb|zb| | |lb|lb|ob]; try discriminate Hb; cbn [text] in Ha, Hb; subst; try injection Ha as ->; try injection Hb as ->;
    try (by destruct Hs as [Hs|Hs]; discriminate Hs); reflexivity.
Qed.
(** a parameter of type string_ref takes string_refs, views and pointers *)
Theorem C89_ref_param_partial a l :
  text a = Some l → is_string a = false → (∀ t, a ≠ AStd t) → ref_param a = Value l.
Proof.
  intros Ha Hs Hstd. destruct a as [ra la|la|la|la|pa|ca|za| | |la|la|oa]; try discriminate Ha; try discriminate Hs; cbn [text] in Ha; subst; try injection Ha as ->;
    try reflexivity. by destruct (Hstd l).
Qed.
(** but no strings, neither ours nor those of the standard library *)
Theorem C89_ref_param_refuted l r : ref_param (AString r l) = NoCompile ∧ ref_param (AStd l) = NoCompile.
Proof. split; [by destruct r|done]. Qed.

(** all arguments *)
(** the members that take characters ([c]), too, and those that take strings as such ([s]) *)
Definition member_takes (c s : bool) (a : arg) : outcome chars :=
  match a with
  | AString _ l | ARef l | AView l | AStd l | APtr (Some l) | AList l | AIlist l => Value l
  | APtr None | ANull => Undefined
  | AChar x => if c then Value [x] else NoCompile
  | ANum z => if c then Value [to_char z] else NoCompile
  | AZero => if c then Value [0%N] else Undefined
  | AObj o =>
      match to_view o, (if s then to_string o else None), (if c then to_num o else None) with
      | Some l, None, None | None, Some l, None => Value l
      | None, None, Some z => Value [to_char z]
      | _, _, _ => NoCompile
      end
  end.
Theorem C89_members_behaviour a n :
  3 ≤ n →
  string_ctor n a = member_takes false true a ∧ string_assignment n a = member_takes false true a ∧
  string_assign a = member_takes false false a ∧ string_append a = member_takes false false a ∧
  string_replace a = member_takes false false a ∧ string_insert a = member_takes true false a ∧
  string_plus a = member_takes true true a.
Proof.
  intros Hn. destruct n as [|[|[|n]]]; [lia..|].
  destruct a as [ra la|la|la|la|[pa|]|ca|za| | |[|x la]|la|oa]; repeat split; try reflexivity; try (destruct ra; reflexivity);
    cbn [member_takes]; destruct (to_view oa) eqn:E1, (to_string oa) eqn:E2, (to_num oa) eqn:E3; objects E1 E2 E3.
Qed.
(** parameters of type string_ref and string, and string_ref(a) *)
Definition ref_takes (a : arg) : outcome chars :=
  match a with
  | ARef l | AView l | APtr (Some l) => Value l
  | AList [] => Value []
  | APtr None | AZero | ANull => Undefined
  | AObj o => match to_ref o with Some l => Value l | None => NoCompile end
  | _ => NoCompile
  end.
Definition string_takes (a : arg) : outcome chars :=
  match a with
  | AString _ l | AList l | AIlist l => Value l
  | AObj o => match to_string o with Some l => Value l | None => NoCompile end
  | _ => NoCompile
  end.
Theorem C89_params_behaviour a : ref_param a = ref_takes a ∧ string_param a = string_takes a.
Proof.
  destruct a as [ra la|la|la|la|[pa|]|ca|za| | |[|x la]|la|oa]; split; try reflexivity; try (destruct ra; reflexivity);
    cbn [ref_takes string_takes]; unfold ref_param, string_param, pass, conv, user_conv; cbn; destruct (to_ref oa) eqn:E1, (to_string oa) eqn:E2; cbn; reflexivity.
Qed.
(** + with a string on one side *)
Definition concat_takes (a : arg) : outcome chars :=
  match a with
  | AList _ => NoCompile
  | _ => member_takes true true a
  end.
Theorem C89_concat_behaviour s l a :
  is_string s = true → text s = Some l →
  string_concat s a = omap (λ r, l ++ r) (concat_takes a) ∧ string_concat a s = omap (λ r, r ++ l) (concat_takes a).
Proof.
  intros Hs Hl. destruct s as [rs ls|? |? |? |? |? |? | | |? |? |? ]; try discriminate Hs. cbn [text] in Hl. injection Hl as ->.
  destruct a as [ra la|la|la|la|[pa|]|ca|za| | |la|la|oa]; split; try reflexivity;
    unfold string_concat; cbn [concat_takes member_takes is_braces is_string orb]; destruct (to_view oa) eqn:E1, (to_string oa) eqn:E2, (to_num oa) eqn:E3; objects E1 E2 E3.
Qed.

(** ** Numbers and null pointers *)
(** a number that is not written as a literal 0 is no text; the members for characters take it as
    the character with that code *)
Theorem C90_numbers_partial z n o s l :
  3 ≤ n → text s = Some l → ours s = true →
  string_ctor n (ANum z) = NoCompile ∧ string_assignment n (ANum z) = NoCompile ∧ string_assign (ANum z) = NoCompile ∧
  string_append (ANum z) = NoCompile ∧ string_replace (ANum z) = NoCompile ∧ ref_param (ANum z) = NoCompile ∧
  ref_ctor (ANum z) = NoCompile ∧ compare n o s (ANum z) = NoCompile ∧ compare n o (ANum z) s = NoCompile.
Proof.
  intros Hn Hl Ho. destruct n as [|[|[|n]]]; [lia..|].
  destruct s as [rs ls|ls|? |? |? |? |? | | |? |? |? ]; try discriminate Ho; repeat split; try reflexivity; destruct rs; reflexivity.
Qed.
(** literals 0 and nullptr are taken for text and read through, and so are pointers that are null *)
Theorem C90_null_refuted a n o s l :
  null a = true → 3 ≤ n → text s = Some l → ours s = true →
  string_ctor n a = Undefined ∧ string_assignment n a = Undefined ∧ string_assign a = Undefined ∧ string_append a = Undefined ∧
  string_replace a = Undefined ∧ ref_param a = Undefined ∧ ref_ctor a = Undefined ∧
  compare n o s a = Undefined ∧ compare n o a s = Undefined.
Proof.
  intros Ha Hn Hl Ho. destruct n as [|[|[|n]]]; [lia..|].
  destruct s as [rs ls|ls|? |? |? |? |? | | |? |? |? ]; try discriminate Ho;
    destruct a as [ra la|la|la|la|[pa|]|ca|za| | |la|la|oa]; try discriminate Ha; repeat split; try reflexivity; destruct o; try destruct rs; reflexivity.
Qed.
End proofs.

(** ** Examples *)
(** objects: with a conversion to std::string_view, and with one to ptl::string besides *)
Local Instance demo : TextLang :=
  {| obj := bool; to_view := λ _, Some [97%N]; to_string := λ b : bool, if b then Some [98%N] else None; to_ref := λ _, None;
     to_ptr := λ _, None; to_num := λ _, None |}.
Definition ab : chars := [97%N; 98%N].
Definition b_ : chars := [98%N].
Example C88_case :
  text (AString false ab) = Some ab ∧ text (APtr (Some b_)) = Some b_ ∧ ours (AString false ab) = true ∧
  ref_and_std (AString false ab) (APtr (Some b_)) = false ∧
  compare 4 CLt (AString false ab) (APtr (Some b_)) = Value true ∧ compare 4 CGe (APtr (Some b_)) (ARef ab) = Value true ∧
  compare 4 CEq (ARef ab) (AString true ab) = Value true ∧ compare 4 CNe (AStd ab) (AString false ab) = Value false ∧
  compare 4 CEq (ARef ab) (AView ab) = NoCompile ∧ compare 4 CEq (AString false ab) AZero = Undefined ∧
  compare 4 CEq (AString false [97%N]) (AObj false) = Value true ∧ compare 4 CEq (AString false ab) (AObj true) = NoCompile.
Proof. by vm_compute. Qed.
Example C89_case :
  string_assignment 2 (AStd ab) = Value ab ∧ string_plus (ARef ab) = Value ab ∧ string_concat (APtr (Some ab)) (AString true b_) = Value (ab ++ b_) ∧
  string_concat (AString true b_) (AChar 97%N) = Value [98%N; 97%N] ∧ string_assignment 2 (AList []) = Value [] ∧
  string_assignment 2 (AChar 97%N) = NoCompile ∧ ref_param (AView ab) = Value ab ∧ ref_ctor (AStd ab) = Value ab ∧ string_param (AView ab) = NoCompile ∧
  is_string (AView ab) = false.
Proof. by vm_compute. Qed.
Example C90_case :
  null AZero = true ∧ string_assignment 3 AZero = Undefined ∧ string_plus AZero = Value [0%N] ∧ string_assignment 3 (ANum 1) = NoCompile ∧
  string_plus (ANum 353) = Value [97%N].
Proof. by vm_compute. Qed.

Print Assumptions C88_compare_partial.
Print Assumptions C88_compare_refuted.
Print Assumptions C88_compare_behaviour.
Print Assumptions C89_members.
Print Assumptions C89_concat.
Print Assumptions C89_ref_param_partial.
Print Assumptions C89_ref_param_refuted.
Print Assumptions C89_members_behaviour.
Print Assumptions C89_params_behaviour.
Print Assumptions C89_concat_behaviour.
Print Assumptions C90_numbers_partial.
Print Assumptions C90_null_refuted.
