(** Properties C91 and C92: counts and ranges; numbers are not vectors. *)
From stdpp Require Import prelude.
From Coq Require Import ZArith Lia.
From Verif Require Import RangeModel.
Local Open Scope nat_scope.

(** ** Specification *)
Section spec.
Context `{L : RangeLang}.
(** an iterator one can at least read from *)
Definition iterator (a : ty) : Prop := ∃ t, category a = Some t ∧ base_of input_tag t = true.
(** its category is one of the standard library, or derived from one other than the weakest *)
Definition plain_iterator (a : ty) : Prop := ∃ t, category a = Some t ∧ (t = input_tag ∨ base_of forward_tag t = true).
Definition converts (a b : ty) : Prop := is_Some (conv a b).
(** the language and the standard library *)
Record lang_ok : Prop := {
  ok_self : ∀ t, conv t t = Some Exact;
  ok_int : converts int_t size_t;
  ok_size : ∀ t, conv t size_t = Some Exact → t = size_t;
  ok_numbers : category int_t = None ∧ category size_t = None ∧ category char_t = None;
  ok_forward : base_of input_tag forward_tag = true ∧ base_of forward_tag input_tag = false;
  ok_base : ∀ t, base_of t t = true;
  ok_pointers : ∀ t, ∃ k, category (cptr t) = Some k ∧ base_of forward_tag k = true;
  ok_star : ∀ t, star (cptr t) = t;
  ok_move : ∀ t, ∃ k, category (move_iter t) = Some k ∧ base_of forward_tag k = true;
}.
(** what the vector demands of its elements, vector.hpp:22-23: construction from const and mutable *)
Definition element_ok (E : ty) : Prop := constructs E (star (cptr E)) = true ∧ constructs E (star (move_iter E)) = true.
End spec.

Section proofs.
Context `{L : RangeLang}.
Context (E : ty).
Context (ok : lang_ok).

Lemma not_exact a t : category a = Some t → conv a size_t ≠ Some Exact.
Proof. intros Hc H. apply (ok_size ok) in H. subst. destruct (ok_numbers ok) as (_ & H & _). congruence. Qed.
(** the overload that is selected *)
Lemma resolve_spec m a b :
  resolve E m a b =
    if bool_decide (a = b ∧ category a = Some input_tag) then Some OInput
    else if (match category a with Some t => bool_decide (a = b) && base_of forward_tag t | None => false end) then Some OForward
    else match conv a size_t, conv b (element E m) with Some _, Some _ => Some OCount | _, _ => None end.
Proof.
  destruct (ok_forward ok) as [_ Hf]. unfold resolve, beats, ranks, better.
  case_bool_decide as H1.
  - destruct H1 as [-> Hc]. pose proof (not_exact _ _ Hc) as Hn. rewrite Hc, Hf, andb_false_r. cbn.
    destruct (conv b size_t) as [r|]; [|reflexivity]. destruct (conv b (element E m)) as [s|]; [|reflexivity]. by destruct r, s.
  - destruct (category a) as [t|] eqn:Hc.
    + pose proof (not_exact _ _ Hc) as Hn. destruct (bool_decide (a = b) && base_of forward_tag t); cbn;
        (destruct (conv a size_t) as [r|]; [|reflexivity]); (destruct (conv b (element E m)) as [s|]; [|reflexivity]); by destruct r, s.
    + cbn. destruct (conv a size_t) as [r|]; [|reflexivity]. by destruct (conv b (element E m)).
Qed.
Lemma resolve_input m a : category a = Some input_tag → resolve E m a a = Some OInput.
Proof. intros H. by rewrite resolve_spec, bool_decide_eq_true_2. Qed.
Lemma resolve_forward m a t : category a = Some t → base_of forward_tag t = true → resolve E m a a = Some OForward.
Proof.
  intros H Hb. destruct (ok_forward ok) as [_ Hf]. rewrite resolve_spec, bool_decide_eq_false_2 by (intros [_ ?]; congruence).
  by rewrite H, Hb, bool_decide_eq_true_2.
Qed.
Lemma resolve_count m a b : a ≠ b ∨ ¬ plain_iterator a → converts a size_t → converts b (element E m) → resolve E m a b = Some OCount.
Proof.
  intros Hn [r Hr] [s Hs]. rewrite resolve_spec, Hr, Hs. rewrite bool_decide_eq_false_2.
  - destruct (category a) as [t|] eqn:Hc; [|done]. destruct (bool_decide (a = b) && base_of forward_tag t) eqn:Hb; [|done].
    apply andb_true_iff in Hb as [Hab%bool_decide_eq_true Hb]. destruct Hn as [Hn|Hn]; [done|]. destruct Hn. exists t. auto.
  - intros [Hab Hc]. destruct Hn as [Hn|Hn]; [done|]. destruct Hn. exists input_tag. auto.
Qed.
Lemma resolve_none m a b : a ≠ b ∨ ¬ plain_iterator a → ¬ (converts a size_t ∧ converts b (element E m)) → resolve E m a b = None.
Proof.
  intros Hn H. rewrite resolve_spec. rewrite bool_decide_eq_false_2.
  - assert ((match category a with Some t => bool_decide (a = b) && base_of forward_tag t | None => false end) = false) as ->.
    { destruct (category a) as [t|] eqn:Hc; [|done]. apply not_true_iff_false. intros Hb.
      apply andb_true_iff in Hb as [Hab%bool_decide_eq_true Hb]. destruct Hn as [Hn|Hn]; [done|]. destruct Hn. exists t. auto. }
    unfold converts in H. destruct (conv a size_t), (conv b (element E m)); try done. destruct H. split; eauto.
  - intros [Hab Hc]. destruct Hn as [Hn|Hn]; [done|]. destruct Hn. exists input_tag. auto.
Qed.

(** ** C91 *)
(** arguments that are not two iterators of one type are a count and a value, if they can be *)
Theorem C91_count m n a b :
  1 ≤ n → a ≠ b ∨ category a = None → converts a size_t → converts b (element E m) → call E n m a b = Count.
Proof.
  intros Hn Hab Ha Hb. destruct n as [|n]; [lia|]. cbn [call]. rewrite resolve_count; [done| |done..].
  destruct Hab as [?|Hc]; [by left|right]. intros (t & Ht & _). congruence.
Qed.
(** two iterators of one type are a range, whatever they convert to besides *)
Theorem C91_range_partial m n a :
  3 ≤ n → element_ok E → plain_iterator a → converts (star a) (element E m) → constructs (element E m) (star a) = true →
  call E n m a a = Range.
Proof.
  intros Hn [_ Hm] (t & Hc & Ht) [r Hr] Hs. destruct n as [|[|[|n]]]; [lia..|].
  destruct (ok_move ok E) as (k & Hk & Hfk). pose proof (λ m, resolve_forward m _ _ Hk Hfk) as HM.
  destruct Ht as [->|Ht].
  - pose proof (λ m, resolve_input m _ Hc) as HR.
    destruct m; cbn [call]; rewrite ?HR, ?HM; cbn [call]; rewrite ?HR, ?HM; unfold converted, constructed, element in *; cbn [is_vector] in *; rewrite ?Hr, ?Hs, ?Hm; done.
  - pose proof (λ m, resolve_forward m _ _ Hc Ht) as HR.
    destruct m; cbn [call]; rewrite ?HR; cbn [call]; rewrite ?HR; unfold converted, constructed, element in *; cbn [is_vector] in *; rewrite ?Hr, ?Hs; done.
Qed.
(** iterators whose category is derived from that of input iterators only are none: they are
    rejected, or taken for a count and a value if they convert to them *)
Theorem C91_category_refuted m n a t :
  1 ≤ n → category a = Some t → base_of input_tag t = true → t ≠ input_tag → base_of forward_tag t = false →
  iterator a ∧
  (converts a size_t ∧ converts a (element E m) → call E n m a a = Count) ∧
  (¬ (converts a size_t ∧ converts a (element E m)) → call E n m a a = NoCompile).
Proof.
  intros Hn Hc Hi Ht Hf. assert (¬ plain_iterator a) as Hp by (intros (k & Hk & [Hk'|Hk']); congruence).
  split; [by exists t|]. destruct n as [|n]; [lia|]. cbn [call]. split.
  - intros [H1 H2]. rewrite resolve_count; [done|by right|done..].
  - intros H. rewrite resolve_none; [done|by right|done].
Qed.
(** elements that are constructed explicitly can be stored from all iterators but input iterators *)
Theorem C91_explicit_refuted m n a :
  3 ≤ n → element_ok E → is_vector m = true → constructs E (star a) = true → ¬ converts (star a) E →
  (category a = Some input_tag → call E n m a a = NoCompile) ∧
  (∀ t, category a = Some t → base_of forward_tag t = true → call E n m a a = Range).
Proof.
  intros Hn [_ Hm] Hv Hs Hr. destruct n as [|[|[|n]]]; [lia..|].
  assert (conv (star a) E = None) as Hr' by (apply eq_None_not_Some; done).
  destruct (ok_move ok E) as (k & Hk & Hfk). pose proof (λ m, resolve_forward m _ _ Hk Hfk) as HM. split.
  - intros Hc. pose proof (λ m, resolve_input m _ Hc) as HR.
    destruct m; try discriminate Hv; cbn [call]; rewrite ?HR, ?HM; cbn [call]; rewrite ?HR, ?HM; unfold converted, constructed, element; cbn [is_vector]; rewrite ?Hr', ?Hs, ?Hm; done.
  - intros t Hc Ht. pose proof (λ m, resolve_forward m _ _ Hc Ht) as HR.
    destruct m; try discriminate Hv; cbn [call]; rewrite ?HR; cbn [call]; rewrite ?HR; unfold converted, constructed, element; cbn [is_vector]; rewrite ?Hr', ?Hs; done.
Qed.
(** all arguments *)
Definition taken (m : member) (a b : ty) : outcome :=
  if bool_decide (a = b) then
    match category a with
    | Some t =>
        if bool_decide (t = input_tag) then if bool_decide (converts (star a) (element E m)) then Range else NoCompile
        else if base_of forward_tag t then
          if is_vector m then if constructs E (star a) then Range else NoCompile
          else if bool_decide (converts (star a) char_t) then Range else NoCompile
        else if bool_decide (converts a size_t ∧ converts a (element E m)) then Count else NoCompile
    | None => if bool_decide (converts a size_t ∧ converts a (element E m)) then Count else NoCompile
    end
  else if bool_decide (converts a size_t ∧ converts b (element E m)) then Count else NoCompile.
Theorem C91_behaviour m n a b : 3 ≤ n → element_ok E → call E n m a b = taken m a b.
Proof.
  intros Hn [_ Hm]. destruct n as [|[|[|n]]]; [lia..|]. unfold taken.
  assert (Hother : a ≠ b ∨ ¬ plain_iterator a →
    call E (S (S (S n))) m a b = if bool_decide (converts a size_t ∧ converts b (element E m)) then Count else NoCompile).
  { intros Hp. cbn [call]. case_bool_decide as H; [destruct H; by rewrite resolve_count|by rewrite resolve_none]. }
  destruct (ok_move ok E) as (k & Hk & Hfk). pose proof (λ m, resolve_forward m _ _ Hk Hfk) as HM.
  destruct (bool_decide_reflect (a = b)) as [Hab|Hab]; [subst b|by apply Hother; left].
  destruct (category a) as [t|] eqn:Hc; [|rewrite Hother; [done|right; intros (? & ? & ?); congruence]].
  destruct (bool_decide_reflect (t = input_tag)) as [Ht|Ht]; [subst t|destruct (base_of forward_tag t) eqn:Hf].
  - clear Hother. pose proof (λ m, resolve_input m _ Hc) as HR. unfold converts.
    destruct m; cbn [call]; rewrite ?HR, ?HM; cbn [call]; rewrite ?HR, ?HM; unfold converted, constructed, element; cbn [is_vector]; rewrite ?Hm;
      (case_bool_decide as Hcv; [destruct Hcv as [r ->]; done|apply eq_None_not_Some in Hcv; rewrite Hcv; done]).
  - clear Hother. pose proof (λ m, resolve_forward m _ _ Hc Hf) as HR. unfold converts.
    destruct m; cbn [call]; rewrite ?HR; cbn [call]; rewrite ?HR; unfold converted, constructed, element; cbn [is_vector]; try done;
      (case_bool_decide as Hcv; [destruct Hcv as [r ->]; done|apply eq_None_not_Some in Hcv; rewrite Hcv; done]).
  - apply Hother. right. intros (t' & Ht' & [Hk'|Hk']); congruence.
Qed.
(** the members that delegate to these get what they ask for *)
Theorem C91_delegates n m :
  3 ≤ n → element_ok E →
  vec_copy E n = Range ∧ vec_copy_assign E n = Range ∧ vec_insert_value E n = Count ∧
  (is_vector m = true → vec_list E n m = Range) ∧ (is_vector m = false → str_list E n m = Range ∧ str_char E n m = Count).
Proof.
  intros Hn He. pose proof He as [Hp _].
  assert (HP : ∀ t, plain_iterator (cptr t)) by (intros t; destruct (ok_pointers ok t) as (k & ? & ?); exists k; auto).
  assert (HV : ∀ m, is_vector m = true → call E n m (cptr E) (cptr E) = Range).
  { intros m' Hm'. apply C91_range_partial; try done; unfold element; rewrite Hm'; [|done]. rewrite (ok_star ok). eexists; apply (ok_self ok). }
  unfold vec_copy, vec_copy_assign, vec_list, vec_insert_value, str_list, str_char.
  destruct (ok_numbers ok) as (Hi & _). split; [|split; [|split; [|split]]]; try (by apply HV); [|intros Hm; split].
  - apply C91_count; [lia|by right|apply ok|]. eexists. apply (ok_self ok).
  - rewrite C91_behaviour by done. unfold taken. destruct (ok_pointers ok char_t) as (k & Hk & Hfk).
    rewrite bool_decide_eq_true_2, Hk, Hfk, Hm by done.
    assert (converts (star (cptr char_t)) char_t) as Hs by (rewrite (ok_star ok); eexists; apply (ok_self ok)).
    unfold element. rewrite Hm. rewrite (bool_decide_eq_true_2 _ Hs). by destruct (bool_decide (k = input_tag)).
  - apply C91_count; [lia|by right|apply ok|]. unfold element. rewrite Hm. eexists. apply (ok_self ok).
Qed.
End proofs.

(** ** C92 *)
Section numbers.
Context (max_size : vty → Z).
Context (Hmax : ∀ t, (0 ≤ max_size t < 2 ^ 63)%Z).
(** what an element is without a value *)
Definition zero (t : vty) : value := match t with Num => VNum 0 | Vec _ => VVec [] end.
Local Notation zeros t z := (VVec (replicate (Z.to_nat z) (zero t))).
Lemma to_size_small z : (0 ≤ z < 2 ^ 64)%Z → to_size z = z.
Proof. apply Z.mod_small. Qed.
Lemma from_count_fits t z : (0 ≤ z ≤ max_size t)%Z → from_count max_size t z = Gives (zeros t z).
Proof.
  intros Hz. specialize (Hmax t). unfold from_count. rewrite to_size_small by lia. by destruct (Z.leb_spec z (max_size t)); [|lia].
Qed.
(** vector<T>(n) has n elements *)
Theorem C92_count t z : (0 ≤ z ≤ max_size t)%Z → vec_paren max_size t z = Gives (zeros t z).
Proof. apply from_count_fits. Qed.
(** a number is taken for a vector of that many elements, wherever a vector is expected *)
Theorem C92_number_refuted t z l same : (0 ≤ z ≤ max_size t)%Z →
  from_number max_size (Vec t) z = Gives (zeros t z) ∧ vec_assign_number max_size t z = Gives (zeros t z) ∧
  vec_push_number max_size (Vec t) l z = Gives (VVec (l ++ [zeros t z])) ∧
  ∃ b, vec_equal_number max_size same t l z = Gives b ∧
    (b = true ↔ Z.of_nat (length l) = z ∧ Forall (λ x, same x (zero t) = true) l).
Proof.
  intros Hz. unfold vec_assign_number, vec_push_number, vec_equal_number. cbn [from_number]. rewrite (from_count_fits _ _ Hz).
  split; [done|]. split; [done|]. split; [done|]. eexists. split; [done|].
  rewrite andb_true_iff, Nat.eqb_eq, replicate_length.
  assert (∀ n, length l = n → forallb (λ p, same p.1 p.2) (zip l (replicate n (zero t))) = true ↔ Forall (λ x, same x (zero t) = true) l) as H.
  { clear. induction l as [|x l IH]; intros n <-; [done|]. specialize (IH (length l) eq_refl). cbn.
    rewrite andb_true_iff, IH, Forall_cons. done. }
  split.
  - intros [Hn Hf]. split; [lia|]. by apply (H _ Hn).
  - intros [Hn Hf]. assert (length l = Z.to_nat z) as Hn' by lia. split; [done|]. by apply H.
Qed.
(** negative numbers are taken for sizes that cannot exist *)
Theorem C92_negative_refuted t z l same : (- 2 ^ 63 ≤ z < 0)%Z →
  vec_assign_number max_size t z = Throws ∧ vec_push_number max_size (Vec t) l z = Throws ∧ vec_equal_number max_size same t l z = Throws.
Proof.
  intros Hz. assert (from_number max_size (Vec t) z = Throws) as H.
  { cbn [from_number]. unfold from_count, to_size. specialize (Hmax t).
    rewrite <-(Z.mod_unique z (2 ^ 64) (-1) (z + 2 ^ 64)) by lia. by destruct (Z.leb_spec (z + 2 ^ 64) (max_size t)); [lia|]. }
  unfold vec_assign_number, vec_push_number, vec_equal_number. by rewrite H.
Qed.
(** vector<vector<T>>{n} has one element and not n *)
Theorem C92_braces_refuted t z : (0 ≤ z ≤ max_size t)%Z → (z ≤ max_size (Vec t))%Z →
  vec_brace max_size (Vec t) z = Gives (VVec [zeros t z]) ∧ vec_paren max_size (Vec t) z = Gives (zeros (Vec t) z).
Proof.
  intros Hz Hz'. unfold vec_brace. cbn [from_number]. rewrite (from_count_fits t z) by done. split; [done|]. apply from_count_fits. lia.
Qed.
End numbers.

(** ** Examples *)
(** a program with iterators of category boost's "input iterator with random access traversal" *)
Inductive demo_ty := TSize | TInt | TChar | TBox | TPtr (const : bool) (t : demo_ty) | TMove (t : demo_ty) | TIn (t : demo_ty) | TProxy (t : demo_ty).
Global Instance demo_ty_eq : EqDecision demo_ty.
Proof. solve_decision. Defined.
Inductive demo_tag := GInput | GForward | GRandom | GProxy.
Global Instance demo_tag_eq : EqDecision demo_tag.
Proof. solve_decision. Defined.
Definition demo_number (t : demo_ty) : bool := match t with TSize | TInt | TChar => true | _ => false end.
Local Instance demo : RangeLang :=
  {| ty := demo_ty; tag := demo_tag;
     conv := λ a b, if bool_decide (a = b) then Some Exact else if demo_number a && demo_number b then Some Conversion else None;
     constructs := λ t u, bool_decide (t = u) || (demo_number u && (demo_number t || bool_decide (t = TBox)));
     base_of := λ b d, bool_decide (b = d) || match b, d with GInput, _ | GForward, GRandom => true | _, _ => false end;
     input_tag := GInput; forward_tag := GForward;
     category := λ t, match t with TPtr _ _ | TMove _ => Some GRandom | TIn _ => Some GInput | TProxy _ => Some GProxy | _ => None end;
     star := λ t, match t with TPtr _ t | TMove t | TIn t | TProxy t => t | _ => t end;
     size_t := TSize; int_t := TInt; char_t := TChar; ptr := TPtr false; cptr := TPtr true; move_iter := TMove |}.
Lemma demo_ok : lang_ok.
Proof.
  split; try done.
  - intros t. cbn. by rewrite bool_decide_eq_true_2.
  - cbn. by eexists.
  - intros t. cbn. case_bool_decide; [done|]. by destruct (demo_number t && true).
  - intros t. cbn. by rewrite bool_decide_eq_true_2.
  - intros t. by eexists.
  - intros t. by eexists.
Qed.
Example C91_case :
  element_ok TInt ∧ call TInt 3 VCtor TInt TInt = Count ∧ call TInt 3 VInsert (TPtr true TChar) (TPtr true TChar) = Range ∧
  call TInt 3 VInsert (TIn TChar) (TIn TChar) = Range ∧ call TInt 3 VAssign (TProxy TInt) (TProxy TInt) = NoCompile ∧
  call TBox 3 VCtor (TPtr true TInt) (TPtr true TInt) = Range ∧ call TBox 3 VCtor (TIn TInt) (TIn TInt) = NoCompile ∧
  call TInt 3 SAppend TInt TChar = Count ∧ call TInt 3 SAssign (TPtr false TChar) (TPtr false TChar) = Range ∧
  call TInt 3 VCtor (TPtr true TInt) (TPtr false TInt) = NoCompile ∧ vec_insert_value TInt 3 = Count.
Proof. by vm_compute. Qed.
Example C91_iterators : plain_iterator (TIn TInt) ∧ plain_iterator (TPtr true TInt) ∧ iterator (TProxy TInt) ∧ ¬ converts TInt TBox ∧ converts TChar TInt.
Proof.
  split; [by exists GInput; auto|]. split; [exists GRandom; auto|]. split; [by exists GProxy|]. split; [|by eexists].
  intros [r H]. discriminate H.
Qed.
Example C92_case :
  let m (_ : vty) := 1000%Z in
  vec_paren m Num 3 = Gives (VVec [VNum 0; VNum 0; VNum 0]) ∧ vec_brace m Num 3 = Gives (VVec [VNum 3]) ∧
  vec_assign_number m Num 2 = Gives (VVec [VNum 0; VNum 0]) ∧ vec_assign_number m Num (-1) = Throws ∧
  vec_brace m (Vec Num) 2 = Gives (VVec [VVec [VNum 0; VNum 0]]) ∧ vec_paren m (Vec Num) 2 = Gives (VVec [VVec []; VVec []]).
Proof. by vm_compute. Qed.

Print Assumptions C91_count.
Print Assumptions C91_range_partial.
Print Assumptions C91_category_refuted.
Print Assumptions C91_explicit_refuted.
Print Assumptions C91_behaviour.
Print Assumptions C91_delegates.
Print Assumptions C92_count.
Print Assumptions C92_number_refuted.
Print Assumptions C92_negative_refuted.
Print Assumptions C92_braces_refuted.
