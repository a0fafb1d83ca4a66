(** C75: array_ref refers to exactly the elements of the range it is constructed from. *)
From stdpp Require Import prelude.
From Verif Require Import ArrayRefCtor.
Local Open Scope Z_scope.

Section props.
Context `{L : ViewLang}.
(** sizes are positive, a class is not its own base, and has no conversion to anything else *)
Definition lang_ok : Prop := (∀ c, 0 < size_of c) ∧ (∀ c, base c c = None).
(** data() of a const range gives the same elements, at most more const *)
Definition range_ok (r : range L) : Prop :=
  match data_const r, data_mut r with
  | Some p, Some q => to p = to q ∧ (cst q = true → cst p = true)
  | None, _ => True
  | Some p, None => False
  end.
(** the type of the elements of a range *)
Definition elem_type (a : arg L) : option cls := to <$> body_type a.
(** the address of the i-th element, and of its base class subobject [T] *)
Definition elem_addr (a : arg L) (E : cls) (i : nat) : Z := addr (rng a) + Z.of_nat i * size_of E.
Definition as_type (E T : cls) : option Z := if decide (E = T) then Some 0 else base E T.
(** the view has as many elements as the range, and the i-th is the i-th of the range *)
Definition views (T : pty L) (v : Z * Z) (a : arg L) : Prop :=
  ∃ E off, elem_type a = Some E ∧ as_type E (to T) = Some off ∧
    view_size T v = Z.of_nat (count (rng a)) ∧
    ∀ i, (i < count (rng a))%nat → view_elem T v i = elem_addr a E i + off.

Lemma data_body a : range_ok (rng a) →
  match data_type a with
  | Some p => ∃ q, body_type a = Some q ∧ to p = to q ∧ (cst q = true → cst p = true)
  | None => True
  end.
Proof.
  unfold range_ok, data_type, body_type. destruct (is_const a).
  - destruct (data_const (rng a)); [|done]. by eexists.
  - destruct (cat a).
    + destruct (data_mut (rng a)); [|done]. by eexists.
    + destruct (data_const (rng a)); [|done]. destruct (data_mut (rng a)); [|done]. intros [? ?]. by eexists.
Qed.
Lemma conversion_weaken (p q T : pty L) :
  to p = to q → (cst q = true → cst p = true) → is_Some (pointer_conversion p T) →
  pointer_conversion q T = as_type (to q) (to T).
Proof.
  unfold pointer_conversion, as_type. intros -> H. destruct (cst p), (cst q), (cst T); try done; try (by intros [? ?]).
  by specialize (H eq_refl).
Qed.

(** ** C75 *)
(** what is constructed, for every range *)
Theorem C75_construct_behaviour T a :
  lang_ok → range_ok (rng a) →
  construct T a =
    match data_type a with
    | Some p => if cst p && negb (cst T) then None
                else off ← as_type (to p) (to T); Some (from_pointer T (addr (rng a) + off) (count (rng a)))
    | None => None
    end.
Proof.
  intros HL Hr. pose proof (data_body a Hr) as Hb. unfold construct, is_compatible_range.
  destruct (data_type a) as [p|]; [|done]. destruct Hb as (q & -> & Hto & Hc).
  destruct (pointer_conversion p T) as [off|] eqn:Hp.
  - rewrite (conversion_weaken p q T Hto Hc) by (by eexists).
    pose proof (conversion_weaken p p T eq_refl (λ H, H)) as H. rewrite Hp in H. specialize (H ltac:(by eexists)).
    rewrite <-Hto, <-H. unfold pointer_conversion in Hp. destruct (cst p && negb (cst T)); [done|]. done.
  - unfold pointer_conversion in Hp. destruct (cst p && negb (cst T)); [done|]. unfold as_type. by rewrite Hp.
Qed.
(** no mutable view of const elements or, for containers that own their elements, of temporaries *)
Theorem C75_const_correct T a p v :
  data_type a = Some p → cst p = true → construct T a = Some v → cst T = true.
Proof.
  intros Hd Hc. unfold construct, is_compatible_range. rewrite Hd. unfold pointer_conversion at 1. rewrite Hc.
  destruct (cst T); done.
Qed.
(** the full claim: every view that compiles refers to the elements of the range. It holds for
    ranges of the very type *)
Theorem C75_view_partial T a v :
  lang_ok → range_ok (rng a) → elem_type a = Some (to T) → construct T a = Some v → views T v a.
Proof.
  intros HL Hr He Hc. rewrite (C75_construct_behaviour T a HL Hr) in Hc. pose proof (data_body a Hr) as Hb.
  destruct (data_type a) as [p|]; [|done]. destruct Hb as (q & Hq & Hto & _).
  destruct (cst p && negb (cst T)); [done|]. unfold elem_type in He. rewrite Hq in He.
  cbn [fmap option_fmap option_map] in He. injection He as He.
  assert (Has : as_type (to p) (to T) = Some 0) by (unfold as_type; by rewrite Hto, He, decide_True).
  rewrite Has in Hc. cbn in Hc. injection Hc as <-.
  exists (to T), 0. unfold elem_type. rewrite Hq. cbn [fmap option_fmap option_map]. rewrite He. split; [done|].
  split; [unfold as_type; by rewrite decide_True|]. unfold view_size, view_elem, from_pointer, elem_addr. cbn [fst snd].
  rewrite Z.add_0_r. split.
  - replace (addr (rng a) + Z.of_nat (count (rng a)) * size_of (to T) - addr (rng a))
      with (Z.of_nat (count (rng a)) * size_of (to T)) by lia.
    apply Z.div_mul. pose proof (proj1 HL (to T)). lia.
  - intros i _. lia.
Qed.
(** ... and such a range is accepted unless this would remove a const *)
Theorem C75_accepted T a p :
  lang_ok → range_ok (rng a) → data_type a = Some p → to p = to T → (cst p = true → cst T = true) →
  is_Some (construct T a).
Proof.
  intros HL Hr Hd Hto Hc. rewrite (C75_construct_behaviour T a HL Hr), Hd. unfold as_type. rewrite decide_True by done.
  destruct (cst p), (cst T); cbn; try (by eexists). by specialize (Hc eq_refl).
Qed.
(** ranges of derived classes are accepted, but the elements of the view are not those of the
    range: except for the first, none is where it should be *)
Theorem C75_derived_refuted T a E off :
  lang_ok → range_ok (rng a) → data_type a = Some (Pty E (cst T)) → base E (to T) = Some off → size_of (to T) < size_of E →
  ∃ v, construct T a = Some v ∧ ∀ i, (0 < i)%nat → view_elem T v i < elem_addr a E i + off.
Proof.
  intros HL Hr Hd Hb Hlt. rewrite (C75_construct_behaviour T a HL Hr), Hd. cbn [cst to].
  assert (Has : as_type E (to T) = Some off).
  { unfold as_type. rewrite decide_False; [done|]. intros ->. by rewrite (proj2 HL) in Hb. }
  rewrite Has, andb_negb_r. cbn. eexists. split; [done|]. intros i Hi.
  unfold view_elem, from_pointer, elem_addr. cbn [fst]. nia.
Qed.
(** array_ref(ptr, n): n is a count, whatever integer it is; except for a literal 0 of a type
    other than std::size_t, which is rejected as ambiguous *)
Theorem C75_pointer_count_partial s :
  s ≠ SInteger false true → resolve s = Some match s with SPointer => TwoPointers | SInteger _ _ => PointerCount end.
Proof. by destruct s as [|[] []]. Qed.
Theorem C75_literal_zero_refuted : resolve (SInteger false true) = Some Ambiguous.
Proof. done. Qed.
Theorem C75_pointer_count T p n i :
  lang_ok → view_size T (from_pointer T p n) = Z.of_nat n ∧ view_elem T (from_pointer T p n) i = p + Z.of_nat i * size_of (to T).
Proof.
  intros HL. unfold view_size, view_elem, from_pointer. cbn [fst snd]. split; [|done].
  replace (p + Z.of_nat n * size_of (to T) - p) with (Z.of_nat n * size_of (to T)) by lia.
  apply Z.div_mul. pose proof (proj1 HL (to T)). lia.
Qed.
(** deduction: for owners of their elements, whose constness is that of the container, and raw
    arrays, array_ref{range} views the elements with the constness the range gives access with *)
Definition owner (r : range L) : Prop :=
  ∃ E, data_mut r = Some (Pty E false) ∧ data_const r = Some (Pty E true) ∧ value_type r = Some E.
Definition raw_array (r : range L) : Prop :=
  ∃ E c, data_mut r = Some (Pty E c) ∧ data_const r = (if c then Some (Pty E true) else None) ∧ value_type r = None.
Theorem C75_deduced_partial a :
  lang_ok → owner (rng a) ∨ (raw_array (rng a) ∧ is_const a = false) →
  match data_type a with
  | Some p => ∃ v, construct_deduced a = Some (p, v) ∧ views p v a
  | None => construct_deduced a = None
  end.
Proof.
  intros HL Ho. assert (Hr : range_ok (rng a)).
  { unfold range_ok. destruct Ho as [(E & -> & -> & _)|[(E & c & -> & -> & _) _]]; [done|by destruct c]. }
  assert (Hd : deduced a = data_type a).
  { unfold deduced, data_type. destruct Ho as [(E & -> & -> & ->)|[(E & c & -> & -> & ->) ->]].
    - by destruct (is_const a), (cat a).
    - done. }
  unfold construct_deduced. rewrite Hd. destruct (data_type a) as [p|] eqn:Hp; [|done].
  destruct (C75_accepted p a p HL Hr Hp eq_refl (λ H, H)) as [v Hv]. rewrite Hv. exists v. split; [done|].
  eapply C75_view_partial; [done|done| |done]. pose proof (data_body a Hr) as Hb. rewrite Hp in Hb.
  destruct Hb as (q & Hq & -> & _). unfold elem_type. by rewrite Hq.
Qed.
(** a variable that is a view of const elements (string_ref, std::string_view, ...) is rejected *)
Theorem C75_deduced_refuted a E :
  data_mut (rng a) = Some (Pty E true) → value_type (rng a) = Some E → is_const a = false → cat a = LValue →
  is_Some (construct (Pty E true) a) ∧ construct_deduced a = None.
Proof.
  intros Hm Hv Hc Hl. unfold construct_deduced, deduced, construct, is_compatible_range, data_type, body_type, pointer_conversion.
  rewrite Hv, Hc, Hl, Hm. cbn. rewrite decide_True by done. split; [by eexists|done].
Qed.
End props.

(** ** Examples: 0 int (4 bytes), 1 a class of 8 bytes, 2 a class of 24 bytes derived from it *)
Definition sizes (c : nat) : Z := match c with 0%nat => 4 | 1%nat => 8 | _ => 24 end.
Definition bases (d b : nat) : option Z := match d, b with 2%nat, 1%nat => Some 0 | _, _ => None end.
Definition small : ViewLang := {| cls := nat; size_of := sizes; base := bases |}.
Lemma small_ok : @lang_ok small.
Proof. split; [intros [|[|c]]; done|by intros [|[|[|c]]]]. Qed.
Definition vec (E : nat) : range small :=
  @Range small (Some (@Pty small E false)) (Some (@Pty small E true)) (Some E) 1000 3.
Definition view (E : nat) : range small :=
  @Range small (Some (@Pty small E true)) (Some (@Pty small E true)) (Some E) 1000 3.
Example C75_case :
  let ints c := @Pty small 0%nat c in
  @construct small (ints false) (@Arg small (vec 0) false LValue) = Some (1000, 1012) ∧
  @construct small (ints true) (@Arg small (vec 0) true LValue) = Some (1000, 1012) ∧
  @construct small (ints false) (@Arg small (vec 0) true LValue) = None ∧
  @construct small (ints false) (@Arg small (vec 0) false RValue) = None ∧
  @construct small (ints true) (@Arg small (vec 0) false RValue) = Some (1000, 1012) ∧
  @construct small (@Pty small 1%nat false) (@Arg small (vec 0) false LValue) = None ∧
  (λ i, @view_elem small (ints false) (1000, 1012) i) <$> [0%nat; 1%nat; 2%nat] = [1000; 1004; 1008].
Proof. by vm_compute. Qed.
Example C75_hypotheses_case : @range_ok small (vec 0) ∧ @owner small (vec 0) ∧ @elem_type small (@Arg small (vec 0) false LValue) = Some 0%nat.
Proof. split; [done|]. split; [by exists 0%nat|done]. Qed.
(** three objects of the derived class at 1000, 1024 and 1048 are seen at 1000, 1008 and 1016 *)
Example C75_derived_case :
  let T := @Pty small 1%nat false in let a := @Arg small (vec 2) false LValue in
  @construct small T a = Some (1000, 1024) ∧
  (λ i, (@view_elem small T (1000, 1024) i, @elem_addr small a 2%nat i)) <$> [0%nat; 1%nat; 2%nat]
    = [(1000, 1000); (1008, 1024); (1016, 1048)].
Proof. by vm_compute. Qed.
Example C75_deduced_case :
  @construct_deduced small (@Arg small (vec 0) false LValue) = Some (@Pty small 0%nat false, (1000, 1012)) ∧
  @construct_deduced small (@Arg small (vec 0) true LValue) = Some (@Pty small 0%nat true, (1000, 1012)) ∧
  @construct_deduced small (@Arg small (view 0) true LValue) = Some (@Pty small 0%nat true, (1000, 1012)) ∧
  @construct_deduced small (@Arg small (view 0) false LValue) = None.
Proof. by vm_compute. Qed.

Print Assumptions C75_construct_behaviour.
Print Assumptions C75_const_correct.
Print Assumptions C75_view_partial.
Print Assumptions C75_accepted.
Print Assumptions C75_derived_refuted.
Print Assumptions C75_pointer_count_partial.
Print Assumptions C75_literal_zero_refuted.
Print Assumptions C75_pointer_count.
Print Assumptions C75_deduced_partial.
Print Assumptions C75_deduced_refuted.
