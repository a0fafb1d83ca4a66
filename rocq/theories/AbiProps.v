(** C102: layouts under the Itanium and the Microsoft C++ ABI (definitions: AbiModel.v, AbiSpec.v) *)
From stdpp Require Import prelude strings.
From Verif Require Import LayoutModel LayoutSpec LayoutProofs AbiModel AbiSpec AbiProofs.
From Verif Require LayoutProps.
Local Open Scope N_scope.

(** the classes whose layouts are compared are those that C69 is about *)
Theorem C102_classes `{Target} t n m ts :
  erase a_vector = vector_t ∧ erase a_string = string_t ∧ erase a_array_ref = array_ref_t ∧ erase a_string_ref = string_ref_t ∧
  erase a_optional_ref = optional_ref_t ∧ erase a_function_ref = function_ref_t ∧ erase (a_variant_ref m) = variant_ref_t m ∧
  erase (a_bitset n) = bitset_t n ∧ erase (a_optional t) = optional_t (erase t) ∧ erase (a_array t n) = array_t (erase t) n ∧
  erase (a_variant ts) = variant_t (map erase ts) ∧ erase (a_tuple ts) = tuple_t (map erase ts).
Proof. apply erase_library. Qed.

(** Claim: every type of the library has the same binary representation under both. Holds exactly
    if nothing over-aligned is inside a packed class and no tuple ends with something that starts
    with a tuple. *)
Theorem C102_partial `{Target} t : target_ok → proper t → (same_layout (class_of t) ↔ portable t).
Proof. intros Hok Hp. split; [by apply same_portable|]. intros Hport. by apply (portable_good Hok t Hp Hport). Qed.
(** the types that are not made of other types are the same always, and so is all that is
    made of them without tuple and alignas *)
Fixpoint plain (t : lib) : Prop :=
  match t with
  | Base _ _ _ r => r = 1
  | Opt e | Array e _ => plain e
  | Var es => foldr and True (map plain es)
  | Tup _ => False
  | _ => True
  end.
Lemma plain_portable t : plain t → portable t ∧ ¬ overaligned t.
Proof.
  assert (∀ es, foldr and True (map plain es) ↔ Forall plain es) as Hf.
  { intros es. induction es as [|m ms IH]; cbn; [done|]. rewrite IH. by rewrite Forall_cons. }
  induction t as [s a d r| | | | | | |n|n|e IH|es IH|e n IH|es IH] using lib_rect'; cbn [plain portable]; intros Hp;
    try (split; [done|]; inversion 1; subst; done || lia).
  - destruct (IH Hp). split; [done|]. by inversion 1.
  - apply Hf in Hp. rewrite Forall_forall in *. split; [split|].
    + apply portable_Forall, Forall_forall. intros e He. by apply IH; auto.
    + intros e He. by apply IH; auto.
    + inversion 1 as [| |e es' He Ho| |]; subst. by eapply IH; eauto.
  - destruct (IH Hp). split; [done|]. by inversion 1.
Qed.
Theorem C102_plain `{Target} t : target_ok → proper t → plain t → same_layout (class_of t).
Proof. intros Hok Hp Hpl. apply C102_partial; [done|done|]. by apply plain_portable. Qed.

(** false: a tuple whose last component is a tuple, or starts with one, has one byte more under the
    Itanium ABI *)
Theorem C102_tuple_refuted `{Target} es e : target_ok → Forall proper es → Forall portable es → Forall (λ e, ¬ overaligned e) es →
  last es = Some e → starts_with_tuple e →
  sizeof (erase (class_of (Tup es))) = ms_size (ms_lay (class_of (Tup es))) + 1.
Proof. intros Hok. by apply tuple_larger. Qed.
(** false: an optional, variant or tuple that contains an over-aligned object is aligned under the
    Microsoft ABI only *)
Theorem C102_aligned_refuted `{Target} e : target_ok → proper e → overaligned e →
  ∀ t, t = Opt e ∨ (∃ es, t = Var es ∧ e ∈ es ∧ Forall proper es) ∨ (∃ es, t = Tup es ∧ e ∈ es ∧ Forall proper es) →
  alignof (erase (class_of t)) = 1 ∧ 1 < ms_align (ms_lay (class_of t)).
Proof.
  intros Hok Hp Ho t Ht.
  assert (overaligned t) as Hot.
  { destruct Ht as [->|[(es & -> & He & _)|(es & -> & He & _)]]; [by constructor|by econstructor|by econstructor]. }
  assert (∀ nm p b ms, ms_required (ms_lay (ACls nm p b ms)) ≤ ms_align (ms_lay (ACls nm p b ms))) as Hle.
  { intros nm p b ms. apply (finish_required p (foldl (ms_place p) match b with
      | Some b => MsLay (ms_base (ms_lay b)) (N.max 1 (ms_adjusted p (ms_lay b))) (ms_required (ms_lay b)) 0 []
      | None => MsLay 0 1 1 0 [] end (map ms_lay ms))). }
  split.
  - destruct Ht as [->|[(es & -> & He & Hes)|(es & -> & He & Hes)]]; cbn [class_of].
    + apply (optional_lay (erase (class_of e))). by apply (class_wf Hok).
    + cbn [a_variant erase map]. rewrite erase_variant_storage. apply variant_lay. by apply (classes_wf Hok).
    + cbn [a_tuple erase map]. rewrite erase_tuple_storage. apply tuple_lay. by apply (classes_wf Hok).
  - apply required_iff in Hot. destruct Ht as [->|[(es & -> & _)|(es & -> & _)]]; cbn [class_of] in *.
    + specialize (Hle "optional" (Some 1) None [AUni (Some 1) [class_of e]; a_uchar]). fold (a_optional (class_of e)) in Hle. lia.
    + specialize (Hle "variant" (Some 1) None [a_variant_storage (map class_of es); a_uchar]). fold (a_variant (map class_of es)) in Hle. lia.
    + specialize (Hle "tuple" None None [a_tuple_storage (map class_of es)]). fold (a_tuple (map class_of es)) in Hle. lia.
Qed.

(** int, double, char and a 16 byte type declared with alignas(16) *)
Definition Int : lib := Base 4 4 true 1.
Definition Double : lib := Base 8 8 true 1.
Definition Char : lib := Base 1 1 true 1.
Definition Vec4 : lib := Base 16 16 true 16.
Lemma bases_proper : proper Int ∧ proper Double ∧ proper Char ∧ proper Vec4.
Proof.
  assert (∀ k, pow2 (2 ^ k)) as Hpow by by intros k; exists k.
  pose proof (Hpow 0). pose proof (Hpow 2). pose proof (Hpow 3). pose proof (Hpow 4). cbn in *.
  pose proof N.divide_refl. split_and!; done.
Qed.
Ltac not_over := repeat match goal with
  | H : _ ∈ _ :: _ |- _ => apply elem_of_cons in H as [->|H]
  | H : _ ∈ [] |- _ => by apply elem_of_nil in H
  end; rewrite <-(@required_iff LayoutProps.x86_64); by vm_compute.
Ltac not_start := unfold Int, Double, Char; by inversion 1.
(** optional<variant<array<int, 3>, string, tuple<double, char>>> and tuple<tuple<int>, vector> *)
Example C102_partial_case :
  let t := Opt (Var [Array Int 3; Str; Tup [Double; Char]]) in let u := Tup [Tup [Int]; Vec] in
  @target_ok LayoutProps.x86_64 ∧ proper t ∧ portable t ∧ proper u ∧ portable u ∧
  sizeof (erase (@class_of LayoutProps.x86_64 t)) = 34 ∧ ms_size (ms_lay (@class_of LayoutProps.x86_64 t)) = 34 ∧
  sizeof (erase (@class_of LayoutProps.x86_64 u)) = 36 ∧ ms_size (ms_lay (@class_of LayoutProps.x86_64 u)) = 36.
Proof.
  destruct bases_proper as (? & ? & ? & _). intros t u. split; [apply LayoutProps.x86_64_ok|].
  assert (portable t) as Ht.
  { cbn [t portable map foldr]. split; [|not_over]. split; [|intros e He; not_over]. split_and!; try done.
    - intros e He. not_over.
    - intros e [= <-]. not_start. }
  assert (portable u) as Hu.
  { cbn [u portable map foldr]. split_and!; try done.
    - intros e He. not_over.
    - intros e [= <-]. not_start.
    - intros e He. not_over.
    - intros e [= <-]. not_start. }
  split_and!; try done. all: by vm_compute.
Qed.
(** tuple<int, tuple<double>>: 13 and 12 bytes; the other order is fine *)
Example C102_tuple_refuted_case :
  let t := Tup [Int; Tup [Double]] in
  Forall proper [Int; Tup [Double]] ∧ Forall portable [Int; Tup [Double]] ∧ Forall (λ e, ¬ overaligned e) [Int; Tup [Double]] ∧
  starts_with_tuple (Tup [Double]) ∧ ¬ same_layout (@class_of LayoutProps.x86_64 t) ∧
  sizeof (erase (@class_of LayoutProps.x86_64 t)) = 13 ∧ ms_size (ms_lay (@class_of LayoutProps.x86_64 t)) = 12.
Proof.
  destruct bases_proper as (? & ? & ? & _). intros t. assert (portable (Tup [Double])) as Hd.
  { cbn [portable map foldr]. split_and!; try done.
    - intros e He. not_over.
    - intros e [= <-]. not_start. }
  split_and!.
  - repeat apply Forall_cons_2; done.
  - repeat apply Forall_cons_2; done.
  - repeat apply Forall_cons_2; try done; not_over.
  - constructor.
  - intros (E & _). vm_compute in E. done.
  - by vm_compute.
  - by vm_compute.
Qed.
(** optional<Vec4>: 17 bytes and 32 bytes *)
Example C102_aligned_refuted_case :
  proper Vec4 ∧ overaligned Vec4 ∧ sizeof (erase (@class_of LayoutProps.x86_64 (Opt Vec4))) = 17 ∧
  ms_size (ms_lay (@class_of LayoutProps.x86_64 (Opt Vec4))) = 32.
Proof. split_and!; [apply bases_proper|by constructor|by vm_compute|by vm_compute]. Qed.
Example C102_plain_case : let t := Array (Var [Opt Vec; FRef; VRef 2; Bits 9]) 5 in proper t ∧ plain t.
Proof. cbn. split_and!; done. Qed.

Print Assumptions C102_classes.
Print Assumptions C102_partial.
Print Assumptions C102_plain.
Print Assumptions C102_tuple_refuted.
Print Assumptions C102_aligned_refuted.
