(** C103: the headers can be included alone, in any order, more than once and in several translation units. *)
From stdpp Require Import prelude strings.
From Verif Require Import HeaderModel HeaderSpec HeaderProofs.

(** What compiles, whatever packing the program has set before and whatever it includes in which order: that
    where everything a header leaves to others is there before it. The claim is that everything compiles. *)
Theorem C103_partial ps tu : is_Some (compile ps tu) ↔ prepared tu.
Proof. exact (proj1 (compile_spec ps tu [] _ (inv_start ps))). Qed.
(** Of the twelve headers one is sure to compile alone. *)
Theorem C103_alone_refuted ps h : is_Some (compile ps [Ptl h]) ↔ h = p_array_ref.
Proof.
  rewrite C103_partial. split.
  - intros P. specialize (P [] h [] eq_refl (not_elem_of_nil _)).
    assert (missing h = []) as M.
    { destruct (missing h) as [|[n s] l]; [done|]. destruct (P n s) as (s' & B & _); [left|]. exfalso.
      destruct B as [[]%elem_of_nil|(h' & []%elem_of_nil & _)]. }
    clear P. destruct h; done.
  - intros -> pre h0 post E _ n s J. destruct pre as [|d pre]; [|by destruct pre]. injection E as <- _. by apply elem_of_nil in J.
Qed.
(** With everything that is missing in front, all of them in all orders. *)
Theorem C103_enough ps pre tu : (∀ d, d ∈ pre → ∃ s, d = Std s) →
  (∀ h n s, Ptl h ∈ tu → (n, s) ∈ missing h → Std s ∈ pre) → is_Some (compile ps (pre ++ tu)).
Proof.
  intros St Mi. apply C103_partial. intros pre' h post E N n s J.
  assert (Ptl h ∈ tu ∧ ∃ l, pre' = pre ++ l) as [I (l & ->)].
  { revert pre' E N. clear Mi J. induction pre as [|d pre IH]; intros pre' E N.
    - cbn [app] in E. split; [rewrite E; apply elem_of_app; right; left|by exists pre'].
    - destruct pre' as [|d' pre']; cbn [app] in E; injection E as E1 E2.
      + destruct (St d) as [s' ->]; [left|]. done.
      + subst d'. destruct (IH (λ x I, St x (elem_of_list_further _ _ _ I)) pre' E2) as (I & l & ->).
        * intros I. apply N. by right.
        * split; [done|]. by exists l. }
  exists s. split.
  - left. apply elem_of_app. left. by eapply Mi.
  - clear -J. revert J. destruct h; cbn [missing]; intros J; repeat (apply elem_of_cons in J as [[= -> ->]|J]; [apply (bool_decide_unpack _); by vm_compute|]); by apply elem_of_nil in J.
Qed.
(** A header that is included again changes nothing. *)
Theorem C103_again ps tu st h : compile ps tu = Some st → Ptl h ∈ tu → compile ps (tu ++ [Ptl h]) = Some st.
Proof.
  intros E I. unfold compile in *. rewrite compile_from_app, E. cbn [compile_from].
  by rewrite (proj1 (include_seen _ _ _ _ (compile_inv _ _ _ E) I)).
Qed.
(** The packing of the program is what it was, and every class has its own, wherever it is included. *)
Theorem C103_packing ps tu st : compile ps tu = Some st → packs st = ps ∧ ∀ d, d ∈ defs st → d_pack d = packing ps (d_name d).
Proof.
  intros I%compile_inv. split; [apply I|]. intros d J. apply (inv_defs _ _ _ I) in J as (h & _ & J).
  pose proof (header_packing h ps) as F. rewrite Forall_forall in F. by apply F.
Qed.
(** What is defined depends on which headers are included and not on the order. *)
Theorem C103_order ps tu tu' st st' : compile ps tu = Some st → compile ps tu' = Some st' → (∀ h, Ptl h ∈ tu ↔ Ptl h ∈ tu') → defs st ≡ₚ defs st'.
Proof.
  intros A%compile_inv B%compile_inv E. apply NoDup_Permutation.
  - eapply NoDup_fmap_1, A.
  - eapply NoDup_fmap_1, B.
  - intros d. rewrite (inv_defs _ _ _ A), (inv_defs _ _ _ B). split; intros (h & I & J); exists h; (split; [|done]); by apply E.
Qed.
(** But whether it compiles depends on the order. *)
Theorem C103_order_refuted : ∃ a b, ∀ ps, is_Some (compile ps [a; b]) ∧ compile ps [b; a] = None.
Proof.
  exists (Ptl p_array_ref), (Ptl p_tuple). intros ps. split; [|by vm_compute]. by vm_compute; eexists.
Qed.
(** Which translation units make a program: those of which at most one includes variant.hpp. *)
Theorem C103_program_partial ps tus sts : Forall2 (λ tu st, compile ps tu = Some st) tus sts →
  links sts ↔ ∀ i j a b, i ≠ j → tus !! i = Some a → tus !! j = Some b → ¬ (Ptl p_variant ∈ a ∧ Ptl p_variant ∈ b).
Proof.
  intros F. split.
  - intros L i j a b N I J. destruct (Forall2_lookup_l _ _ _ _ _ F I) as (a' & I' & Ea). destruct (Forall2_lookup_l _ _ _ _ _ F J) as (b' & J' & Eb).
    rewrite <- (consistent_iff _ _ _ _ _ Ea Eb). by apply (L i j).
  - intros H i j a b N I J. destruct (Forall2_lookup_r _ _ _ _ _ F I) as (a' & I' & Ea). destruct (Forall2_lookup_r _ _ _ _ _ F J) as (b' & J' & Eb).
    rewrite (consistent_iff _ _ _ _ _ Ea Eb). by apply (H i j).
Qed.
(** variant.hpp in two translation units: the members of the class name a function template with internal
    linkage, variant.hpp:95 and 251, so that the two definitions of the class are not the same. *)
Theorem C103_variant_refuted ps a b sta stb : compile ps a = Some sta → compile ps b = Some stb → Ptl p_variant ∈ a → Ptl p_variant ∈ b → ¬ links [sta; stb].
Proof.
  intros A B I J L. assert (Forall2 (λ tu st, compile ps tu = Some st) [a; b] [sta; stb]) as F by (repeat constructor; done).
  by apply (proj1 (C103_program_partial _ _ _ F) L 0 1 a b).
Qed.
(** It is the only one: every other definition may be in several translation units and names nothing that has
    internal linkage. *)
Theorem C103_blame_partial ps tu st d : compile ps tu = Some st → d ∈ defs st → internal (d_kind d) = false →
  repeatable (d_kind d) = true ∧ ∀ e, e ∈ defs st → d_name e ∈ d_names d → internal (d_kind e) = true →
    d_name d = "variant<Head, Tail...>" ∧ d_name e = "internal_variant::determine_type".
Proof.
  intros I%compile_inv J K. apply (inv_defs _ _ _ I) in J as (h & _ & J). destruct (blamed_spec _ _ _ J K) as [H1 H2]. split; [done|].
  intros e L M N. apply (inv_defs _ _ _ I) in L as (h' & _ & L). pose proof (H2 _ _ L M N) as C. unfold culprit in C. by apply bool_decide_eq_true in C.
Qed.

(** ** Cases *)
(** the headers of the standard library that the headers of the library leave to others *)
Definition basics : list directive :=
  Std <$> [h_cstddef; h_cstdlib; h_exception; h_functional; h_ios; h_iterator; h_memory; h_new; h_ostream; h_stdexcept; h_type_traits; h_utility].
Lemma basics_enough h n s : (n, s) ∈ missing h → Std s ∈ basics.
Proof.
  destruct h; cbn [missing]; intros J; repeat (apply elem_of_cons in J as [[= -> ->]|J]; [apply (bool_decide_unpack _); by vm_compute|]); by apply elem_of_nil in J.
Qed.
Example C103_all_case ps tu : is_Some (compile ps (basics ++ (Ptl <$> tu))).
Proof.
  apply C103_enough.
  - intros d I. apply elem_of_list_fmap in I as (s & -> & _). by exists s.
  - intros h n s _. apply basics_enough.
Qed.
(** tuple.hpp alone: std::forward, swap, move, tuple_size and tuple_element are not declared *)
Example C103_tuple_case : compile [] [Ptl p_tuple] = None ∧ is_Some (compile [] [Std h_utility; Ptl p_tuple]).
Proof. split; [by vm_compute|by vm_compute; eexists]. Qed.
(** string.hpp after string_ref.hpp is without std::swap and std::ostream all the same *)
Example C103_string_case : compile [] [Ptl p_string_ref; Ptl p_string] = None ∧ compile [] [Std h_utility; Std h_iterator; Ptl p_string_ref; Ptl p_string] = None
  ∧ is_Some (compile [] [Std h_utility; Std h_iterator; Std h_ostream; Std h_type_traits; Ptl p_string_ref; Ptl p_string]).
Proof. split_and!; [by vm_compute..|by vm_compute; eexists]. Qed.
(** in a program that packs by 4 the class variant is packed by 1 and the class array by 4, and 4 is in force after *)
Example C103_packing_case : ∃ st, compile [4%N] (basics ++ [Ptl p_variant; Ptl p_array; Ptl p_variant]) = Some st ∧ packs st = [4%N]
  ∧ (∃ d, d ∈ defs st ∧ d_name d = "variant<Head, Tail...>" ∧ d_pack d = Some 1%N) ∧ (∃ d, d ∈ defs st ∧ d_name d = "array" ∧ d_pack d = Some 4%N).
Proof.
  destruct (compile [4%N] (basics ++ [Ptl p_variant; Ptl p_array; Ptl p_variant])) as [st|] eqn:E; [|by vm_compute in E].
  exists st. pose proof (compile_inv _ _ _ E) as I. destruct (C103_packing _ _ _ E) as [P Q]. split_and!; [done|done|..].
  - exists (nth 15 (defs_of p_variant [4%N]) (MkDef "" Plain [] None)). split_and!; [|by vm_compute..].
    apply (inv_defs _ _ _ I). exists p_variant. split; [apply (bool_decide_unpack _); by vm_compute|]. apply elem_of_list_In, nth_In. vm_compute. lia.
  - exists (nth 3 (defs_of p_array [4%N]) (MkDef "" Plain [] None)). split_and!; [|by vm_compute..].
    apply (inv_defs _ _ _ I). exists p_array. split; [apply (bool_decide_unpack _); by vm_compute|]. apply elem_of_list_In, nth_In. vm_compute. lia.
Qed.
(** vector.hpp in two translation units and variant.hpp in one of them make a program; variant.hpp in both does not *)
Example C103_program_case ps : ∃ a b c, compile ps (basics ++ [Ptl p_vector; Ptl p_variant]) = Some a ∧ compile ps (basics ++ [Ptl p_string; Ptl p_vector]) = Some b
  ∧ compile ps (basics ++ [Ptl p_variant]) = Some c ∧ links [a; b] ∧ ¬ links [a; b; c].
Proof.
  destruct (C103_all_case ps [p_vector; p_variant]) as [a A]. destruct (C103_all_case ps [p_string; p_vector]) as [b B]. destruct (C103_all_case ps [p_variant]) as [c C].
  exists a, b, c. split_and!; [done..| |].
  - assert (Forall2 (λ tu st, compile ps tu = Some st) [_; _] [a; b]) as F by (repeat constructor; [exact A|exact B]).
    apply (C103_program_partial _ _ _ F). intros i j x y N I J.
    assert (Ptl p_variant ∉ basics ++ (Ptl <$> [p_string; p_vector])) as V by (apply (bool_decide_unpack _); by vm_compute).
    destruct i as [|[|i]], j as [|[|j]]; try discriminate I; try discriminate J; try (exfalso; apply N; reflexivity).
    + injection J as <-. intros [_ K]. exact (V K).
    + injection I as <-. intros [K _]. exact (V K).
  - intros L. apply (C103_variant_refuted ps _ _ a c A C); [apply (bool_decide_unpack _); by vm_compute..|].
    intros i j x y N I J. destruct i as [|[|i]], j as [|[|j]]; try discriminate I; try discriminate J; try (exfalso; apply N; reflexivity).
    + injection I as <-. injection J as <-. exact (L 0 2 a c ltac:(discriminate) eq_refl eq_refl).
    + injection I as <-. injection J as <-. exact (L 2 0 c a ltac:(discriminate) eq_refl eq_refl).
Qed.

Print Assumptions C103_partial.
Print Assumptions C103_alone_refuted.
Print Assumptions C103_enough.
Print Assumptions C103_again.
Print Assumptions C103_packing.
Print Assumptions C103_order.
Print Assumptions C103_order_refuted.
Print Assumptions C103_program_partial.
Print Assumptions C103_variant_refuted.
Print Assumptions C103_blame_partial.
