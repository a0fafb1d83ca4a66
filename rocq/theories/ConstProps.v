(** C110: const and value categories along the ways to the parts of an object. *)
From stdpp Require Import prelude.
From Verif Require Import ConstModel ConstSpec ConstPaths.
Local Open Scope nat_scope.

(** no program without casts gets, by accessors, views, pointers and iterators, from a const object to an expression
    that can change one of its parts *)
Theorem C110_const_safe b k T s : steps b (In true k T) s → read_only s.
Proof. intros H. by eapply steps_read_only. Qed.
(** what it gets to are parts of the object, const where the object or a member on the way is *)
Theorem C110_parts b c k T s : steps b (In c k T) s →
  match s with
  | In c' _ U => ∃ e, part e T U ∧ (c || e = true → c' = true)
  | Out _ _ V j => ∃ e U, part e T U ∧ target V j = Some U ∧ (c || e = true → target_const V j = true)
  end.
Proof.
  intros H. assert (of_root c T s) as Hr.
  { eapply steps_root; [exact H|done|]. exists false. split; [apply p_self|unfold adds; by rewrite orb_false_r]. }
  by destruct s.
Qed.
(** and from one that is not const to every part, with the const it is declared with *)
Theorem C110_all_parts e T U c : part e T U → steps false (In c L T) (In (c || e) L U).
Proof. intros H. by apply reach_part. Qed.
(** parts of an lvalue are not offered to be moved from unless the program says so, even through rvalues of views *)
Theorem C110_not_moved c T s : steps false (In c L T) s → ¬ may_be_moved s.
Proof. intros H. by eapply steps_moved. Qed.
(** parts inside an rvalue can be had as rvalues *)
Theorem C110_rvalues e T U c : inside e T U → steps false (In c X T) (In (c || e) X U).
Proof. intros H. by apply reach_inside. Qed.
(** all accessors of an object that contains the parts agree *)
Theorem C110_agree a c k T r : owner T = true → access a c k T = Some r → res_const r 0 = c || member_const T a || c_named a.
Proof. intros Ho H. by apply (owner_access _ _ _ _ _ Ho H). Qed.
(** and can be called on it whether it is const or not, lvalue or not *)
Theorem C110_callable a c k T : members T a ≠ [] → is_Some (access a c k T).
Proof.
  intros H. destruct (access a c k T) as [r|] eqn:E; [eauto|]. exfalso.
  destruct T, a; try done; unfold members, var_members, tup_members, vref_members in H; members E; try done.
Qed.
(** the full claim: the const of a view is not that of what it refers to, in all its accessors. It holds for all but
    the iterators of a const array_ref to elements that are not (cbegin and its like aside, which are const by name) *)
Theorem C110_shallow_partial a c k T j r : owner T = false → looks a T j → access a c k T = Some r → c_named a = false →
  (a = Begin ∨ a = RBegin → c = true → ∀ t, T ≠ ARef false t) → res_const r 0 = target_const T j.
Proof.
  intros Ho Hl H Hn Hb. destruct T, a; try done; cbn [looks] in Hl; subst; members H; try done; injection H as <-;
    cbn [res_const target_const];
    repeat match goal with E : _ !! _ = Some _ |- _ => rewrite E end; try done;
    destruct c; try done; destruct e; try done; exfalso; eapply Hb; eauto.
Qed.
(** a const array_ref lends its elements for writing by index, but not by its iterators *)
Theorem C110_iterators_refuted k t :
  access Index true k (ARef false t) = Some (Ref false L t) ∧
  access Begin true k (ARef false t) = Some (Val (Iter true t)) ∧
  access RBegin true k (ARef false t) = Some (Val (Iter true t)) ∧
  access Begin false k (ARef false t) = Some (Val (Iter false t)).
Proof. by destruct k. Qed.

(** ** Concrete cases *)
(** vector<optional<tuple<Obj 1, const Obj 2>>> *)
Definition deep_type : ty := Vec (Opt (Tup [(false, Obj 1); (true, Obj 2)])).
Example C110_const_safe_case :
  steps false (In true L deep_type) (In true L (Obj 1)) ∧
  steps false (In true L deep_type) (Out false X (ARef true (Opt (Tup [(false, Obj 1); (true, Obj 2)]))) 0).
Proof.
  split.
  - apply (reach_part false). unfold deep_type. apply p_vec, p_opt. change false with (false || false) at 1. eapply p_tup; [left|apply p_self].
  - eapply (s_next false false); [apply s_refl|]. by eapply s_aref_part.
Qed.
(** without const both members can be reached, the second read-only *)
Example C110_parts_case :
  steps false (In false L deep_type) (In false L (Obj 1)) ∧ steps false (In false L deep_type) (In true L (Obj 2)).
Proof.
  split.
  - apply (reach_part false). apply p_vec, p_opt. change false with (false || false) at 1. eapply p_tup; [left|apply p_self].
  - apply (reach_part true). apply p_vec, p_opt. change true with (true || false) at 1. eapply p_tup; [right; left|apply p_self].
Qed.
(** front() of a temporary view *)
Example C110_not_moved_case : steps false (In false L (Vec (Obj 1))) (In false L (Obj 1)) ∧
  step false (In false L (Vec (Obj 1))) (Out false X (ARef false (Obj 1)) 0) ∧ step false (Out false X (ARef false (Obj 1)) 0) (In false L (Obj 1)).
Proof.
  split_and!.
  - eapply (s_next false false); [apply s_refl|]. by eapply (s_part Front).
  - by eapply s_aref_part.
  - by eapply (s_target Front).
Qed.
(** std::move(o).value() of an optional, and std::move(v)[0] of a vector *)
Example C110_rvalues_case :
  access Value false X (Opt (Obj 1)) = Some (Ref false X (Obj 1)) ∧ access Value true X (Opt (Obj 1)) = Some (Ref true X (Obj 1)) ∧
  access Index false X (Vec (Obj 1)) = Some (Ref false L (Obj 1)) ∧ inside true (Arr (Tup [(true, Obj 1)])) (Obj 1).
Proof. split_and!; try done. apply i_arr. change true with (true || false) at 1. eapply i_tup; [left|apply i_self]. Qed.
Example C110_agree_case :
  access Begin true L Str = Some (Val (Iter true char)) ∧ access Begin false L Str = Some (Val (Iter false char)) ∧
  access CBegin false L Str = Some (Val (Iter true char)) ∧ access (Visit 1) false X (Var [Obj 1; Obj 2]) = Some (Ref false X (Obj 2)) ∧
  access (Get 0) false L (Tup [(true, Obj 1)]) = Some (Ref true L (Obj 1)).
Proof. done. Qed.
(** const pointers, optional_ref and variant_ref *)
Example C110_shallow_case :
  access Star true L (Ptr false (Obj 1)) = Some (Ref false L (Obj 1)) ∧ access Value true X (ORef false (Obj 1)) = Some (Ref false L (Obj 1)) ∧
  access (Get 1) true X (VRef [(false, Obj 1); (true, Obj 2)]) = Some (Ref true L (Obj 2)) ∧
  access Data true L (ARef false (Obj 1)) = Some (Val (Ptr false (Obj 1))).
Proof. done. Qed.
Print Assumptions C110_const_safe.
Print Assumptions C110_parts.
Print Assumptions C110_all_parts.
Print Assumptions C110_not_moved.
Print Assumptions C110_rvalues.
Print Assumptions C110_agree.
Print Assumptions C110_callable.
Print Assumptions C110_shallow_partial.
Print Assumptions C110_iterators_refuted.
