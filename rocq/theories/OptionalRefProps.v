(** Property C56: optional_ref, and the part of C46 about optional_ref. *)
From stdpp Require Import prelude gmap.
From Verif Require Import Cpp OptionalRefModel OptionalRefSpec OptionalRefProofs.
Local Open Scope nat_scope.

Section props.
Context `{C : ORefCfg}.

(** ** C56 *)
(** every history inside the contract runs to its end with the results of the same history on
    references to objects, whichever copies fail *)
Theorem C56_optional_ref_is_reference os rs s k :
  srun os init_state 0 = Some (rs, s, k) → ∃ w, orrun os init_world = Finished rs w ∧ shows w s ∧ ncopy w = k.
Proof. intros H. apply (orrun_rep os init_world _ _ _ _ shows_init H). Qed.
(** one more call *)
Theorem C56_optional_ref_call w s o :
  shows w s →
  match sstep o s with
  | Bad => True
  | Done r s' false => ∃ w', orexec o w = Ok r w' ∧ shows w' s' ∧ ncopy w' = ncopy w
  | Done r s' true =>
      ∃ w', ncopy w' = S (ncopy w) ∧ shows w' s ∧
        orexec o w = if copy_fails (ncopy w) then Exn ElementThrow w' else Ok r w'
  | Throws e => orexec o w = Exn e w
  end.
Proof.
  intros H. pose proof (orexec_rep o w s H) as Ho. destruct (sstep o s) as [|r s' [|]|e]; [done| |done|done].
  destruct Ho as [-> Ho]. exists (bump w). split; [done|]. split; [done|]. done.
Qed.
(** built from an object, it refers to that very object: it has a value, -> and * and value()
    yield its address, writes through it are seen at the object and writes to the object
    through it, and no other object changes *)
Theorem C56_refers_to_object w x l :
  is_Some (at_loc l w) →
  ∃ w', or_from_object x l w = Ok tt w' ∧ (∀ l', at_loc l' w' = at_loc l' w) ∧
    or_has_value x w' = Ok true w' ∧ or_arrow x w' = Ok (Some l) w' ∧ or_deref x w' = Ok l w' ∧ or_value x w' = Ok l w' ∧
    (∀ v, ∃ w'', orexec (RStarWrite x v) w' = Ok BUnit w'' ∧ read l w'' = Ok v w'' ∧
        ∀ l', l' ≠ l → at_loc l' w'' = at_loc l' w') ∧
    (∀ v, ∃ w'', write l v w' = Ok tt w'' ∧ orexec (RStarRead x) w'' = Ok (BVal v) w'').
Proof.
  intros [u Hl]. eexists _. unfold or_from_object, noexcept, bind, deref. rewrite Hl. split; [reflexivity|].
  set (w' := set_refs _ w). assert (Hat : ∀ l', at_loc l' w' = at_loc l' w) by by intros [?|?].
  assert (Hg : get_ref x w' = Ok (Some l) w') by (unfold get_ref; cbn [w' refs set_refs]; by rewrite lookup_insert).
  assert (Hb : or_has_value x w' = Ok true w') by (unfold or_has_value, noexcept, bind; by rewrite Hg).
  assert (Hd : or_deref x w' = Ok l w') by (unfold or_deref, noexcept, bind, deref; by rewrite Hg, Hat, Hl).
  assert (Hw : ∀ v, ∃ w'', write l v w' = Ok tt w'' ∧ (∀ l', at_loc l' w'' = if decide (l = l') then Some v else at_loc l' w') ∧ refs w'' = refs w').
  { intros v. unfold write. rewrite Hat, Hl. eexists _. split; [reflexivity|]. destruct l as [a|y].
    - split; [|done]. intros l'. case_decide; subst; [cbn [at_loc objs set_objs]; by rewrite lookup_insert|].
      destruct l' as [b|z]; [|done]. cbn [at_loc objs set_objs]. by rewrite lookup_insert_ne by congruence.
    - split; [|done]. intros l'. case_decide; subst; [cbn [at_loc opts set_opts]; by rewrite lookup_insert|].
      destruct l' as [b|z]; [done|]. cbn [at_loc opts set_opts]. by rewrite lookup_insert_ne by congruence. }
  split; [done|]. split; [done|]. split; [unfold or_arrow, noexcept; by rewrite Hg|]. split; [done|].
  split; [unfold or_value, bind; by rewrite Hb, Hd|]. split.
  - intros v. cbn [orexec]. unfold bind. rewrite Hd. destruct (Hw v) as (w'' & -> & Hv & _). exists w''. split; [done|]. split.
    + unfold read. by rewrite Hv, decide_True.
    + intros l' Hne. rewrite Hv, decide_False; [done|]. by apply not_eq_sym.
  - intros v. destruct (Hw v) as (w'' & -> & Hv & Hr). exists w''. split; [done|]. cbn [orexec]. unfold bind.
    unfold or_deref, noexcept, bind, get_ref. rewrite Hr. cbn [w' refs set_refs]. rewrite lookup_insert.
    assert (at_loc l w'' = Some v) as Hl'' by (by rewrite Hv, decide_True). unfold deref. rewrite Hl''. unfold read. by rewrite Hl''.
Qed.
(** built from an optional, pointer or optional_ref: the same object, or nothing if that is
    empty or null *)
Theorem C56_refers_to_contents w x a l u :
  star a w = Ok l w → to_bool a w = Ok true w → at_loc l w = Some u → or_from x a w = or_from_object x l w.
Proof. intros Hs Hb Hl. unfold or_from, or_from_object, noexcept, bind. rewrite Hb, Hs. unfold deref. by rewrite Hl. Qed.
Theorem C56_empty_sources w x a :
  to_bool a w = Ok false w →
  ∃ w', or_from x a w = Ok tt w' ∧ or_new x w = Ok tt w' ∧ or_has_value x w' = Ok false w' ∧
    or_value x w' = Exn BadOptionalAccess w' ∧ or_arrow x w' = Ok None w' ∧ ∀ l, at_loc l w' = at_loc l w.
Proof.
  intros Hb. eexists _. unfold or_from, or_new, noexcept, bind. rewrite Hb. split; [reflexivity|]. split; [reflexivity|].
  set (w' := set_refs _ w).
  assert (Hg : get_ref x w' = Ok None w') by (unfold get_ref; cbn [w' refs set_refs]; by rewrite lookup_insert).
  unfold or_value, or_has_value, or_arrow, noexcept, bind. rewrite Hg. split; [done|]. split; [done|]. split; [done|]. by intros [?|?].
Qed.
(** what counts as empty *)
Theorem C56_empty_means w a b :
  to_bool a w = Ok b w →
  match a with
  | SOpt y => ∃ o, opts w !! y = Some o ∧ (b = true ↔ is_Some o)
  | SPtr p => ∃ q, ptrs w !! p = Some q ∧ (b = true ↔ is_Some q)
  | SRef z => ∃ q, refs w !! z = Some q ∧ (b = true ↔ is_Some q)
  end.
Proof.
  assert (Hopt : ∀ {A} (o : option A), match o with Some _ => true | None => false end = true ↔ is_Some o).
  { intros A [a'|]; [by split; [eexists|]|]. split; [done|by intros [? ?]]. }
  destruct a as [y|p|z]; cbn [to_bool]; unfold or_has_value, noexcept, bind, get_ref.
  - destruct (opts w !! y) as [o|] eqn:E; [|done]. intros [= <-]. exists o. split; [done|apply Hopt].
  - destruct (ptrs w !! p) as [o|] eqn:E; [|done]. intros [= <-]. exists o. split; [done|apply Hopt].
  - destruct (refs w !! z) as [o|] eqn:E; [|done]. intros [= <-]. exists o. split; [done|apply Hopt].
Qed.
(** copies and assignments make the target refer to the source's object; no object changes *)
Theorem C56_copies_rebind w x z p :
  refs w !! z = Some p →
  (∃ w', or_copy x z w = Ok tt w' ∧ refs w' !! x = Some p ∧ ∀ l, at_loc l w' = at_loc l w) ∧
  (is_Some (refs w !! x) → ∃ w', or_assign x z w = Ok tt w' ∧ refs w' !! x = Some p ∧
     (∀ y, y ≠ x → refs w' !! y = refs w !! y) ∧ ∀ l, at_loc l w' = at_loc l w).
Proof.
  intros Hz. split.
  - unfold or_copy, bind, get_ref. rewrite Hz. eexists _. split; [reflexivity|]. cbn [refs set_refs]. split; [apply lookup_insert|by intros [?|?]].
  - intros [q Hx]. unfold or_assign, bind, get_ref. rewrite Hx, Hz. eexists _. split; [reflexivity|]. cbn [refs set_refs].
    split; [apply lookup_insert|]. split; [|by intros [?|?]]. intros y Hy. by rewrite lookup_insert_ne.
Qed.
(** ** C46 for optional_ref *)
Theorem C46_optional_ref_value w x p :
  refs w !! x = Some p →
  or_has_value x w = Ok (match p with Some _ => true | None => false end) w ∧
  match p with
  | Some l => ∀ v, at_loc l w = Some v → or_value x w = Ok l w
  | None => or_value x w = Exn BadOptionalAccess w
  end.
Proof.
  intros Hx. assert (Hg : get_ref x w = Ok p w) by (unfold get_ref; by rewrite Hx).
  unfold or_value, or_deref, or_has_value, noexcept, bind. rewrite Hg. destruct p as [l|]; [|done].
  split; [done|]. intros v Hl. unfold ret, deref. by rewrite Hg, Hl.
Qed.
Theorem C46_optional_ref_value_or w x p d :
  refs w !! x = Some p →
  match p with
  | Some l => ∀ v, at_loc l w = Some v → or_value_or x d w = copy_value v w
  | None => or_value_or x d w = copy_value d w
  end.
Proof.
  intros Hx. assert (Hg : get_ref x w = Ok p w) by (unfold get_ref; by rewrite Hx).
  unfold or_value_or, or_deref, or_has_value, noexcept, bind. rewrite Hg. destruct p as [l|]; [|done].
  intros v Hl. unfold ret, deref, read. rewrite Hg, Hl. by rewrite Hl.
Qed.
End props.

(** ** Examples: values are natural numbers; the second copy fails *)
Definition orcfg : ORefCfg := {| V := nat; copy_fails := λ k, k =? 1 |}.
Local Existing Instance orcfg.
Definition num (v : nat) : V := v.
Definition one : option V := Some (num 1).
Definition script : list orop :=
  [RNewObj 1 (num 10); RNewObj 2 (num 20); ROptSet 1 one; ROptSet 2 None; RPtrSet 1 (Some (LObj 2)); RPtrSet 2 None;
   RFromObj 1 (LObj 1); RFrom 2 (SOpt 1); RFrom 3 (SOpt 2); RFrom 4 (SPtr 1); RFrom 5 (SPtr 2); RFrom 6 (SRef 2); RNew 7; RCopy 8 4;
   RHas 2; RHas 3; RHas 5; RArrow 6; RStar 8; RValue 3;
   RStarWrite 6 (num 5); RRead (LOpt 1); RStarRead 2; RWrite (LObj 2) (num 21); RStarRead 8;
   RAssign 8 1; RStarRead 8; RStarRead 4; RAssign 1 7; RHas 1; RStarRead 8; RValueOr 4 (num 3); RValueOr 5 (num 3); RValueOr 5 (num 3); RDel 5].
Example C56_optional_ref_is_reference_case :
  (λ p, p.1.1) <$> srun script init_state 0 = Some
    (repeat BUnit 14 ++ [BBool true; BBool false; BBool false; BPtr (Some (LOpt 1)); BRef (LObj 2); BThrew BadOptionalAccess;
     BUnit; BVal (num 5); BVal (num 5); BUnit; BVal (num 21);
     BUnit; BVal (num 10); BVal (num 21); BUnit; BBool false; BVal (num 10); BVal (num 21); BThrew ElementThrow; BVal (num 3); BUnit]).
Proof. by vm_compute. Qed.
(** a world in which the hypotheses of C56_refers_to_object, C56_refers_to_contents,
    C56_empty_sources, C56_copies_rebind and of C46 hold; and one state that it shows *)
Definition small : world :=
  World {[1:=num 10]} {[1:=one; 2:=None]} {[1:=Some (LObj 1); 2:=None]} {[1:=Some (LOpt 1); 2:=None]} 0.
Definition yields {A} (b : A → bool) (r : res world A) : bool := match r with Ok a _ => b a | _ => false end.
Example C56_case :
  is_Some (at_loc (LObj 1) small) ∧ is_Some (at_loc (LOpt 1) small) ∧
  (yields (λ l, bool_decide (LOpt 1 = l)) (star (SOpt 1) small) && yields id (to_bool (SOpt 1) small) &&
   yields (λ l, bool_decide (LObj 1 = l)) (star (SPtr 1) small) && yields id (to_bool (SPtr 1) small) &&
   yields (λ l, bool_decide (LOpt 1 = l)) (star (SRef 1) small) && yields negb (to_bool (SOpt 2) small) &&
   yields negb (to_bool (SPtr 2) small) && yields negb (to_bool (SRef 2) small)) = true.
Proof. split; [by eexists|]. split; [by eexists|]. by vm_compute. Qed.
Example C46_optional_ref_case :
  refs small !! 1 = Some (Some (LOpt 1)) ∧ refs small !! 2 = Some None ∧ at_loc (LOpt 1) small = one.
Proof. by vm_compute. Qed.
(** the object is gone: using the optional_ref is a fault *)
Example C56_dangling_case :
  orrun [ROptSet 1 one; RFrom 1 (SOpt 1); ROptSet 1 None; RHas 1; RStarRead 1] init_world = Faulted DeadObject ∧
  orrun [RNew 1; RStarRead 1] init_world = Faulted NullDeref.
Proof. by vm_compute. Qed.

Print Assumptions C56_optional_ref_is_reference.
Print Assumptions C56_optional_ref_call.
Print Assumptions C56_refers_to_object.
Print Assumptions C56_refers_to_contents.
Print Assumptions C56_empty_sources.
Print Assumptions C56_empty_means.
Print Assumptions C56_copies_rebind.
Print Assumptions C46_optional_ref_value.
Print Assumptions C46_optional_ref_value_or.
