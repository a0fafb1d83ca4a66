(** Property C55: variant_ref, and the part of C54 about variant_ref. *)
From stdpp Require Import prelude gmap.
From Coq Require Import ZArith Lia.
From Verif Require Import Cpp VariantRefModel VariantRefSpec VariantRefProofs.
From Verif Require Import VariantSpec.
From Verif Require Import VariantRefModel VariantRefSpec.
Local Open Scope nat_scope.

(** ** C54 for variant_ref; lists may be of any length *)
Theorem C54_ref_determine_index T l :
  (∀ i, at_position T l i → ref_determine_index T l 0 = Z.of_nat i) ∧
  (T ∈ l → ∃ i, at_position T l i) ∧
  (T ∉ l → ref_determine_index T l 0 = (-1)%Z).
Proof.
  split; [|split].
  - intros i Hi. rewrite ref_determine_index_from. apply VariantProofs.find_position in Hi. rewrite Hi. lia.
  - intros H. destruct (ref_index_in _ _ H) as (j & Hj & _). by exists j.
  - apply ref_index_out.
Qed.
Theorem C54_ref_validate_unique l : ref_validate_unique l = true ↔ NoDup l.
Proof. apply ref_validate_unique_nodup. Qed.

Section props.
Context `{C : VRefCfg}.

(** ** C55 *)
(** every history inside the contract runs to its end with the results of the same history on
    pairs of an alternative and an object *)
Theorem C55_variant_ref_is_reference os rs s :
  srun os init_state = Some (rs, s) → ∃ w, vrrun os init_world = Finished rs w ∧ shows w s.
Proof.
  intros H. apply vrrun_rep in H as [H Hwf]; [|apply wf_init]. rewrite rep_init in H. exists (rep s).
  split; [done|by apply rep_shows].
Qed.
(** one more call *)
Theorem C55_variant_ref_call w s o :
  reachable w s →
  match sstep o s with
  | Bad => True
  | Done r s' => ∃ w', vrexec o w = Ok r w' ∧ shows w' s'
  | Throws e => vrexec o w = Exn e w
  end.
Proof.
  intros H. apply reachable_rep in H as [-> Hwf]. pose proof (vrexec_rep o s Hwf) as Ho.
  destruct (sstep o s) as [|r s'|e]; [done| |done]. destruct Ho as [Ho Hwf']. exists (rep s'). split; [done|by apply rep_shows].
Qed.
(** what the constructor binds to: the very object given, as its own type for lvalues if that
    is listed, otherwise as const; visit, get and get_if then all yield that object *)
Theorem C55_bind w s x (lv c : bool) a (T : ty) v :
  reachable w s → s_refs s !! x = None → s_objs s !! a = Some (T, v) →
  let E := if c then add_const T else T in
  match vr_bind x lv c a w with
  | Ok _ w' =>
      ∃ U, U ∈ alts ∧ (lv = true ∧ U = E ∨ (lv = false ∨ E ∉ alts) ∧ U = add_const E) ∧
        (∀ U', U' ∈ alts → vr_holds x U' w' = Ok (bool_decide (U' = U)) w') ∧
        vr_get_if x U w' = Ok (Some a) w' ∧ vr_get x U w' = Ok a w' ∧
        ∀ f, ∃ w'', vr_visit x f w' = Ok tt w'' ∧ visits w'' = visits w' ++ [(U, a, v)] ∧
          ob_val <$> objs w'' !! a = Some (if t_const U then v else f U v) ∧
          ∀ b, b ≠ a → objs w'' !! b = objs w' !! b
  | Stuck f => f = Precondition ∧ (lv = true → E ∉ alts) ∧ add_const E ∉ alts
  | _ => False
  end.
Proof.
  intros H Hx Ha E. apply reachable_rep in H as [-> Hwf].
  pose proof (vrexec_rep (RBind x lv c a) s Hwf) as Ho. cbn [sstep vrexec] in Ho. rewrite Hx, Ha in Ho. fold E in Ho.
  destruct (sbind lv E) as [U|] eqn:EU.
  - destruct Ho as [Ho Hwf']. unfold bind in Ho. destruct (vr_bind x lv c a (rep s)) as [[] w'|e w'|f|]; try done.
    unfold ret in Ho. injection Ho as ->. set (s' := set_srefs s (<[x:=(U, a)]> (s_refs s))) in *.
    assert (HU : U ∈ alts) by by eapply sbind_in. exists U. split; [done|]. split.
    { unfold sbind in EU. case_decide as H1; [destruct H1 as [-> H1]; injection EU as <-; by left|].
      case_decide; [|done]. injection EU as <-. right. split; [|done]. destruct lv; [right; naive_solver|by left]. }
    assert (Hs' : s_refs s' !! x = Some (U, a)) by apply lookup_insert.
    assert (Hu : usable s' U a = true).
    { unfold usable. cbn [s' s_objs set_srefs]. rewrite Ha. unfold sbind in EU.
      assert (Hi : t_id U = t_id T ∧ (t_const U = true ∨ t_const T = false)).
      { unfold E in EU. repeat case_decide; try done; injection EU as <-; destruct c; cbn [add_const t_id t_const]; try tauto.
        destruct T as [[] ?]; cbn; tauto. }
      destruct Hi as [-> Hi]. rewrite Nat.eqb_refl. destruct (t_const U), (t_const T); cbn; naive_solver. }
    pose proof (rep_shows _ Hwf') as (_ & Hr & _). specialize (Hr x). rewrite Hs' in Hr. destruct Hr as [_ Hr].
    split; [intros; by apply Hr|]. split; [rewrite (proj2 (Hr U HU)); by rewrite decide_True|]. split.
    + pose proof (vrexec_rep (RGet x U) s' Hwf') as Hg. cbn [sstep vrexec] in Hg. rewrite Hs', decide_True, decide_True, Hu in Hg by done.
      destruct Hg as [Hg _]. unfold bind in Hg. destruct (vr_get x U (rep s')) as [? ?|? ?|?|]; try done. unfold ret in Hg. by injection Hg as -> ->.
    + intros f. pose proof (vrexec_rep (RVisit x f) s' Hwf') as Hg. cbn [sstep vrexec] in Hg.
      rewrite Hs', Hu in Hg. cbn [s' s_objs set_srefs] in Hg. rewrite Ha in Hg. destruct Hg as [Hg _]. unfold bind in Hg.
      destruct (vr_visit x f (rep s')) as [[] w''|? ?|?|]; try done. unfold ret in Hg. injection Hg as ->.
      eexists _. split; [reflexivity|]. split; [done|]. unfold rep. cbn [objs s_objs s' set_srefs]. split.
      * rewrite !lookup_fmap. destruct (t_const U); [by rewrite Ha|by rewrite lookup_insert].
      * intros b Hb. rewrite !lookup_fmap. destruct (t_const U); [done|by rewrite lookup_insert_ne].
  - clear Ho. unfold vr_bind, rep. cbn [objs]. rewrite lookup_fmap, Ha. cbn [fmap option_fmap option_map obj ob_ty fst].
    assert (Ty (c || t_const T) (t_id T) = E) as -> by (unfold E; destruct c, T; done).
    rewrite bind_index_spec, EU. cbn [fmap option_fmap option_map]. unfold sbind in EU. repeat case_decide; try done. naive_solver.
Qed.
(** an rvalue or a const object never binds to a mutable alternative *)
Theorem C55_no_mutable_binding lv T id :
  bind_index lv T = Some id → lv = false ∨ t_const T = true →
  ∃ U, alts !! Z.to_nat id = Some U ∧ t_const U = true ∧ t_id U = t_id T.
Proof.
  rewrite bind_index_spec. intros H Hor. destruct (sbind lv T) as [U|] eqn:EU; [|done]. injection H as <-.
  destruct (index_in U (sbind_in _ _ _ EU)) as [_ HU]. exists U. split; [done|].
  unfold sbind in EU. repeat case_decide; try done; injection EU as <-; [|done]. naive_solver.
Qed.
(** as long as no object is destroyed, every variant_ref stays usable: no call makes one refer
    to a missing object, to one of another type, or to a const object as mutable *)
Definition all_usable (s : state) : Prop := ∀ x T a, s_refs s !! x = Some (T, a) → usable s T a = true.
Theorem C55_stays_usable os s rs s' :
  all_usable s → (∀ a, RDelObj a ∉ os) → srun os s = Some (rs, s') → all_usable s'.
Proof.
  assert (Hstep : ∀ o s r s', all_usable s → (∀ a, o ≠ RDelObj a) → sstep o s = Done r s' → all_usable s').
  { clear. intros o s r s' Hs Ho H x T a Hx. destruct o as [b U v|b v|b|b|y lv c b|y z|y z|y|y U|y U|y U|y f]; cbn [sstep] in H.
    - destruct (s_objs s !! b) eqn:E; [done|]. injection H as _ <-. cbn [s_refs set_sobjs] in Hx. specialize (Hs _ _ _ Hx).
      revert Hs. unfold usable. cbn [s_objs set_sobjs]. destruct (decide (b = a)) as [->|]; [by rewrite E|by rewrite lookup_insert_ne].
    - destruct (s_objs s !! b) as [[U u]|] eqn:E; [|done]. destruct (t_const U) eqn:EU; [done|]. injection H as _ <-. cbn [s_refs set_sobjs] in Hx.
      specialize (Hs _ _ _ Hx). revert Hs. unfold usable. cbn [s_objs set_sobjs].
      destruct (decide (b = a)) as [->|]; [by rewrite E, lookup_insert|by rewrite lookup_insert_ne].
    - destruct (s_objs s !! b) as [[U u]|] eqn:E; [|done]. injection H as _ <-. by apply (Hs _ _ _ Hx).
    - by destruct (Ho b).
    - destruct (s_refs s !! y) eqn:Ey; [done|]. destruct (s_objs s !! b) as [[U u]|] eqn:E; [|done].
      destruct (sbind lv (if c then add_const U else U)) as [W|] eqn:EW; [|done]. injection H as _ <-. cbn [s_refs set_srefs] in Hx.
      destruct (decide (y = x)) as [->|]; [|rewrite lookup_insert_ne in Hx by done; by apply (Hs _ _ _ Hx)].
      rewrite lookup_insert in Hx. injection Hx as -> ->. unfold usable. cbn [s_objs set_srefs]. rewrite E.
      assert (Hi : t_id T = t_id U ∧ (t_const T = true ∨ t_const U = false)).
      { unfold sbind in EW. repeat case_decide; try done; injection EW as <-; destruct c; cbn [add_const t_id t_const]; try tauto.
        destruct U as [[] ?]; cbn; tauto. }
      destruct Hi as [-> Hi]. rewrite Nat.eqb_refl. destruct (t_const U), (t_const T); cbn; naive_solver.
    - destruct (s_refs s !! y) eqn:Ey; [done|]. destruct (s_refs s !! z) as [[U b]|] eqn:Ez; [|done].
      destruct (usable s U b) eqn:Hu; [|done]. injection H as _ <-. cbn [s_refs set_srefs] in Hx.
      destruct (decide (y = x)) as [->|]; [|rewrite lookup_insert_ne in Hx by done; by apply (Hs _ _ _ Hx)].
      rewrite lookup_insert in Hx. by injection Hx as -> ->.
    - destruct (s_refs s !! y) eqn:Ey; [|done]. destruct (s_refs s !! z) as [[U b]|] eqn:Ez; [|done].
      destruct (usable s U b) eqn:Hu; [|done]. injection H as _ <-. cbn [s_refs set_srefs] in Hx.
      destruct (decide (y = x)) as [->|]; [|rewrite lookup_insert_ne in Hx by done; by apply (Hs _ _ _ Hx)].
      rewrite lookup_insert in Hx. by injection Hx as -> ->.
    - destruct (s_refs s !! y) eqn:Ey; [|done]. injection H as _ <-. cbn [s_refs set_srefs] in Hx.
      apply lookup_delete_Some in Hx as [_ Hx]. by apply (Hs _ _ _ Hx).
    - destruct (s_refs s !! y) as [[? ?]|]; [|done]. case_decide; [|done]. injection H as _ <-. by apply (Hs _ _ _ Hx).
    - destruct (s_refs s !! y) as [[? ?]|]; [|done]. destruct (decide (U ∈ alts)); [|done]. injection H as _ <-. by apply (Hs _ _ _ Hx).
    - destruct (s_refs s !! y) as [[? ?]|]; [|done]. destruct (decide (U ∈ alts)); [|done]. destruct (decide (U = t)); [|done].
      destruct (usable s U n); [|done]. injection H as _ <-. by apply (Hs _ _ _ Hx).
    - destruct (s_refs s !! y) as [[U b]|]; [|done]. destruct (s_objs s !! b) as [[W v]|] eqn:Eb; [|done].
      destruct (usable s U b); [|done]. injection H as _ <-. cbn [s_refs] in Hx. specialize (Hs _ _ _ Hx). revert Hs.
      unfold usable. cbn [s_objs]. destruct (t_const U); [done|].
      destruct (decide (b = a)) as [->|]; [by rewrite Eb, lookup_insert|by rewrite lookup_insert_ne]. }
  revert s rs. induction os as [|o os IH]; intros s rs Hs Hd H; cbn [srun] in H; [by injection H as _ <-|].
  assert (Hd' : ∀ a, RDelObj a ∉ os) by (intros a Ha; apply (Hd a); by right).
  destruct (sstep o s) as [|r s1|e] eqn:E; [done| |].
  - destruct (srun os s1) as [[rs1 s2]|] eqn:E1; [|done]. injection H as _ <-. eapply IH; [|done|done].
    eapply Hstep; [exact Hs| |exact E]. intros a ->. apply (Hd a). by left.
  - destruct (srun os s) as [[rs1 s2]|] eqn:E1; [|done]. injection H as _ <-. by eapply IH.
Qed.
(** so no history without destruction of an object reaches a fault through a variant_ref: every
    reference call on an existing variant_ref, for a listed type, is inside its contract *)
Theorem C55_never_dangles os rs s x T :
  (∀ a, RDelObj a ∉ os) → srun os init_state = Some (rs, s) → is_Some (s_refs s !! x) → T ∈ alts →
  ∃ w, vrrun os init_world = Finished rs w ∧
    (∀ f, ∃ w', vr_visit x f w = Ok tt w') ∧
    ((∃ a, vr_get x T w = Ok a w ∧ is_Some (objs w !! a)) ∨ vr_get x T w = Exn BadVariantAccess w) ∧
    (∀ y, s_refs s !! y = None → ∃ w', vr_copy y x w = Ok tt w').
Proof.
  intros Hd H [[U a] Hx] HT. pose proof H as H0. apply vrrun_rep in H as [H Hwf]; [|apply wf_init]. rewrite rep_init in H.
  exists (rep s). split; [done|]. assert (Hu : usable s U a = true).
  { eapply C55_stays_usable; [|exact Hd|exact H0|exact Hx]. intros y W b Hy. cbn in Hy. by rewrite lookup_empty in Hy. }
  split; [|split].
  - intros f. pose proof (vrexec_rep (RVisit x f) s Hwf) as Hg. cbn [sstep vrexec] in Hg. rewrite Hx, Hu in Hg.
    unfold usable in Hu. destruct (s_objs s !! a) as [[W v]|]; [|done]. destruct Hg as [Hg _]. unfold bind in Hg.
    destruct (vr_visit x f (rep s)) as [[] w''|? ?|?|]; try done. by eexists.
  - pose proof (vrexec_rep (RGet x T) s Hwf) as Hg. cbn [sstep vrexec] in Hg. rewrite Hx, decide_True in Hg by done.
    destruct (decide (T = U)) as [->|].
    + rewrite Hu in Hg. destruct Hg as [Hg _]. left. unfold bind in Hg. destruct (vr_get x U (rep s)) as [? ?|? ?|?|]; try done.
      unfold ret in Hg. injection Hg as -> ->. exists a. split; [done|]. unfold usable in Hu. unfold rep. cbn [objs]. rewrite lookup_fmap.
      by destruct (s_objs s !! a).
    + right. unfold bind in Hg. destruct (vr_get x T (rep s)) as [? ?|? ?|?|]; try done. by injection Hg as -> ->.
  - intros y Hy. pose proof (vrexec_rep (RCopy y x) s Hwf) as Hg. cbn [sstep vrexec] in Hg. rewrite Hx, Hy, Hu in Hg.
    destruct Hg as [Hg _]. unfold bind in Hg. destruct (vr_copy y x (rep s)) as [[] w''|? ?|?|]; try done. by eexists.
Qed.
End props.

(** ** Examples: alternatives A, const A, const B, C *)
Definition rA := Ty false 10.
Definition rB := Ty false 20.
Definition rC := Ty false 30.
Definition rcfg : VRefCfg := {| V := nat; alts := [rA; add_const rA; add_const rB; rC] |}.
Local Existing Instance rcfg.
Definition num (v : nat) : V := v.
Definition plus_five : ty → V → V := λ _ v, (v : nat) + 5.
(** objects 1: A, 2: const A, 3: B, 4: C *)
Definition setup : list vrop :=
  [RNewObj 1 rA (num 11); RNewObj 2 (add_const rA) (num 12); RNewObj 3 rB (num 13); RNewObj 4 rC (num 14)].
Definition script : list vrop := setup ++
  [RBind 1 true false 1; RBind 2 true true 1; RBind 3 false false 1; RBind 4 true false 2; RBind 5 true false 3;
   RBind 6 true false 4; RCopy 7 1; RAssign 7 6; RAssign 6 6;
   RHolds 1 rA; RHolds 2 rA; RHolds 3 (add_const rA); RGetIf 4 (add_const rA); RGetIf 4 rA; RGet 5 (add_const rB);
   RGet 5 rC; RVisit 1 plus_five; RVisit 2 plus_five; RVisit 7 plus_five; RReadObj 1; RReadObj 4; RGet 7 rC; RDel 7].
Example C55_variant_ref_is_reference_case :
  fst <$> srun script init_state = Some ([BUnit; BUnit; BUnit; BUnit; BUnit; BUnit; BUnit; BUnit; BUnit; BUnit; BUnit; BUnit; BUnit;
   BBool true; BBool false; BBool true; BPtr (Some 2); BPtr None; BRef 3; BThrew BadVariantAccess; BUnit; BUnit; BUnit;
   BVal (num 16); BVal (num 19); BRef 4; BUnit]).
Proof. by vm_compute. Qed.
Example C55_variant_ref_is_reference_calls :
  s_calls ∘ snd <$> srun script init_state =
    Some [(rA, 1, num 11); (add_const rA, 1, num 16); (rC, 4, num 14)].
Proof. by vm_compute. Qed.
(** a reachable state for C55_variant_ref_call, C55_bind and C55_never_dangles *)
Lemma script_reachable (f : state → bool) os :
  f ∘ snd <$> srun os init_state = Some true → ∃ w s, reachable w s ∧ f s = true.
Proof.
  intros H. destruct (srun os init_state) as [[rs s]|] eqn:E; [|done]. injection H as H.
  destruct (C55_variant_ref_is_reference _ _ _ E) as (w & Hw & _). exists w, s. split; [by exists os, rs|done].
Qed.
Definition sees (s : state) (x : nat) (T : ty) (a : nat) : bool :=
  match s_refs s !! x with Some (U, b) => bool_decide (T = U) && (a =? b) | None => false end.
Example C55_reachable_case : ∃ w s, reachable w s ∧
  match s_refs s !! 9, s_objs s !! 2 with None, Some (T, v) => bool_decide (T = add_const rA) && ((v : nat) =? 12) | _, _ => false end
  && sees s 6 rC 4 && sees s 2 (add_const rA) 1 = true.
Proof. apply (script_reachable (λ s, _) script). by vm_compute. Qed.
Example C55_never_dangles_case : ∀ a, RDelObj a ∉ script.
Proof. intros a H. repeat (apply elem_of_cons in H as [H|H]; [done|]). by apply elem_of_nil in H. Qed.
(** lvalues of type C bind to C, rvalues and const ones to nothing; B only binds as const *)
Example C55_no_mutable_binding_case :
  bind_index true rC = Some 3%Z ∧ bind_index false rC = None ∧ bind_index true (add_const rC) = None ∧
  bind_index true rA = Some 0%Z ∧ bind_index false rA = Some 1%Z ∧ bind_index true (add_const rA) = Some 1%Z ∧
  bind_index true rB = Some 2%Z ∧ bind_index false rB = Some 2%Z.
Proof. by vm_compute. Qed.
(** a dangling variant_ref can still be asked what it holds, but not be copied *)
Example C55_dangling_case :
  vrrun (setup ++ [RBind 1 true false 1; RDelObj 1; RHolds 1 rA; RCopy 2 1]) init_world = Faulted DeadObject ∧
  vrrun (setup ++ [RBind 1 true false 1; RDelObj 1; RNewObj 1 rC (num 3); RVisit 1 plus_five]) init_world = Faulted WrongType.
Proof. by vm_compute. Qed.
Example C54_ref_case :
  at_position (add_const rB) alts 2 ∧ ref_determine_index (add_const rB) alts 0 = 2%Z ∧ rB ∉ alts ∧
  ref_determine_index rB alts 0 = (-1)%Z ∧ ref_validate_unique alts = true ∧ ref_validate_unique [rA; rB; rA] = false.
Proof.
  split; [split; [done|]|].
  - intros [|[|j]] Hj; [by vm_compute| by vm_compute|lia].
  - split; [done|]. split; [|by vm_compute]. by apply (bool_decide_unpack _).
Qed.

Print Assumptions C54_ref_determine_index.
Print Assumptions C54_ref_validate_unique.
Print Assumptions C55_variant_ref_is_reference.
Print Assumptions C55_variant_ref_call.
Print Assumptions C55_bind.
Print Assumptions C55_no_mutable_binding.
Print Assumptions C55_stays_usable.
Print Assumptions C55_never_dangles.
