(** C109: the members of the unions of a variant are used while they are alive.

    A storage_t is a union of the first alternative and a storage_t of the others. [strict] is the rule of the
    standard for calls of member functions of objects that are not alive, see UnionModel.v. *)
From stdpp Require Import prelude gmap.
From Coq Require Import Lia.
From Verif Require Import Cpp VariantModel VariantSpec VariantProofs VariantProps UnionModel Union.
Local Open Scope nat_scope.

Section props.
Context `{C : VarCfg} (Hcfg : cfg_ok).

(** the call constructs the i-th alternative *)
Definition makes (o : vop) (i : nat) : Prop :=
  match o with
  | VNew _ => i = 0
  | VNewIndex _ j _ | VEmplaceIndex _ j _ => i = j ∧ j < length alts
  | VNewValue _ T _ | VAssign _ T _ | VEmplace _ T _ => alts !! i = Some T
  | _ => False
  end.
(** or none *)
Definition makes_none (o : vop) : Prop :=
  match o with
  | VNew _ | VNewIndex _ _ _ | VEmplaceIndex _ _ _ | VNewValue _ _ _ | VAssign _ _ _ | VEmplace _ _ _ => False
  | _ => True
  end.

Lemma index_at T i : alts !! i = Some T → index_of T = i ∧ remove_const T = T.
Proof.
  intros H. split; [|by eapply (alt_mutable Hcfg)]. by apply (pos_index Hcfg _ _ (pos_lookup Hcfg _ _ H)).
Qed.

(** what a call that is within its contract constructs *)
Lemma sstep_makes o m : sstep o m ≠ Bad → makes_none o ∨ ∃ i, makes o i.
Proof.
  intros H. destruct o as [x|x y|x y|x T a|x i a|x|x y|x y|x T a|x T a|x i a|x y|x T|x T|x T|x T|x T v|x f];
    cbn [makes_none makes]; try (by left); right; cbn [sstep] in H.
  - eauto.
  - destruct (pos T) as [i|] eqn:E; [|done]. exists i. by apply (pos_index Hcfg).
  - unfold snew in H. destruct (decide (i < length alts)); [|done]. eauto.
  - destruct (pos T) as [i|] eqn:E; [|done]. exists i. by apply (pos_index Hcfg).
  - destruct (pos T) as [i|] eqn:E; [|done]. exists i. by apply (pos_index Hcfg).
  - unfold semplace in H. destruct (decide (i < length alts)); [|done]. eauto.
Qed.
Lemma makes_ok o : makes_none o ∨ makes o 0 → call_ok true o.
Proof.
  intros Ho Hs. destruct o; try done; destruct Ho as [[]|Ho]; cbn [makes] in Ho.
  - by apply index_at.
  - by destruct Ho as [<- _].
  - by apply index_at.
  - destruct (index_at _ _ Ho) as [Hi Hr]. by rewrite Hr.
  - destruct Ho as [<- _]. intros T HT. rewrite determine_type_lookup in HT. destruct (index_at _ _ HT) as [Hi Hr]. by rewrite Hr.
Qed.
Lemma reach_fails i u : shallow u → ∃ f, c_reach true (S i) u = inl f.
Proof. intros Hu. cbn [c_reach]. destruct (enter_shallow u Hu) as [f ->]. by exists f. Qed.
Lemma set_fails p i a w : inv w → ∃ f, u_st_set true p (S i) a w = Stuck f.
Proof.
  intros H. unfold u_st_set, bind, u_get_var. destruct (u_objs w !! p) as [o|] eqn:E; [|eauto].
  destruct (reach_fails i (u_storage o) (H p o E)) as [f ->]. by exists f.
Qed.
Lemma new_fails p i a w : inv w → ∃ f, u_var_new_index true p (S i) a w = Stuck f.
Proof.
  intros H. unfold u_var_new_index, u_construct_var. unfold bind at 1. unfold u_put_var. unfold on_exn.
  destruct (set_fails p i (u_new_value true (S i) a) (UWorld (<[p:=UVar CNone (S i)]> (u_objs w)) (u_ncopy w) (u_visits w))) as [f ->]; [|by exists f].
  exact (keeps_put p (UVar CNone (S i)) I w H).
Qed.
Lemma assign_fails p T i a w : index_of T = S i → inv w → ∃ f, u_with_tmp true (u_var_new_value true None T a) p w = Stuck f.
Proof.
  intros HT H. unfold u_with_tmp, u_var_new_value. rewrite HT. unfold bind at 1. destruct (new_fails None i a w H) as [f ->]. by exists f.
Qed.
Lemma emplace_fails p T i a w : index_of T = S i → remove_const T = T → inv w → ∃ f, u_var_emplace true p T a w = Stuck f.
Proof.
  intros HT Hr H. unfold u_var_emplace. rewrite Hr, HT. unfold bind at 1. destruct (declared (S i) a).
  - unfold bind at 1. unfold u_get_type, bind at 1, u_get_var. destruct (u_objs w !! p) as [o|]; [|eauto]. unfold ret. unfold bind at 1.
    assert (∀ t, match u_st_destroy_any true t p w with Ok _ w1 => inv w1 | Stuck _ => True | _ => False end) as Hd.
    { intros t. pose proof (keeps_dispatch (λ i, u_st_destroy true p i) t (keeps_destroy p) w H) as Hk.
      revert Hk. unfold u_st_destroy_any, u_dispatch. rewrite list_lookup_fmap. destruct (seq 0 (length alts) !! t) as [j|]; [|done].
      cbn [fmap option_fmap option_map]. unfold u_st_destroy, bind, u_get_var. destruct (u_objs w !! p) as [o'|]; [|done].
      destruct (c_destroy true j (u_storage o')); [done|]. unfold lift, ret, u_put_var. done. }
    specialize (Hd (u_type o)). destruct (u_st_destroy_any true (u_type o) p w) as [[] w1|e w1|f|]; [|done|eauto|done].
    unfold bind at 1. unfold u_st_emplace, u_dispatch. rewrite list_lookup_fmap.
    destruct (seq 0 (length alts) !! S i) as [j|] eqn:E; cbn [fmap option_fmap option_map]; [|unfold stuck; eauto].
    apply lookup_seq in E as [-> _]. cbn [Nat.add]. destruct (set_fails p i (u_new_value true (S i) a) w1 Hd) as [f ->]. by exists f.
  - destruct (assign_fails (u_var_move_assign true p None) T i a w HT H) as [f ->]. by exists f.
Qed.
Lemma exec_fails o i w : makes o (S i) → inv w → ∃ f, u_vexec true o w = Stuck f.
Proof.
  intros Hm H. destruct o; try done; cbn [makes] in Hm; cbn [u_vexec]; unfold u_obs; unfold bind at 1.
  - destruct (index_at _ _ Hm) as [HT _]. unfold u_var_new_value. rewrite HT. destruct (new_fails (Some x) i a w H) as [f ->]. by exists f.
  - destruct Hm as [<- _]. destruct (new_fails (Some x) i a w H) as [f ->]. by exists f.
  - destruct (index_at _ _ Hm) as [HT _]. destruct (assign_fails (u_var_move_assign true (Some x) None) T i a w HT H) as [f Hf].
    unfold u_var_assign. rewrite Hf. by exists f.
  - destruct (index_at _ _ Hm) as [HT Hr]. destruct (emplace_fails (Some x) T i a w HT Hr H) as [f ->]. by exists f.
  - destruct Hm as [<- Hl]. unfold u_var_emplace_index. rewrite determine_type_lookup.
    destruct (alts !! S i) as [T|] eqn:E; [|unfold stuck; eauto]. destruct (index_at _ _ E) as [HT Hr].
    destruct (emplace_fails (Some x) T i a w HT Hr H) as [f ->]. by exists f.
Qed.

(** if the compiler lets calls on a [next] that is not alive go through, a variant is a tagged value, as
    VariantModel.v takes for granted: the i-th alternative is alive behind [i] times next *)
Theorem C109_lenient_partial os rs m k l : srun os ∅ 0 [] = Some (rs, m, k, l) →
  ∃ w, u_vrun false os u_init_world = UFinished rs w ∧
    (∀ x, u_objs w !! Some x = (λ c : nat * V, UVar (deep c.1 c.2) c.1) <$> m !! x) ∧ u_visits w = l.
Proof.
  intros H. destruct (vrun_rep Hcfg _ _ _ _ _ _ _ _ wf_empty H) as [Hw _]. rewrite rep_init in Hw.
  pose proof (sim_run false os init_world u_init_world (rel_init false)) as Hr. rewrite Hw in Hr.
  destruct Hr as (w' & Hw' & Hrel & _ & Hv); [by intros o _ ?|]. exists w'. split_and!; [done| |by rewrite <- Hv].
  intros x. specialize (Hrel (Some x)). cbn [objs rep] in Hrel. rewrite emb_Some in Hrel.
  destruct (m !! x) as [[i v]|]; cbn [fmap option_fmap option_map fst snd] in *; destruct (u_objs w' !! Some x) as [[u t]|]; try done.
  destruct Hrel as [[Hu _] Ht]. cbn [u_storage u_type v_type cell fst] in Hu, Ht. by subst.
Qed.
(** by the rule of the standard that is so as long as only first alternatives are constructed *)
Theorem C109_first_partial os rs m k l : srun os ∅ 0 [] = Some (rs, m, k, l) → (∀ o, o ∈ os → makes_none o ∨ makes o 0) →
  ∃ w, u_vrun true os u_init_world = UFinished rs w ∧
    (∀ x, u_objs w !! Some x = (λ c : nat * V, UVar (CVal c.2) 0) <$> m !! x) ∧ u_visits w = l.
Proof.
  intros H Ho. destruct (vrun_rep Hcfg _ _ _ _ _ _ _ _ wf_empty H) as [Hw _]. rewrite rep_init in Hw.
  pose proof (sim_run true os init_world u_init_world (rel_init true)) as Hr. rewrite Hw in Hr.
  destruct Hr as (w' & Hw' & Hrel & _ & Hv); [intros o ?; by apply makes_ok, Ho|]. exists w'. split_and!; [done| |by rewrite <- Hv].
  intros x. specialize (Hrel (Some x)). cbn [objs rep] in Hrel. rewrite emb_Some in Hrel.
  destruct (m !! x) as [[i v]|]; cbn [fmap option_fmap option_map fst snd] in *; destruct (u_objs w' !! Some x) as [[u t]|]; try done.
  destruct Hrel as [[Hu Hi] Ht]. specialize (Hi eq_refl). cbn [u_storage u_type v_type cell fst] in Hu, Ht, Hi. by subst.
Qed.
(** but to construct any other one, in any way, is undefined *)
Theorem C109_others_refuted os rs m k l o i : srun os ∅ 0 [] = Some (rs, m, k, l) → o ∈ os → makes o (S i) →
  ∃ f, u_vrun true os u_init_world = UFaulted f.
Proof.
  assert (∀ os m k l w rs m' k' l', rel true (rep m k l) w → wf m → srun os m k l = Some (rs, m', k', l') →
    o ∈ os → makes o (S i) → ∃ f, u_vrun true os w = UFaulted f) as Hg.
  { clear os rs m k l. induction os as [|o' os IH]; intros m k l w rs m' k' l' Hr Hwf Hs Ho Hm; [by apply elem_of_nil in Ho|].
    assert (inv w) as Hi.
    { intros p v Hv. destruct Hr as [Hr _]. specialize (Hr p). rewrite Hv in Hr. destruct (objs _ !! p) as [v0|]; [|done].
      destruct Hr as [Hr _]. destruct (v_storage v0) as [[j z]|]; destruct Hr as [Hu H0].
      - rewrite Hu, (H0 eq_refl). done.
      - by rewrite (H0 eq_refl). }
    assert (∀ j, makes o' (S j) → ∃ f, u_vrun true (o' :: os) w = UFaulted f) as Hbad.
    { intros j Hj. destruct (exec_fails o' j w Hj Hi) as [f Hf]. exists f. cbn [u_vrun]. by rewrite Hf. }
    apply elem_of_cons in Ho as [->|Ho]; [by eapply Hbad|].
    assert (makes_none o' ∨ ∃ j, makes o' j) as Hmk.
    { apply (sstep_makes o' m). intros E. cbn [srun] in Hs. by rewrite E in Hs. }
    assert ((makes_none o' ∨ makes o' 0) ∨ ∃ j, makes o' (S j)) as [Hok|[j Hj]]; [|clear Hmk|by eapply Hbad].
    { destruct Hmk as [?|[[|j] ?]]; eauto. }
    apply makes_ok in Hok. pose proof (sim_exec true o' Hok _ _ Hr) as Hx. unfold sim_at in Hx.
    assert (∀ m1 k1 l1 w1 r rs1, rel true (rep m1 k1 l1) w1 → wf m1 →
      match srun os m1 k1 l1 with Some (rs, m', k', l') => Some (r :: rs, m', k', l') | None => None end = Some (rs1, m', k', l') →
      ∃ f, match u_vrun true os w1 with UFinished rs w2 => UFinished (r :: rs) w2 | h => h end = UFaulted f) as Hgo.
    { intros m1 k1 l1 w1 r rs1 H1 H2 H3. destruct (srun os m1 k1 l1) as [[[[rs2 m2] k2] l2]|] eqn:E; [|done].
      destruct (IH _ _ _ _ _ _ _ _ H1 H2 E Ho Hm) as [f ->]. by exists f. }
    cbn [srun u_vrun] in *. pose proof (vexec_rep Hcfg o' m k l Hwf) as H. pose proof (svisits_other o' m) as Hv.
    pose proof (sstep_failing o' m) as Hf. pose proof (λ r m' f, sstep_wf Hcfg o' m r m' f Hwf) as Hw.
    destruct (sstep o' m) as [|r m1 [mf|]|e]; [done| | |].
    - rewrite (Hv ltac:(right; by eexists _, _, _)), app_nil_r in Hs. specialize (Hf _ _ _ eq_refl). subst mf.
      destruct (copy_fails k); rewrite H in Hx; destruct Hx as (w1 & -> & H1); eapply Hgo; eauto.
    - rewrite H in Hx. destruct Hx as (w1 & -> & H1). eapply Hgo; eauto.
    - rewrite (Hv ltac:(left; by eexists)), app_nil_r in Hs. rewrite H in Hx. destruct Hx as (w1 & -> & H1). eapply Hgo; eauto. }
  intros H. eapply Hg; [|apply wf_empty|exact H]. rewrite rep_init. apply rel_init.
Qed.
End props.

(** ** Concrete cases *)
Definition u_slot {cf} (w : @u_world (vcfg cf)) (x : nat) : option (chain nat * nat) :=
  match u_objs w !! Some x with Some o => Some (u_storage o, u_type o) | None => None end.
Definition u_check {cf} (strict : bool) (os : list (@vop (vcfg cf))) : option (list (@vobs (vcfg cf)) * list (option (chain nat * nat))) + fault :=
  match @srun (vcfg cf) os ∅ 0 [], @u_vrun (vcfg cf) strict os u_init_world with
  | Some _, UFinished rs w => inl (Some (rs, u_slot w <$> [0; 1; 2]))
  | Some _, UFaulted f => inr f
  | _, _ => inl None
  end.
Definition u_many : list (@vop vgood) :=
  [VNew 0; VNewValue 1 tB (ACopy (rv 5)); VNewIndex 2 2 (AMake 1 [(1, RAlt 1); (1, RAlt 1)]); VSwap 0 1; VMoveAssign 1 2; VGet 0 tB; VHolds 1 tA].
Example C109_lenient_case :
  u_check false u_many = inl (Some ([BUnit; BUnit; BUnit; BUnit; BUnit; bv 5; BBool false],
    [Some (CNext (CVal 5), 1); Some (CNext (CNext (CVal 31)), 2); Some (CNext (CNext (CVal 90)), 2)])).
Proof. by vm_compute. Qed.
(** a construction that fails leaves nothing behind, and an emplaced first alternative takes the place of the nested unions *)
Example C109_lenient_fails_case :
  u_check (cf := λ k, Nat.eqb k 1) false [VNewValue 0 tC (ACopy (rv 5)); VNewCopy 1 0; VEmplace 0 tA (ACopy (rv 6)); VGet 0 tA] =
  inl (Some ([BUnit; BThrew ElementThrow; bv 6; bv 6], [Some (CVal 6, 0); None; None])).
Proof. by vm_compute. Qed.
Example C109_first_case :
  u_check (cf := λ _, false) true [VNew 0; VNewValue 1 tA (ACopy (rv 5)); VSwap 0 1; VEmplace 1 tA (AMove (rv 7)); VNewCopy 2 1; VGet 2 tA; VGet 2 tB; VDestroy 1] =
  inl (Some ([BUnit; BUnit; BUnit; bv 7; BUnit; bv 7; BThrew BadVariantAccess; BUnit], [Some (CVal 5, 0); None; Some (CVal 7, 0)])).
Proof. by vm_compute. Qed.
Example C109_others_case :
  u_check true u_many = inr DeadObject ∧
  u_check (cf := λ _, false) true [VNewIndex 0 1 (ACopy (rv 5))] = inr DeadObject ∧
  u_check (cf := λ _, false) true [VNew 0; VAssign 0 tC (ACopy (rv 5))] = inr DeadObject ∧
  u_check (cf := λ _, false) true [VNew 0; VEmplace 0 tB (ACopy (rv 5))] = inr DeadObject ∧
  u_check (cf := λ _, false) true [VNew 0; VEmplaceIndex 0 2 (ACopy (rv 5))] = inr DeadObject.
Proof. by vm_compute. Qed.
Print Assumptions C109_lenient_partial.
Print Assumptions C109_first_partial.
Print Assumptions C109_others_refuted.
