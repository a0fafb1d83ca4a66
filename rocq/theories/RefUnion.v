(** Lemmas for C112: variant_ref on its unions does what VariantRefModel.v says. *)
From stdpp Require Import prelude gmap.
From Coq Require Import ZArith Lia.
From Verif Require Import Cpp VariantRefModel VariantRefSpec VariantRefProofs RefUnionModel.
Local Open Scope nat_scope.

Section proofs.
Context `{C : VRefCfg} (strict : bool).

(** the member written last *)
Fixpoint tag (u : links) : option (nat * nat) :=
  match u with LNone => None | LPtr a => Some (0, a) | LNext u' => (λ p, (S p.1, p.2)) <$> tag u' end.
Definition ref_of (r : uref) : vref := VRef (tag (u_storage r)) (u_type r).
Definition world_of (w : uworld) : world := World (u_objs w) (ref_of <$> u_refs w) (u_visits w).

Lemma tag_get u : ∀ i a, tag u = Some (i, a) → l_get i u = inr a.
Proof.
  induction u as [|b|u IH]; intros i a H; cbn [tag] in H.
  - done.
  - by injection H as <- <-.
  - destruct (tag u) as [[j b]|]; [|done]. injection H as <- <-. cbn [l_get fst]. by apply IH.
Qed.
(** what [strict] asks of an index *)
Definition fine (i : nat) : Prop := strict = true → i = 0.
Lemma tag_set i : ∀ a u, (strict = true → i = 0) → ∃ u', l_set strict i a u = inr u' ∧ tag u' = Some (i, a).
Proof.
  induction i as [|i IH]; intros a u Hi; cbn [l_set]; [by exists (LPtr a)|].
  destruct strict; [by specialize (Hi eq_refl)|].
  assert (∃ u1, l_next false u = inr u1) as (u1 & ->) by (destruct u; cbn [l_next]; eauto).
  destruct (IH a u1) as (u' & -> & Ht); [done|]. exists (LNext u'). cbn [tag]. by rewrite Ht.
Qed.

Definition P (w : world) : Prop := ∀ x r, refs w !! x = Some r → fine (r_type r).
(** the first program does what the second one does, if that does not go wrong *)
Definition sim {A} (p2 : M uworld A) (p : M world A) : Prop := ∀ w2, P (world_of w2) →
  match p (world_of w2) with
  | Ok a w' => ∃ w2', p2 w2 = Ok a w2' ∧ world_of w2' = w' ∧ P w'
  | Exn e w' => ∃ w2', p2 w2 = Exn e w2' ∧ world_of w2' = w' ∧ P w'
  | Stuck _ => True
  | Terminated => p2 w2 = Terminated
  end.

Lemma sim_bind {A B} (p2 : M uworld A) p (k2 : A → M uworld B) k : sim p2 p → (∀ a, sim (k2 a) (k a)) → sim (bind p2 k2) (bind p k).
Proof.
  intros Hp Hk w2 HP. specialize (Hp w2 HP). unfold bind. destruct (p (world_of w2)) as [a w'|e w'|f|].
  - destruct Hp as (w2' & -> & <- & HP'). by apply Hk.
  - destruct Hp as (w2' & -> & <- & HP'). eauto.
  - done.
  - by rewrite Hp.
Qed.
Lemma sim_ret {A} (a : A) : sim (ret a) (ret a).
Proof. intros w2 HP. unfold ret. eauto. Qed.
Lemma sim_throw {A} e : sim (throw e : M uworld A) (throw e).
Proof. intros w2 HP. unfold throw. eauto. Qed.
Lemma sim_terminate {A} : sim (λ _, Terminated : res uworld A) (λ _, Terminated).
Proof. by intros w2 HP. Qed.
Lemma sim_noexcept {A} (p2 : M uworld A) p : sim p2 p → sim (noexcept p2) (noexcept p).
Proof.
  intros Hp w2 HP. specialize (Hp w2 HP). unfold noexcept. destruct (p (world_of w2)) as [a w'|e w'|f|].
  - destruct Hp as (w2' & -> & H). eauto.
  - by destruct Hp as (w2' & -> & _).
  - done.
  - by rewrite Hp.
Qed.
Lemma sim_type {B} x (k2 : nat → M uworld B) (k : nat → M world B) : (∀ t, fine t → sim (k2 t) (k t)) →
  sim (bind (u_get_type x) k2) (bind (get_ref x) (λ r, k (r_type r))).
Proof.
  intros Hk w2 HP. unfold bind, u_get_type, bind, u_get_ref, get_ref. cbn [refs world_of]. rewrite lookup_fmap.
  destruct (u_refs w2 !! x) as [r|] eqn:E; cbn [fmap option_fmap option_map]; [|done]. unfold ret.
  cbn [ref_of r_type]. apply Hk; [|done]. apply (HP x (ref_of r)). cbn [refs world_of]. by rewrite lookup_fmap, E.
Qed.
Lemma sim_put x r : fine (u_type r) → sim (u_put_ref x r) (put_ref x (ref_of r)).
Proof.
  intros Hr w2 HP. unfold put_ref. eexists. split; [done|]. split.
  - unfold world_of. cbn [objs refs visits u_objs u_refs u_visits]. by rewrite fmap_insert.
  - intros y s Hy. cbn [refs] in Hy. destruct (decide (x = y)) as [<-|Hne].
    + rewrite lookup_insert in Hy. by injection Hy as <-.
    + rewrite lookup_insert_ne in Hy by done. by eapply HP.
Qed.
Lemma sim_set_type x t : fine t → sim (u_set_type x t) (set_type x t).
Proof.
  intros Ht w2 HP. unfold u_set_type, set_type, bind, u_get_ref, get_ref. cbn [refs world_of]. rewrite lookup_fmap.
  destruct (u_refs w2 !! x) as [r|] eqn:E; cbn [fmap option_fmap option_map]; [|done].
  exact (sim_put x (URef (u_storage r) t) Ht w2 HP).
Qed.
Lemma sim_st_get x i : sim (u_st_get x i) (st_get x i).
Proof.
  intros w2 HP. unfold u_st_get, st_get, bind, u_get_ref, get_ref. cbn [refs world_of]. rewrite lookup_fmap.
  destruct (u_refs w2 !! x) as [r|] eqn:E; cbn [fmap option_fmap option_map]; [|done]. cbn [ref_of r_storage].
  destruct (tag (u_storage r)) as [[j a]|] eqn:Et; [|done]. destruct (decide (i = j)) as [->|]; [|done].
  rewrite (tag_get _ _ _ Et). unfold lift, ret. eauto.
Qed.
Lemma sim_st_set x i a : fine i → sim (u_st_set strict x i a) (st_set x i a).
Proof.
  intros Hi w2 HP. unfold u_st_set, st_set, bind, u_get_ref, get_ref. cbn [refs world_of]. rewrite lookup_fmap.
  destruct (u_refs w2 !! x) as [r|] eqn:E; cbn [fmap option_fmap option_map]; [|done]. cbn [ref_of r_type].
  destruct (tag_set i a (u_storage r) Hi) as (u' & -> & Ht). unfold lift, ret.
  assert (Hf : fine (u_type r)). { apply (HP x (ref_of r)). cbn [refs world_of]. by rewrite lookup_fmap, E. }
  pose proof (sim_put x (URef u' (u_type r)) Hf w2 HP) as H. unfold ref_of in H. cbn [u_storage u_type] in H.
  rewrite Ht in H. exact H.
Qed.
Lemma sim_deref T a : sim (u_deref T a) (deref T a).
Proof.
  intros w2 HP. unfold u_deref, deref. cbn [objs world_of]. destruct (u_objs w2 !! a) as [o|]; [|done].
  destruct (negb _); [done|]. destruct (_ && _); [done|]. eauto.
Qed.
Lemma sim_dispatch {A} (f2 : nat → ty → M uworld A) f t : (∀ T, sim (f2 t T) (f t T)) → sim (u_dispatch f2 t) (dispatch f t).
Proof.
  intros Hf. unfold u_dispatch, dispatch. rewrite !list_lookup_imap. destruct (alts !! t) as [T|]; [apply Hf|by intros w2 HP].
Qed.

Lemma sim_assign t x y : fine t → sim (u_assign strict t x y) (assign t x y).
Proof.
  intros Ht. apply sim_noexcept, sim_dispatch. intros T. apply sim_bind; [apply sim_st_get|]. intros a.
  apply sim_bind; [apply sim_deref|]. intros _. by apply sim_st_set.
Qed.
Lemma sim_copy_assign x y : sim (u_copy_assign strict x y) (vr_assign x y).
Proof.
  apply (sim_type y (λ t, bind (u_set_type x t) (λ _, u_assign strict t x y)) (λ t, bind (set_type x t) (λ _, assign t x y))).
  intros t Ht. apply sim_bind; [by apply sim_set_type|]. intros _. by apply sim_assign.
Qed.
Lemma sim_copy x y : sim (u_copy strict x y) (vr_copy x y).
Proof. apply sim_bind; [by apply (sim_put x (URef LNone 0))|]. intros _. apply sim_copy_assign. Qed.
Lemma sim_destroy x : sim (u_destroy x) (vr_destroy x).
Proof.
  apply sim_noexcept.
  apply (sim_type x (λ _ w, Ok tt (UWorld (u_objs w) (delete x (u_refs w)) (u_visits w))) (λ _ w, Ok tt (World (objs w) (delete x (refs w)) (visits w)))).
  intros _ _ w2 HP. eexists. split; [done|]. split.
  - unfold world_of. cbn [objs refs visits u_objs u_refs u_visits]. by rewrite fmap_delete.
  - intros y s Hy. cbn [refs] in Hy. apply lookup_delete_Some in Hy as [_ Hy]. by eapply HP.
Qed.
Lemma sim_holds x T : sim (u_holds x T) (vr_holds x T).
Proof. apply sim_noexcept. apply (sim_type x (λ t, ret (Z.of_nat t =? index_of T)%Z) (λ t, ret (Z.of_nat t =? index_of T)%Z)). intros. apply sim_ret. Qed.
Lemma sim_get_as x T : sim (u_get_as x T) (st_get_as x T).
Proof.
  apply sim_noexcept.
  apply (sim_type x (λ t, u_dispatch _ t) (λ t, dispatch _ t)). intros t _. apply sim_dispatch. intros U.
  apply sim_bind; [apply sim_st_get|]. intros a. destruct (decide (T = U)); [apply sim_ret|apply sim_terminate].
Qed.
Lemma sim_get_if x T : sim (u_get_if x T) (vr_get_if x T).
Proof.
  apply sim_noexcept, sim_bind; [apply sim_holds|]. intros [|]; cbn [negb]; [|apply sim_ret].
  apply sim_bind; [apply sim_get_as|]. intros a. apply sim_ret.
Qed.
Lemma sim_get x T : sim (u_get x T) (vr_get x T).
Proof.
  apply sim_bind; [apply sim_get_if|]. intros [a|]; [|apply sim_throw].
  apply sim_bind; [apply sim_deref|]. intros _. apply sim_ret.
Qed.
Lemma sim_visit x f : sim (u_visit x f) (vr_visit x f).
Proof.
  apply (sim_type x (λ t, u_dispatch _ t) (λ t, dispatch _ t)). intros t _. apply sim_dispatch. intros T.
  apply sim_bind; [apply sim_st_get|]. intros a. apply sim_bind; [apply sim_deref|]. intros v w2 HP.
  eexists. split; [done|]. split; [done|]. exact HP.
Qed.
(** the same, for one world *)
Definition sim_at {A} (p2 : M uworld A) (p : M world A) (w2 : uworld) : Prop :=
  match p (world_of w2) with
  | Ok a w' => ∃ w2', p2 w2 = Ok a w2' ∧ world_of w2' = w' ∧ P w'
  | Exn e w' => ∃ w2', p2 w2 = Exn e w2' ∧ world_of w2' = w' ∧ P w'
  | Stuck _ => True
  | Terminated => p2 w2 = Terminated
  end.
Lemma sim_bind_ref x lv c a w2 : P (world_of w2) →
  (∀ o id, u_objs w2 !! a = Some o → bind_index lv (Ty (c || t_const (ob_ty o)) (t_id (ob_ty o))) = Some id → fine (Z.to_nat id)) →
  sim_at (u_exec strict (RBind x lv c a)) (vrexec (RBind x lv c a)) w2.
Proof.
  intros HP Hid. unfold sim_at. cbn [u_exec vrexec]. unfold bind, u_bind, vr_bind. cbn [objs world_of].
  destruct (u_objs w2 !! a) as [o|] eqn:Ho; [|done]. destruct (bind_index lv _) as [id|] eqn:E; [|done].
  pose proof (Hid o id eq_refl E) as Hf.
  assert (Hs : sim (bind (noexcept (bind (u_put_ref x (URef LNone 0)) (λ _, bind (u_set_type x (Z.to_nat id)) (λ _, u_st_set strict x (Z.to_nat id) a)))) (λ _, ret BUnit))
                (bind (noexcept (bind (put_ref x (VRef None 0)) (λ _, bind (set_type x (Z.to_nat id)) (λ _, st_set x (Z.to_nat id) a)))) (λ _, ret BUnit))).
  { apply sim_bind; [|intros; apply sim_ret]. apply sim_noexcept.
    apply sim_bind; [by apply (sim_put x (URef LNone 0))|]. intros _. apply sim_bind; [by apply sim_set_type|]. intros _. by apply sim_st_set. }
  exact (Hs w2 HP).
Qed.
Lemma sim_exec o w2 : P (world_of w2) →
  (∀ x lv c a b id, o = RBind x lv c a → u_objs w2 !! a = Some b →
     bind_index lv (Ty (c || t_const (ob_ty b)) (t_id (ob_ty b))) = Some id → fine (Z.to_nat id)) →
  sim_at (u_exec strict o) (vrexec o) w2.
Proof.
  intros HP Hb. destruct o as [b U v|b v|b|b|y lv c b|y z|y z|y|y U|y U|y U|y f].
  - unfold sim_at. cbn [u_exec vrexec objs world_of]. destruct (u_objs w2 !! b); [done|]. eexists. done.
  - unfold sim_at. cbn [u_exec vrexec objs world_of]. destruct (u_objs w2 !! b) as [o|]; [|done]. destruct (t_const (ob_ty o)); [done|]. eexists. done.
  - unfold sim_at. cbn [u_exec vrexec objs world_of]. destruct (u_objs w2 !! b) as [o|]; [|done]. eexists. done.
  - unfold sim_at. cbn [u_exec vrexec objs world_of]. destruct (u_objs w2 !! b) as [o|]; [|done]. eexists. done.
  - apply sim_bind_ref; [done|]. intros o id Ho Hi. exact (Hb y lv c b o id eq_refl Ho Hi).
  - refine (sim_bind (u_copy strict y z) (vr_copy y z) (λ _, ret BUnit) (λ _, ret BUnit) (sim_copy y z) (λ _, sim_ret BUnit) w2 HP).
  - refine (sim_bind (u_copy_assign strict y z) (vr_assign y z) (λ _, ret BUnit) (λ _, ret BUnit) (sim_copy_assign y z) (λ _, sim_ret BUnit) w2 HP).
  - refine (sim_bind (u_destroy y) (vr_destroy y) (λ _, ret BUnit) (λ _, ret BUnit) (sim_destroy y) (λ _, sim_ret BUnit) w2 HP).
  - refine (sim_bind (u_holds y U) (vr_holds y U) (λ b, ret (BBool b)) (λ b, ret (BBool b)) (sim_holds y U) (λ b, sim_ret (BBool b)) w2 HP).
  - refine (sim_bind (u_get_if y U) (vr_get_if y U) (λ b, ret (BPtr b)) (λ b, ret (BPtr b)) (sim_get_if y U) (λ b, sim_ret (BPtr b)) w2 HP).
  - refine (sim_bind (u_get y U) (vr_get y U) (λ b, ret (BRef b)) (λ b, ret (BRef b)) (sim_get y U) (λ b, sim_ret (BRef b)) w2 HP).
  - refine (sim_bind (u_visit y f) (vr_visit y f) (λ _, ret BUnit) (λ _, ret BUnit) (sim_visit y f) (λ _, sim_ret BUnit) w2 HP).
Qed.

(** ** Histories *)
(** the alternative that a call binds an object to *)
Definition binds (o : vrop) (s : state) : option ty :=
  match o with
  | RBind x lv c a => match s_objs s !! a with Some (T, _) => sbind lv (if c then add_const T else T) | None => None end
  | _ => None
  end.
(** no call binds an object to an alternative that is not the first one *)
Fixpoint only_first (os : list vrop) (s : state) : bool :=
  match os with
  | [] => true
  | o :: os' =>
      match binds o s with Some U => bool_decide (alts !! 0 = Some U) | None => true end &&
      match sstep o s with Done _ s' => only_first os' s' | Throws _ => only_first os' s | Bad => true end
  end.

Lemma bound_type (c : bool) (T : ty) : Ty (c || t_const T) (t_id T) = if c then add_const T else T.
Proof. destruct T as [k i]. by destruct c. Qed.
Lemma objs_rep w2 s b o : world_of w2 = rep s → u_objs w2 !! b = Some o → s_objs s !! b = Some (ob_ty o, ob_val o).
Proof.
  intros Hw Ho. assert (Hobj : u_objs w2 = obj <$> s_objs s) by exact (f_equal objs Hw). rewrite Hobj, lookup_fmap in Ho.
  destruct (s_objs s !! b) as [[T v]|]; [|done]. by injection Ho as <-.
Qed.
Lemma pos_first U : alts !! 0 = Some U → index_of U = 0%Z.
Proof.
  unfold index_of. destruct alts as [|h t]; [done|]. intros [= ->]. cbn [ref_determine_index]. by rewrite decide_True.
Qed.
Lemma exec_step o s w2 : world_of w2 = rep s → wf s → P (rep s) →
  (strict = true → match binds o s with Some U => bool_decide (alts !! 0 = Some U) | None => true end = true) →
  match sstep o s with
  | Bad => True
  | Done r s' => ∃ w2', u_exec strict o w2 = Ok r w2' ∧ world_of w2' = rep s' ∧ wf s' ∧ P (rep s')
  | Throws e => ∃ w2', u_exec strict o w2 = Exn e w2' ∧ world_of w2' = rep s
  end.
Proof.
  intros Hw Hwf HP Hf. pose proof (vrexec_rep o s Hwf) as Hr.
  assert (Hs : sim_at (u_exec strict o) (vrexec o) w2).
  { apply sim_exec; [by rewrite Hw|]. intros x lv c a b id -> Hb Hi Hst. specialize (Hf Hst). cbn [binds] in Hf.
    rewrite (objs_rep _ _ _ _ Hw Hb) in Hf. rewrite bound_type, bind_index_spec in Hi.
    destruct (sbind lv _) as [U|]; [|done]. injection Hi as <-. apply bool_decide_eq_true in Hf.
    by rewrite (pos_first U Hf). }
  unfold sim_at in Hs. rewrite Hw in Hs. destruct (sstep o s) as [|r s'|e]; [done|..].
  - destruct Hr as [Hr Hwf']. rewrite Hr in Hs. destruct Hs as (w2' & He & Hw' & HP'). eauto 10.
  - rewrite Hr in Hs. destruct Hs as (w2' & He & Hw' & HP'). eauto.
Qed.
Lemma run_ok os : ∀ s w2 rs s', world_of w2 = rep s → wf s → P (rep s) → srun os s = Some (rs, s') →
  (strict = true → only_first os s = true) → ∃ w2', u_run strict os w2 = UFinished rs w2' ∧ world_of w2' = rep s' ∧ wf s'.
Proof.
  induction os as [|o os IH]; intros s w2 rs s' Hw Hwf HP Hr Hf; cbn [srun u_run only_first] in *.
  { injection Hr as <- <-. eauto. }
  pose proof (exec_step o s w2 Hw Hwf HP) as Hs. destruct (sstep o s) as [|r s1|e] eqn:E; [done|..].
  - destruct Hs as (w3 & -> & Hw3 & Hwf3 & HP3); [intros Hst; specialize (Hf Hst); by apply andb_prop in Hf as [-> _]|].
    destruct (srun os s1) as [[rs1 s2]|] eqn:E1; [|done]. injection Hr as <- <-.
    destruct (IH s1 w3 rs1 s2 Hw3 Hwf3 HP3 E1) as (w4 & -> & H4); [|eauto].
    intros Hst. specialize (Hf Hst). by apply andb_prop in Hf as [_ ->].
  - destruct Hs as (w3 & -> & Hw3); [intros Hst; specialize (Hf Hst); by apply andb_prop in Hf as [-> _]|].
    destruct (srun os s) as [[rs1 s2]|] eqn:E1; [|done]. injection Hr as <- <-.
    destruct (IH s w3 rs1 s2 Hw3 Hwf HP E1) as (w4 & -> & H4); [|eauto].
    intros Hst. specialize (Hf Hst). by apply andb_prop in Hf as [_ ->].
Qed.
Lemma P_init : P (rep init_state).
Proof. intros x r Hx. rewrite rep_init in Hx. cbn [refs init_world] in Hx. by rewrite lookup_empty in Hx. Qed.
Lemma world_of_init : world_of u_init = rep init_state.
Proof. rewrite rep_init. unfold world_of, u_init, init_world. cbn [u_objs u_refs u_visits]. by rewrite fmap_empty. Qed.

Lemma tag_behind u : ∀ i a, tag u = Some (i, a) → u = Nat.iter i LNext (LPtr a).
Proof.
  induction u as [|b|u IH]; intros i a H; cbn [tag] in H.
  - done.
  - by injection H as <- <-.
  - destruct (tag u) as [[j b]|]; [|done]. injection H as <- <-. cbn [fst snd]. rewrite (IH _ _ eq_refl). done.
Qed.
End proofs.

Section strict.
Context `{C : VRefCfg}.
Lemma pos_other U : U ∈ alts → alts !! 0 ≠ Some U → ∃ i, Z.to_nat (index_of U) = S i.
Proof.
  intros HU Hne. destruct (index_in U HU) as [_ H]. fold (pos U). destruct (pos U) as [|i]; [done|]. eauto.
Qed.
Lemma bind_fails x lv c a w i b : u_objs w !! a = Some b →
  Z.to_nat <$> bind_index lv (Ty (c || t_const (ob_ty b)) (t_id (ob_ty b))) = Some (S i) →
  u_exec true (RBind x lv c a) w = Stuck DeadObject.
Proof.
  intros Hb Hi. cbn [u_exec]. unfold bind at 1. unfold u_bind. rewrite Hb. destruct (bind_index _ _) as [id|]; [|done].
  cbn [fmap option_fmap option_map] in Hi. injection Hi as Hi. rewrite Hi. unfold noexcept, bind, u_put_ref, u_set_type, bind, u_get_ref, u_put_ref.
  cbn [u_refs u_objs u_visits]. rewrite lookup_insert. unfold u_st_set, bind, u_get_ref. cbn [u_refs u_objs u_visits]. rewrite lookup_insert. done.
Qed.
Lemma run_fails os : ∀ s w2 rs s', world_of w2 = rep s → wf s → P true (rep s) → srun os s = Some (rs, s') →
  only_first os s = false → u_run true os w2 = UFaulted DeadObject.
Proof.
  induction os as [|o os IH]; intros s w2 rs s' Hw Hwf HP Hr Hf; cbn [srun u_run only_first] in *; [done|].
  destruct (match binds o s with Some U => bool_decide (alts !! 0 = Some U) | None => true end) eqn:Eb; cbn [andb] in Hf.
  - pose proof (exec_step true o s w2 Hw Hwf HP (λ _, Eb)) as Hs. destruct (sstep o s) as [|r s1|e] eqn:E; [done|..].
    + destruct Hs as (w3 & -> & Hw3 & Hwf3 & HP3). destruct (srun os s1) as [[rs1 s2]|] eqn:E1; [|done].
      by rewrite (IH s1 w3 rs1 s2 Hw3 Hwf3 HP3 E1 Hf).
    + destruct Hs as (w3 & -> & Hw3). destruct (srun os s) as [[rs1 s2]|] eqn:E1; [|done].
      by rewrite (IH s w3 rs1 s2 Hw3 Hwf HP E1 Hf).
  - destruct (binds o s) as [U|] eqn:EU; [|done]. apply bool_decide_eq_false in Eb.
    destruct o as [b W v|b v|b|b|y lv c b|y z|y z|y|y W|y W|y W|y f]; try done. cbn [binds] in EU.
    destruct (s_objs s !! b) as [[T v]|] eqn:Hb; [|done].
    assert (Hobj : u_objs w2 = obj <$> s_objs s) by exact (f_equal objs Hw).
    destruct (pos_other U (sbind_in _ _ _ EU) Eb) as [i Hi].
    rewrite (bind_fails y lv c b w2 i (Object T v)); [done|by rewrite Hobj, lookup_fmap, Hb|].
    cbn [ob_ty]. rewrite bound_type, bind_index_spec, EU. cbn [fmap option_fmap option_map]. by rewrite Hi.
Qed.
End strict.
