(** Every call on variant_refs does what it does on pairs of an alternative and an object. *)
From stdpp Require Import prelude gmap.
From Coq Require Import ZArith Lia.
From Verif Require Import Cpp VariantRefModel VariantRefSpec.
From Verif Require VariantSpec VariantProofs.
Local Open Scope nat_scope.

(** ** Compile-time functions *)
Lemma ref_determine_index_from T l : ∀ i : Z,
  ref_determine_index T l i =
    match fst <$> list_find (T =.) l with Some j => i + Z.of_nat j | None => -1 end%Z.
Proof.
  induction l as [|h t IH]; intros i; [done|]. cbn [ref_determine_index list_find].
  destruct (decide (T = h)) as [->|Hne]; [cbn; lia|].
  destruct t as [|h' t']; [done|]. rewrite IH.
  destruct (list_find (T =.) (h' :: t')) as [[j y]|]; cbn [fmap option_fmap option_map fst prod_map]; [lia|done].
Qed.
Lemma ref_index_in T l : T ∈ l → ∃ j, VariantSpec.at_position T l j ∧ ref_determine_index T l 0 = Z.of_nat j.
Proof.
  intros H. rewrite ref_determine_index_from. destruct (fst <$> list_find (T =.) l) as [j|] eqn:E.
  - exists j. split; [by apply VariantProofs.find_position|lia].
  - by apply VariantProofs.find_none in E.
Qed.
Lemma ref_index_out T l : T ∉ l → ref_determine_index T l 0 = (-1)%Z.
Proof. intros H. rewrite ref_determine_index_from. apply VariantProofs.find_none in H. by rewrite H. Qed.
Lemma ref_validate_unique_nodup l : ref_validate_unique l = true ↔ NoDup l.
Proof.
  induction l as [|h t IH]; [split; [constructor|done]|]. rewrite NoDup_cons.
  assert (ref_validate_unique (h :: t) = if negb (ref_determine_index h t 0 =? -1)%Z then false else ref_validate_unique t) as ->
    by (by destruct t).
  destruct (decide (h ∈ t)) as [Hin|Hout].
  - destruct (ref_index_in _ _ Hin) as (j & _ & ->). destruct (Z.eqb_spec (Z.of_nat j) (-1)); [lia|]. cbn. naive_solver.
  - rewrite (ref_index_out _ _ Hout), Z.eqb_refl. cbn [negb]. rewrite IH. tauto.
Qed.

Section proofs.
Context `{C : VRefCfg}.

(** position of an alternative *)
Definition pos (T : ty) : nat := Z.to_nat (index_of T).
Lemma index_in T : T ∈ alts → index_of T = Z.of_nat (pos T) ∧ alts !! pos T = Some T.
Proof.
  intros H. unfold pos, index_of. destruct (ref_index_in _ _ H) as (j & [Hj _] & ->). rewrite Nat2Z.id. done.
Qed.
Lemma index_out T : T ∉ alts → index_of T = (-1)%Z.
Proof. apply ref_index_out. Qed.
Lemma can_store_spec T : can_store T = bool_decide (T ∈ alts).
Proof.
  unfold can_store. destruct (decide (T ∈ alts)) as [H|H].
  - rewrite bool_decide_eq_true_2 by done. destruct (index_in _ H) as [-> _]. destruct (Z.eqb_spec (Z.of_nat (pos T)) (-1)); [lia|done].
  - rewrite bool_decide_eq_false_2 by done. by rewrite (index_out _ H).
Qed.
Lemma bind_index_spec lv T : bind_index lv T = index_of <$> sbind lv T.
Proof.
  unfold bind_index, sbind. pose proof (can_store_spec T) as HT. pose proof (can_store_spec (add_const T)) as HC.
  change (negb (index_of T =? -1)%Z) with (can_store T). rewrite HT, HC.
  destruct lv; cbn [andb]; repeat case_bool_decide; repeat case_decide; cbn; naive_solver.
Qed.
Lemma sbind_in lv T U : sbind lv T = Some U → U ∈ alts.
Proof. unfold sbind. repeat case_decide; naive_solver. Qed.

(** ** Representation *)
Definition wf (s : state) : Prop := ∀ x T a, s_refs s !! x = Some (T, a) → T ∈ alts.
Definition cell (p : ty * nat) : vref := VRef (Some (pos p.1, p.2)) (pos p.1).
Definition obj (p : ty * V) : object := Object p.1 p.2.
Definition rep (s : state) : world := World (obj <$> s_objs s) (cell <$> s_refs s) (s_calls s).

Lemma get_ref_run g h l x r : h !! x = Some r → get_ref x (World g h l) = Ok r (World g h l).
Proof. intros H. unfold get_ref. cbn [refs]. by rewrite H. Qed.
Lemma st_get_run g h l x i a t : h !! x = Some (VRef (Some (i, a)) t) → st_get x i (World g h l) = Ok a (World g h l).
Proof. intros H. unfold st_get, bind. rewrite (get_ref_run _ _ _ _ _ H). cbn [r_storage]. by rewrite decide_True. Qed.
Lemma st_set_run g h l x i a r : h !! x = Some r →
  st_set x i a (World g h l) = Ok tt (World g (<[x:=VRef (Some (i, a)) (r_type r)]> h) l).
Proof. intros H. unfold st_set, bind. by rewrite (get_ref_run _ _ _ _ _ H). Qed.
Lemma set_type_run g h l x t r : h !! x = Some r →
  set_type x t (World g h l) = Ok tt (World g (<[x:=VRef (r_storage r) t]> h) l).
Proof. intros H. unfold set_type, bind. by rewrite (get_ref_run _ _ _ _ _ H). Qed.
Lemma deref_run s h l T a : usable s T a = true →
  ∃ U v, s_objs s !! a = Some (U, v) ∧ deref T a (World (obj <$> s_objs s) h l) = Ok v (World (obj <$> s_objs s) h l).
Proof.
  unfold usable. intros H. destruct (s_objs s !! a) as [[U v]|] eqn:E; [|done]. exists U, v. split; [done|].
  unfold deref. cbn [objs]. rewrite lookup_fmap, E. cbn [fmap option_fmap option_map obj ob_ty ob_val fst snd].
  apply andb_prop in H as [H1 H2]. rewrite H1. cbn [negb]. by destruct (t_const U), (t_const T).
Qed.
Lemma dispatch_run {A} (f : nat → ty → M world A) T : T ∈ alts → dispatch f (pos T) = f (pos T) T.
Proof. intros H. unfold dispatch. rewrite list_lookup_imap. by rewrite (proj2 (index_in _ H)). Qed.
Lemma rep_ref s x T a : s_refs s !! x = Some (T, a) → (cell <$> s_refs s) !! x = Some (VRef (Some (pos T, a)) (pos T)).
Proof. intros H. by rewrite lookup_fmap, H. Qed.

Lemma holds_run g h l x T a U : h !! x = Some (VRef (Some (pos T, a)) (pos T)) → T ∈ alts → U ∈ alts →
  vr_holds x U (World g h l) = Ok (bool_decide (U = T)) (World g h l).
Proof.
  intros H HT HU. unfold vr_holds, noexcept, bind. rewrite (get_ref_run _ _ _ _ _ H). cbn [r_type ret]. unfold ret. f_equal.
  destruct (index_in _ HT) as [ET LT]. destruct (index_in _ HU) as [EU LU]. rewrite EU.
  destruct (Z.eqb_spec (Z.of_nat (pos T)) (Z.of_nat (pos U))) as [E|E].
  - apply Nat2Z.inj in E. rewrite E in LT. rewrite LU in LT. injection LT as ->. by rewrite bool_decide_eq_true_2.
  - rewrite bool_decide_eq_false_2; [done|]. by intros ->.
Qed.
Lemma get_if_run g h l x T a U : h !! x = Some (VRef (Some (pos T, a)) (pos T)) → T ∈ alts → U ∈ alts →
  vr_get_if x U (World g h l) = Ok (if decide (U = T) then Some a else None) (World g h l).
Proof.
  intros H HT HU. unfold vr_get_if, bind. unfold noexcept at 1. rewrite (holds_run _ _ _ _ _ _ _ H HT HU).
  destruct (decide (U = T)) as [->|Hne].
  - rewrite bool_decide_eq_true_2 by done. cbn [negb]. unfold st_get_as, noexcept, bind.
    rewrite (get_ref_run _ _ _ _ _ H). cbn [r_type]. rewrite dispatch_run by done.
    rewrite (st_get_run _ _ _ _ _ _ _ H). by rewrite decide_True.
  - by rewrite bool_decide_eq_false_2.
Qed.
Lemma assign_run s h l x y T a r : h !! y = Some (VRef (Some (pos T, a)) (pos T)) → h !! x = Some r →
  T ∈ alts → usable s T a = true →
  assign (pos T) x y (World (obj <$> s_objs s) h l) =
    Ok tt (World (obj <$> s_objs s) (<[x:=VRef (Some (pos T, a)) (r_type r)]> h) l).
Proof.
  intros Hy Hx HT Hu. unfold assign, noexcept. rewrite dispatch_run by done. unfold bind.
  rewrite (st_get_run _ _ _ _ _ _ _ Hy). destruct (deref_run s h l _ _ Hu) as (U & v & _ & ->).
  by rewrite (st_set_run _ _ _ _ _ _ _ Hx).
Qed.

Lemma vrexec_rep o s : wf s →
  match sstep o s with
  | Bad => True
  | Done r s' => vrexec o (rep s) = Ok r (rep s') ∧ wf s'
  | Throws e => vrexec o (rep s) = Exn e (rep s)
  end.
Proof.
  intros Hwf. unfold rep. destruct o as [a T v|a v|a|a|x lv c a|x y|x y|x|x T|x T|x T|x f]; cbn [sstep vrexec objs refs visits].
  - destruct (s_objs s !! a) eqn:E; [done|]. rewrite lookup_fmap, E. cbn [fmap option_fmap option_map]. split; [|done].
    unfold set_objs, set_sobjs. cbn [objs refs visits s_objs s_refs s_calls]. by rewrite fmap_insert.
  - destruct (s_objs s !! a) as [[T u]|] eqn:E; [|done]. rewrite lookup_fmap, E. cbn [fmap option_fmap option_map obj ob_ty fst].
    destruct (t_const T); [done|]. split; [|done]. unfold set_objs, set_sobjs. cbn [objs refs visits s_objs s_refs s_calls].
    by rewrite fmap_insert.
  - destruct (s_objs s !! a) as [[T u]|] eqn:E; [|done]. rewrite lookup_fmap, E. done.
  - destruct (s_objs s !! a) as [[T u]|] eqn:E; [|done]. rewrite lookup_fmap, E. cbn [fmap option_fmap option_map]. split; [|done].
    unfold set_objs, set_sobjs. cbn [objs refs visits s_objs s_refs s_calls]. by rewrite fmap_delete.
  - destruct (s_refs s !! x) eqn:Ex; [done|]. destruct (s_objs s !! a) as [[T u]|] eqn:E; [|done].
    destruct (sbind lv (if c then add_const T else T)) as [U|] eqn:EU; [|done].
    pose proof (sbind_in _ _ _ EU) as HU. split.
    + unfold bind at 1, vr_bind. cbn [objs]. rewrite lookup_fmap, E. cbn [fmap option_fmap option_map obj ob_ty fst].
      assert (Ty (c || t_const T) (t_id T) = if c then add_const T else T) as -> by (destruct c, T; done).
      rewrite bind_index_spec, EU. cbn [fmap option_fmap option_map]. unfold noexcept, bind, put_ref. cbn [objs refs visits].
      erewrite set_type_run by apply lookup_insert. erewrite st_set_run by apply lookup_insert.
      cbn [r_storage r_type]. unfold ret, set_srefs. cbn [s_objs s_refs s_calls]. do 2 f_equal. rewrite fmap_insert.
      by rewrite !insert_insert.
    + intros z T' a' Hz. unfold set_srefs in Hz. cbn [s_refs] in Hz. destruct (decide (x = z)) as [<-|Hne].
      * rewrite lookup_insert in Hz. by injection Hz as -> _.
      * rewrite lookup_insert_ne in Hz by done. by eapply Hwf.
  - destruct (s_refs s !! x) eqn:Ex; [done|]. destruct (s_refs s !! y) as [[T a]|] eqn:Ey; [|done].
    destruct (usable s T a) eqn:Hu; [|done]. pose proof (Hwf _ _ _ Ey) as HT. split.
    + assert (x ≠ y) as Hxy by congruence. unfold vr_copy, bind, put_ref. cbn [objs refs visits].
      assert (Hy : <[x:=VRef None 0]> (cell <$> s_refs s) !! y = Some (VRef (Some (pos T, a)) (pos T)))
        by (rewrite lookup_insert_ne by done; by apply rep_ref).
      rewrite (get_ref_run _ _ _ _ _ Hy). cbn [r_type].
      erewrite set_type_run by apply lookup_insert. cbn [r_storage]. rewrite insert_insert.
      erewrite assign_run; [|rewrite lookup_insert_ne by done; by apply rep_ref|apply lookup_insert|done|done].
      cbn [r_type]. unfold ret, set_srefs. cbn [s_objs s_refs s_calls]. rewrite insert_insert. do 2 f_equal. by rewrite fmap_insert.
    + intros z T' a' Hz. unfold set_srefs in Hz. cbn [s_refs] in Hz. destruct (decide (x = z)) as [<-|Hne].
      * rewrite lookup_insert in Hz. by injection Hz as -> _.
      * rewrite lookup_insert_ne in Hz by done. by eapply Hwf.
  - destruct (s_refs s !! x) as [[T0 a0]|] eqn:Ex; [|done]. destruct (s_refs s !! y) as [[T a]|] eqn:Ey; [|done].
    destruct (usable s T a) eqn:Hu; [|done]. pose proof (Hwf _ _ _ Ey) as HT. split.
    + unfold vr_assign, bind. rewrite (get_ref_run _ _ _ _ _ (rep_ref _ _ _ _ Ey)). cbn [r_type].
      rewrite (set_type_run _ _ _ _ _ _ (rep_ref _ _ _ _ Ex)). cbn [r_storage].
      destruct (decide (x = y)) as [<-|Hxy].
      * rewrite Ex in Ey. injection Ey as -> ->.
        erewrite assign_run; [|apply lookup_insert|apply lookup_insert|done|done].
        cbn [r_type]. unfold ret, set_srefs. cbn [s_objs s_refs s_calls]. rewrite insert_insert. do 2 f_equal. by rewrite fmap_insert.
      * erewrite assign_run; [|rewrite lookup_insert_ne by done; by apply rep_ref|apply lookup_insert|done|done].
        cbn [r_type]. unfold ret, set_srefs. cbn [s_objs s_refs s_calls]. rewrite insert_insert. do 2 f_equal. by rewrite fmap_insert.
    + intros z T' a' Hz. unfold set_srefs in Hz. cbn [s_refs] in Hz. destruct (decide (x = z)) as [<-|Hne].
      * rewrite lookup_insert in Hz. by injection Hz as -> _.
      * rewrite lookup_insert_ne in Hz by done. by eapply Hwf.
  - destruct (s_refs s !! x) as [[T a]|] eqn:Ex; [|done]. split.
    + unfold vr_destroy, noexcept, bind. rewrite (get_ref_run _ _ _ _ _ (rep_ref _ _ _ _ Ex)). cbn [objs refs visits].
      unfold ret, set_srefs. cbn [s_objs s_refs s_calls]. by rewrite fmap_delete.
    + intros z T' a' Hz. unfold set_srefs in Hz. cbn [s_refs] in Hz. apply lookup_delete_Some in Hz as [_ Hz]. by eapply Hwf.
  - destruct (s_refs s !! x) as [[U a]|] eqn:Ex; [|done]. case_decide as HT; [|done]. split; [|done].
    unfold bind. by rewrite (holds_run _ _ _ _ _ _ _ (rep_ref _ _ _ _ Ex) (Hwf _ _ _ Ex) HT).
  - destruct (s_refs s !! x) as [[U a]|] eqn:Ex; [|done]. destruct (decide (T ∈ alts)) as [HT|]; [|done]. split; [|done].
    unfold bind. by rewrite (get_if_run _ _ _ _ _ _ _ (rep_ref _ _ _ _ Ex) (Hwf _ _ _ Ex) HT).
  - destruct (s_refs s !! x) as [[U a]|] eqn:Ex; [|done]. destruct (decide (T ∈ alts)) as [HT|]; [|done].
    unfold vr_get, bind. rewrite (get_if_run _ _ _ _ _ _ _ (rep_ref _ _ _ _ Ex) (Hwf _ _ _ Ex) HT).
    destruct (decide (T = U)) as [->|Hne]; [|done]. destruct (usable s U a) eqn:Hu; [|done]. split; [|done].
    by destruct (deref_run s (cell <$> s_refs s) (s_calls s) _ _ Hu) as (W & v & _ & ->).
  - destruct (s_refs s !! x) as [[T a]|] eqn:Ex; [|done]. destruct (s_objs s !! a) as [[U v]|] eqn:Ea; [|done].
    destruct (usable s T a) eqn:Hu; [|done]. split; [|done]. unfold vr_visit, bind.
    rewrite (get_ref_run _ _ _ _ _ (rep_ref _ _ _ _ Ex)). cbn [r_type]. rewrite dispatch_run by by eapply Hwf.
    rewrite (st_get_run _ _ _ _ _ _ _ (rep_ref _ _ _ _ Ex)). unfold call_visitor, bind.
    destruct (deref_run s (cell <$> s_refs s) (s_calls s) _ _ Hu) as (W & u & E & ->). rewrite Ea in E. injection E as <- <-.
    cbn [objs refs visits]. unfold ret. do 2 f_equal. cbn [s_objs]. destruct (t_const T); [done|].
    apply map_eq. intros b. rewrite lookup_fmap. destruct (decide (a = b)) as [<-|Hne].
    + by rewrite lookup_alter, lookup_insert, lookup_fmap, Ea.
    + by rewrite lookup_alter_ne, lookup_insert_ne, lookup_fmap by done.
Qed.

Lemma vrrun_rep os : ∀ s rs s', wf s → srun os s = Some (rs, s') →
  vrrun os (rep s) = Finished rs (rep s') ∧ wf s'.
Proof.
  induction os as [|o os IH]; intros s rs s' Hwf H; cbn [srun vrrun] in *; [by injection H as <- <-|].
  pose proof (vrexec_rep o s Hwf) as Ho. destruct (sstep o s) as [|r s1|e]; [done| |].
  - destruct Ho as [-> Hwf1]. destruct (srun os s1) as [[rs1 s2]|] eqn:E; [|done]. injection H as <- <-.
    destruct (IH _ _ _ Hwf1 E) as [-> Hwf2]. done.
  - rewrite Ho. destruct (srun os s) as [[rs1 s2]|] eqn:E; [|done]. injection H as <- <-.
    destruct (IH _ _ _ Hwf E) as [-> Hwf2]. done.
Qed.
Lemma wf_init : wf init_state.
Proof. intros x T a H. cbn in H. by rewrite lookup_empty in H. Qed.
Lemma rep_init : rep init_state = init_world.
Proof. unfold rep, init_world. cbn [s_objs s_refs s_calls init_state]. by rewrite !fmap_empty. Qed.
Lemma reachable_rep w s : reachable w s → w = rep s ∧ wf s.
Proof.
  intros (os & rs & Hs & Hr). destruct (vrrun_rep _ _ _ _ wf_init Hs) as [H Hwf]. rewrite rep_init in H. rewrite H in Hr.
  by injection Hr as <-.
Qed.
Lemma rep_shows s : wf s → shows (rep s) s.
Proof.
  intros Hwf. unfold shows, rep. cbn [objs refs visits]. split; [|split; [|done]].
  - intros a. rewrite lookup_fmap. by destruct (s_objs s !! a) as [[T v]|].
  - intros x. destruct (s_refs s !! x) as [[T a]|] eqn:Ex; [|by rewrite lookup_fmap, Ex].
    pose proof (Hwf _ _ _ Ex) as HT. split; [done|]. intros U HU.
    split; [by eapply holds_run; [apply rep_ref| |]|by eapply get_if_run; [apply rep_ref| |]].
Qed.
End proofs.
