(** Every call on optional_refs does what it does on references to objects. *)
From stdpp Require Import prelude gmap.
From Verif Require Import Cpp OptionalRefModel OptionalRefSpec.
Local Open Scope nat_scope.

Section proofs.
Context `{C : ORefCfg}.

(** the world after a copy *)
Definition bump (w : world) : world := World (objs w) (opts w) (ptrs w) (refs w) (S (ncopy w)).

Lemma shows_bump w s : shows w s → shows (bump w) s.
Proof. done. Qed.
Lemma shows_ref w s x p : shows w s → shows (set_refs (<[x:=p]> (refs w)) w) (set_ref s x (Some p)).
Proof.
  intros (H1 & H2 & H3 & H4). split; [done|]. split; [done|]. split; [done|]. intros z. cbn [refs set_refs s_ref set_ref]. unfold upd.
  case_decide; subst; [by rewrite lookup_insert|by rewrite lookup_insert_ne].
Qed.
Lemma shows_unref w s x : shows w s → shows (set_refs (delete x (refs w)) w) (set_ref s x None).
Proof.
  intros (H1 & H2 & H3 & H4). split; [done|]. split; [done|]. split; [done|]. intros z. cbn [refs set_refs s_ref set_ref]. unfold upd.
  case_decide; subst; [by rewrite lookup_delete|by rewrite lookup_delete_ne].
Qed.
Lemma shows_write w s l v u : shows w s → s_val s l = Some u →
  ∃ w', write l v w = Ok tt w' ∧ ncopy w' = ncopy w ∧ shows w' (set_val s l (Some v)).
Proof.
  intros (H1 & H2 & H3 & H4) Hl. unfold write. rewrite (H1 l), Hl. eexists _. split; [reflexivity|].
  destruct l as [a|y].
  - split; [done|]. split; [|done]. intros l'. cbn [s_val set_val]. unfold upd. case_decide; subst.
    + cbn [at_loc objs set_objs]. by rewrite lookup_insert.
    + rewrite <-H1. destruct l' as [b|z]; [|done]. cbn [at_loc objs set_objs]. rewrite lookup_insert_ne by congruence. done.
  - split; [done|]. split; [|split; [|done]].
    + intros l'. cbn [s_val set_val]. unfold upd. case_decide; subst.
      * cbn [at_loc opts set_opts]. by rewrite lookup_insert.
      * rewrite <-H1. destruct l' as [b|z]; [done|]. cbn [at_loc opts set_opts]. rewrite lookup_insert_ne by congruence. done.
    + intros z. cbn [s_opt set_val]. rewrite <-H2. cbn [opts set_opts]. rewrite <-(H1 (LOpt y)) in Hl. cbn [at_loc] in Hl.
      destruct (decide (y = z)) as [<-|]; [|by rewrite lookup_insert_ne].
      rewrite lookup_insert. destruct (opts w !! y) eqn:E; [|done]. by rewrite !bool_decide_eq_true_2.
Qed.
Lemma deref_run w s l v : shows w s → s_val s l = Some v → deref (Some l) w = Ok l w.
Proof. intros (H1 & _) Hl. unfold deref. by rewrite H1, Hl. Qed.
Lemma read_run w s l v : shows w s → s_val s l = Some v → read l w = Ok v w.
Proof. intros (H1 & _) Hl. unfold read. by rewrite H1, Hl. Qed.
Lemma get_ref_run w s x p : shows w s → s_ref s x = Some p → get_ref x w = Ok p w.
Proof. intros (_ & _ & _ & H4) Hx. unfold get_ref. by rewrite H4, Hx. Qed.
Lemma has_run w s x p : shows w s → s_ref s x = Some p → or_has_value x w = Ok (bool_decide (is_Some p)) w.
Proof. intros H Hx. unfold or_has_value, noexcept, bind. rewrite (get_ref_run _ _ _ _ H Hx). by destruct p. Qed.
Lemma star_run w s x l v : shows w s → s_ref s x = Some (Some l) → s_val s l = Some v → or_deref x w = Ok l w.
Proof. intros H Hx Hl. unfold or_deref, noexcept, bind. by rewrite (get_ref_run _ _ _ _ H Hx), (deref_run _ _ _ _ H Hl). Qed.
Lemma source_run w s a p : shows w s → designates s a = Some p →
  to_bool a w = Ok (bool_decide (is_Some p)) w ∧ ∀ l v, p = Some l → s_val s l = Some v → star a w = Ok l w.
Proof.
  intros H Ha. pose proof H as (H1 & H2 & H3 & H4). destruct a as [y|q|z]; cbn [designates to_bool star] in *.
  - specialize (H2 y). specialize (H1 (LOpt y)) as Hy. destruct (s_opt s y); [|done]. apply bool_decide_eq_true_1 in H2 as [o Ho]. injection Ha as <-.
    cbn [at_loc] in Hy. rewrite Ho in Hy |- *. rewrite <-Hy. destruct o as [u|].
    + split; [done|]. intros l v [= <-] Hl. by eapply deref_run.
    + split; [done|]. by intros l v ?.
  - rewrite H3, Ha. split; [by destruct p|]. intros l v -> Hl. by eapply deref_run.
  - split; [by eapply has_run|]. intros l v -> Hl. by eapply star_run.
Qed.

Lemma shows_opt w s y o : shows w s →
  shows (set_opts (<[y:=o]> (opts w)) w) (State (s_val (set_val s (LOpt y) o)) (upd (s_opt s) y true) (s_ptr s) (s_ref s)).
Proof.
  intros (H1 & H2 & H3 & H4). split; [|split; [|done]].
  - intros l. cbn [s_val set_val]. unfold upd. case_decide; subst; [cbn [at_loc opts set_opts]; by rewrite lookup_insert|].
    rewrite <-H1. destruct l as [b|z]; [done|]. cbn [at_loc opts set_opts]. by rewrite lookup_insert_ne by congruence.
  - intros z. cbn [s_opt opts set_opts]. unfold upd. case_decide; subst; [by rewrite lookup_insert|].
    rewrite lookup_insert_ne by done. apply H2.
Qed.

(** ** Calls *)
Lemma orexec_rep o w s : shows w s →
  match sstep o s with
  | Bad => True
  | Done r s' false => ∃ w', orexec o w = Ok r w' ∧ shows w' s' ∧ ncopy w' = ncopy w
  | Done r s' true =>
      s' = s ∧ orexec o w = if copy_fails (ncopy w) then Exn ElementThrow (bump w) else Ok r (bump w)
  | Throws e => orexec o w = Exn e w
  end.
Proof.
  intros H. pose proof H as (H1 & H2 & H3 & H4).
  destruct o as [a v|a|y o|y|p q|l|l v|x|x l|x a|x z|x z|x|x|x|x|x|x v|x|x d]; cbn [sstep orexec].
  - specialize (H1 (LObj a)) as Ha. cbn [at_loc] in Ha. destruct (s_val s (LObj a)) eqn:E; [done|]. rewrite Ha.
    eexists _. split; [reflexivity|]. split; [|done]. split; [|done]. intros l. cbn [s_val set_val]. unfold upd. case_decide; subst.
    + cbn [at_loc objs set_objs]. by rewrite lookup_insert.
    + rewrite <-H1. destruct l as [b|y]; [|done]. cbn [at_loc objs set_objs]. by rewrite lookup_insert_ne by congruence.
  - specialize (H1 (LObj a)) as Ha. cbn [at_loc] in Ha. destruct (s_val s (LObj a)) eqn:E; [|done]. rewrite Ha.
    eexists _. split; [reflexivity|]. split; [|done]. split; [|done]. intros l. cbn [s_val set_val]. unfold upd. case_decide; subst.
    + cbn [at_loc objs set_objs]. by rewrite lookup_delete.
    + rewrite <-H1. destruct l as [b|y]; [|done]. cbn [at_loc objs set_objs]. by rewrite lookup_delete_ne by congruence.
  - eexists _. split; [reflexivity|]. split; [|done]. by apply shows_opt.
  - destruct (s_opt s y) eqn:E; [|done]. rewrite <-H2 in E. apply bool_decide_eq_true_1 in E as [o Ho]. rewrite Ho.
    eexists _. split; [reflexivity|]. split; [|done]. split; [|split; [|done]].
    + intros l. cbn [s_val set_val]. unfold upd. case_decide; subst; [cbn [at_loc opts set_opts]; by rewrite lookup_delete|].
      rewrite <-H1. destruct l as [b|z]; [done|]. cbn [at_loc opts set_opts]. by rewrite lookup_delete_ne by congruence.
    + intros z. cbn [s_opt opts set_opts]. unfold upd. case_decide; subst; [rewrite lookup_delete; by apply bool_decide_eq_false_2|].
      rewrite lookup_delete_ne by done. apply H2.
  - eexists _. split; [reflexivity|]. split; [|done]. split; [done|]. split; [done|]. split; [|done].
    intros z. cbn [ptrs set_ptrs s_ptr]. unfold upd. case_decide; subst; [by rewrite lookup_insert|by rewrite lookup_insert_ne].
  - destruct (s_val s l) as [v|] eqn:E; [|done]. exists w. unfold bind. by rewrite (read_run _ _ _ _ H E).
  - destruct (s_val s l) as [u|] eqn:E; [|done]. destruct (shows_write _ _ _ v _ H E) as (w' & Hw & Hk & Hs).
    exists w'. unfold bind. by rewrite Hw.
  - destruct (s_ref s x) eqn:E; [done|]. eexists _. split; [reflexivity|]. split; [by apply shows_ref|done].
  - destruct (s_ref s x) eqn:E; [done|]. destruct (s_val s l) as [v|] eqn:El; [|done].
    unfold or_from_object, noexcept, bind. rewrite (deref_run _ _ _ _ H El).
    eexists _. split; [reflexivity|]. split; [by apply shows_ref|done].
  - destruct (s_ref s x) eqn:E; [done|]. destruct (designates s a) as [p|] eqn:Ea; [|done].
    destruct (source_run _ _ _ _ H Ea) as [Hb Hs]. unfold or_from, noexcept, bind. rewrite Hb. destruct p as [l|].
    + destruct (s_val s l) as [v|] eqn:El; [|done]. cbn. rewrite (Hs _ _ eq_refl El).
      eexists _. split; [reflexivity|]. split; [by apply shows_ref|done].
    + eexists _. split; [reflexivity|]. split; [by apply shows_ref|done].
  - destruct (s_ref s x) eqn:E; [done|]. destruct (s_ref s z) as [p|] eqn:Ez; [|done]. unfold or_copy, bind.
    rewrite (get_ref_run _ _ _ _ H Ez). eexists _. split; [reflexivity|]. split; [by apply shows_ref|done].
  - destruct (s_ref s x) eqn:E; [|done]. destruct (s_ref s z) as [p|] eqn:Ez; [|done]. unfold or_assign, bind.
    rewrite (get_ref_run _ _ _ _ H E), (get_ref_run _ _ _ _ H Ez).
    eexists _. split; [reflexivity|]. split; [by apply shows_ref|done].
  - destruct (s_ref s x) eqn:E; [|done]. unfold or_destroy, bind. rewrite (get_ref_run _ _ _ _ H E).
    eexists _. split; [reflexivity|]. split; [by apply shows_unref|done].
  - destruct (s_ref s x) as [p|] eqn:E; [|done]. unfold bind. rewrite (has_run _ _ _ _ H E).
    destruct p as [l|]; by eexists.
  - destruct (s_ref s x) as [p|] eqn:E; [|done]. unfold or_arrow, noexcept, bind. rewrite (get_ref_run _ _ _ _ H E). by eexists.
  - destruct (s_ref s x) as [[l|]|] eqn:E; try done. destruct (s_val s l) as [v|] eqn:El; [|done]. unfold bind.
    rewrite (star_run _ _ _ _ _ H E El). by eexists.
  - destruct (s_ref s x) as [[l|]|] eqn:E; try done. destruct (s_val s l) as [v|] eqn:El; [|done]. unfold bind.
    rewrite (star_run _ _ _ _ _ H E El), (read_run _ _ _ _ H El). by eexists.
  - destruct (s_ref s x) as [[l|]|] eqn:E; try done. destruct (s_val s l) as [u|] eqn:El; [|done]. unfold bind.
    rewrite (star_run _ _ _ _ _ H E El). destruct (shows_write _ _ _ v _ H El) as (w' & Hw & Hk & Hs). rewrite Hw. by eexists.
  - destruct (s_ref s x) as [[l|]|] eqn:E; try done.
    + destruct (s_val s l) as [v|] eqn:El; [|done]. unfold or_value, bind. rewrite (has_run _ _ _ _ H E). cbn.
      rewrite (star_run _ _ _ _ _ H E El). by eexists.
    + unfold or_value, bind. by rewrite (has_run _ _ _ _ H E).
  - destruct (s_ref s x) as [[l|]|] eqn:E; try done.
    + destruct (s_val s l) as [v|] eqn:El; [|done]. split; [done|]. unfold or_value_or, bind. rewrite (has_run _ _ _ _ H E). cbn.
      rewrite (star_run _ _ _ _ _ H E El), (read_run _ _ _ _ H El). unfold copy_value. by destruct (copy_fails (ncopy w)).
    + split; [done|]. unfold or_value_or, bind. rewrite (has_run _ _ _ _ H E). cbn. unfold copy_value. by destruct (copy_fails (ncopy w)).
Qed.
Lemma orrun_rep os : ∀ w s rs s' k', shows w s → srun os s (ncopy w) = Some (rs, s', k') →
  ∃ w', orrun os w = Finished rs w' ∧ shows w' s' ∧ ncopy w' = k'.
Proof.
  induction os as [|o os IH]; intros w s rs s' k' H Hs; cbn [srun orrun] in *.
  - injection Hs as <- <- <-. by exists w.
  - pose proof (orexec_rep o w s H) as Ho. destruct (sstep o s) as [|r s1 [|]|e]; [done| | |].
    + destruct Ho as [-> ->]. destruct (copy_fails (ncopy w)).
      * destruct (srun os s (S (ncopy w))) as [[[rs1 s2] k2]|] eqn:E; [|done]. injection Hs as <- <- <-.
        destruct (IH (bump w) s rs1 s2 k2 (shows_bump _ _ H) E) as (w' & -> & Hw). by exists w'.
      * destruct (srun os s (S (ncopy w))) as [[[rs1 s2] k2]|] eqn:E; [|done]. injection Hs as <- <- <-.
        destruct (IH (bump w) s rs1 s2 k2 (shows_bump _ _ H) E) as (w' & -> & Hw). by exists w'.
    + destruct Ho as (w1 & -> & H1 & Hk). rewrite <-Hk in Hs.
      destruct (srun os s1 (ncopy w1)) as [[[rs1 s2] k2]|] eqn:E; [|done]. injection Hs as <- <- <-.
      destruct (IH _ _ _ _ _ H1 E) as (w' & -> & Hw). by exists w'.
    + rewrite Ho. destruct (srun os s (ncopy w)) as [[[rs1 s2] k2]|] eqn:E; [|done]. injection Hs as <- <- <-.
      destruct (IH _ _ _ _ _ H E) as (w' & -> & Hw). by exists w'.
Qed.
Lemma shows_init : shows init_world init_state.
Proof. by split; [intros [?|?]|]. Qed.
End proofs.
